(* Properties C47-C51: padding, sparsification, composition and merging of feature extractors. *)
From Coq Require Import String Ascii ZArith NArith QArith Bool Lia Permutation List.
From Verif Require Import Base BaseFacts Model_Vocab Model_Builder Spec_Builder Proofs_Builder Proofs_Builder2 Proofs_Builder3
  Proofs_Builder5.
Import ListNotations.
Open Scope Z_scope.

(* ---------------- C47 ---------------- *)

Definition ex_ragged : nested := NList [NList [NList [NInt 1; NInt 2]; NList []]; NList []; NList [NList [NInt 3]]].
Definition ex_padded : nested := NList [NList [NList [NInt 1; NInt 2]; NList [NInt 0; NInt 0]];
                                        NList [NList [NInt 0; NInt 0]; NList [NInt 0; NInt 0]];
                                        NList [NList [NInt 3; NInt 0]; NList [NInt 0; NInt 0]]].
Definition ex_mixed : nested := NList [NList [NInt 1; NList [NInt 2]]].

(* A feature is rejected iff some depth has both scalars and lists; otherwise the result is rectangular, has the
   original entries at their places, only zeros elsewhere, and no list longer than the longest at its depth. *)
Theorem C47_padding : forall l,
  (homogeneous (NList l) -> exists v, pad_value (NList l) = Ok v /\ padded (NList l) v) /\
  (pad_value (NList l) = Err EValue <->
   exists p q a b, length p = length q /\ at_path p (NList l) = Some (NInt a) /\ at_path q (NList l) = Some (NList b)).
Proof.
  intros l. split.
  - intros H. destruct (pad_ok l H) as (p & l' & E). exists (NList l'). unfold pad_value. rewrite E. cbn [bind snd].
    split; [reflexivity|]. exact (pad_padded l p l' E).
  - rewrite <- pad_raises_iff. unfold pad_value. destruct (pad l) as [[p l']|e]; cbn [bind]; split; congruence.
Qed.
Print Assumptions C47_padding.

Example C47_case : pad_value ex_ragged = Ok ex_padded /\ pad_value ex_mixed = Err EValue /\
  at_path [0; 0]%nat ex_mixed = Some (NInt 1) /\ at_path [0; 1]%nat ex_mixed = Some (NList [NInt 2]).
Proof. repeat split. Qed.

(* The same for list objects that are extended in place, padded with shared padding objects: if no list object occurs
   at two depths, the feature afterwards stands for the padded value, and no object outside the feature is changed. *)
Theorem C47_padding_in_place : forall h a x l,
  stands_for h (HRef a) x -> nth_error h a = Some l -> layered h [HRef a] ->
  (homogeneous x -> exists p h' y, pad_heap (depth x) l h = Ok (p, h') /\ stands_for h' (HRef a) y /\ padded x y /\
     forall b, (b < length h)%nat -> (forall d, ~ In (HRef b) (hlevel h d l)) -> nth_error h' b = nth_error h b) /\
  (~ homogeneous x -> pad_heap (depth x) l h = Err EValue).
Proof.
  intros h a x l Hs Ha Hl. split.
  - intros Hh. destruct (pad_heap_padded h a x l Hs Hl Hh Ha) as (p & h' & y & E & Hy & Hp & Hf).
    exists p, h', y. repeat (split; [assumption|]). intros b Hb Hd. apply Hf; [exact Hb|]. intros [d H]. exact (Hd d H).
  - intros Hh. exact (pad_heap_mixed h a x l Hs Hh Ha).
Qed.
Print Assumptions C47_padding_in_place.

(* the ragged feature as objects: 0 is the feature, 1-3 its elements, 4-6 theirs *)
Definition ex_heap : heap := [[HRef 1; HRef 2; HRef 3]; [HRef 4; HRef 5]; []; [HRef 6]; [HInt 1; HInt 2]; []; [HInt 3]]%nat.
Example C47_case_in_place :
  stands_for ex_heap (HRef 0) ex_ragged /\
  exists p h', pad_heap (depth ex_ragged) [HRef 1; HRef 2; HRef 3] ex_heap = Ok (p, h') /\ stands_for h' (HRef 0) ex_padded /\
               nth_error h' 2 = Some [HRef 7; HRef 7].
Proof.
  split; [repeat (econstructor; try reflexivity)|].
  eexists; eexists; split; [vm_compute; reflexivity|]. split; [repeat (econstructor; try reflexivity)|reflexivity].
Qed.
(* an object occurring at two depths: the result is not rectangular *)
Example C47_shared_object :
  let h := [[HRef 1; HRef 2]; []; [HRef 1]]%nat in
  stands_for h (HRef 0) (NList [NList []; NList [NList []]]) /\
  exists p h', pad_heap 2 [HRef 1; HRef 2] h = Ok (p, h') /\
               stands_for h' (HRef 0) (NList [NList [NList []]; NList [NList [NList []]]]).
Proof.
  split; [repeat (econstructor; try reflexivity)|].
  eexists; eexists; split; [vm_compute; reflexivity|]. repeat (econstructor; try reflexivity).
Qed.

(* ---------------- C48 ---------------- *)

(* With enough outcomes of the random source the result has the same shape, and the i-th scalar is kept iff the i-th
   outcome exceeds the rate, and is OOV (1) otherwise. *)
Theorem C48_sparsification : forall rate x draws, (length (scalars x) <= length draws)%nat ->
  exists y rest, sparse rate x draws = Ok (y, rest) /\ same_shape x y /\ length (scalars y) = length (scalars x) /\
    forall i z r, nth_error (scalars x) i = Some z -> nth_error draws i = Some r ->
      ((rate < r)%Q -> nth_error (scalars y) i = Some z) /\ (~ (rate < r)%Q -> nth_error (scalars y) i = Some 1).
Proof. exact sparse_each. Qed.
Print Assumptions C48_sparsification.

(* rate 1: the outcomes are below 1, so everything is replaced *)
Theorem C48_rate_one : forall x draws y rest, Forall (fun r => (r < 1)%Q) draws -> sparse 1 x draws = Ok (y, rest) ->
  same_shape x y /\ Forall (fun z => z = 1) (scalars y).
Proof. exact sparse_one. Qed.
Print Assumptions C48_rate_one.

(* rate 0: the outcome 0 replaces a scalar *)
Theorem C48_refuted : exists x draws y rest, Forall (fun r => (0 <= r < 1)%Q) draws /\ sparse 0 x draws = Ok (y, rest) /\ y <> x.
Proof.
  exists (NList [NInt 5; NInt 6]), [0%Q; (1 # 2)%Q], (NList [NInt 1; NInt 6]), []. split; [|split].
  - repeat constructor; unfold Qle, Qlt; simpl; lia.
  - reflexivity.
  - discriminate.
Qed.
Print Assumptions C48_refuted.

(* rate 0 without the outcome 0 *)
Theorem C48_rate_zero_partial : forall x draws y rest, Forall (fun r => (0 < r)%Q) draws -> sparse 0 x draws = Ok (y, rest) -> y = x.
Proof. exact sparse_zero. Qed.
Print Assumptions C48_rate_zero_partial.

Example C48_case : sparse (1 # 4) (NList [NInt 5; NList [NInt 6; NInt 7]]) [(1 # 2)%Q; (1 # 4)%Q; (3 # 4)%Q; 0%Q]
  = Ok (NList [NInt 5; NList [NInt 1; NInt 7]], [0%Q]).
Proof. reflexivity. Qed.

(* ---------------- C50 ---------------- *)

Theorem C50_merge_dicts : forall V (ds : list (dict V)), Forall dict_ok ds ->
  (disjoint_parts ds -> exists d, merge_dicts ds = Ok d /\ union_of ds d) /\
  (~ disjoint_parts ds -> merge_dicts ds = Err EValue).
Proof.
  intros V ds H. rewrite <- (disjoint_iff ds H). split; intros Hd.
  - exists (concat ds). split; [exact (merge_dicts_ok ds H Hd)|exact (concat_union ds H Hd)].
  - exact (merge_dicts_err ds H Hd).
Qed.
Print Assumptions C50_merge_dicts.

Definition ex_k (s : string) (z : Z) : str * Z := (of_string s, z).
Example C50_case : merge_dicts [[ex_k "a" 1; ex_k "b" 2]; []; [ex_k "c" 3]] = Ok [ex_k "a" 1; ex_k "b" 2; ex_k "c" 3] /\
  merge_dicts [[ex_k "a" 1]; [ex_k "b" 2]; [ex_k "a" 1]] = Err EValue.
Proof. split; reflexivity. Qed.

(* ---------------- C51 ---------------- *)

(* the i-th token gets the i-th element of every label list *)
Theorem C51_interpretation : forall O V (f : O -> dict V -> result O) objs (value : dict (list V)) objs',
  dict_ok value -> value <> [] -> (forall k l, In (k, l) value -> length l = length objs) ->
  (interpret_each f objs value = Ok objs' <->
   length objs' = length objs /\
   forall i o, nth_error objs i = Some o ->
     exists d o', row_of i value d /\ f o d = Ok o' /\ nth_error objs' i = Some o').
Proof. exact @interpret_each_iff. Qed.
Print Assumptions C51_interpretation.

(* without any label name all the tokens are lost *)
Theorem C51_no_labels : forall O V (f : O -> dict V -> result O) objs, interpret_each f objs [] = Ok [].
Proof. exact interpret_none. Qed.
Print Assumptions C51_no_labels.

(* extraction followed by regrouping: every element has its features again *)
Theorem C51_regrouping : forall V (fs : list (dict V)) ks, Forall dict_ok fs -> ks <> [] ->
  (forall f k, In f fs -> (In k (dict_keys f) <-> In k ks)) ->
  length (per_element (collect fs)) = length fs /\
  forall i f d, nth_error fs i = Some f -> nth_error (per_element (collect fs)) i = Some d -> forall k, dict_get d k = dict_get f k.
Proof. exact @regroup_identity. Qed.
Print Assumptions C51_regrouping.

Definition ex_label_value : dict (list Z) := [(of_string "UPOS", [4; 5; 6]); (of_string "Case", [7; 8; 9])].
Definition ex_interp (o : list Z) (d : dict Z) : result (list Z) := Ok (o ++ map snd d).
Example C51_case : interpret_each ex_interp [[0]; [1]; [2]] ex_label_value = Ok [[0; 4; 7]; [1; 5; 8]; [2; 6; 9]] /\
  per_element (collect [[ex_k "a" 1; ex_k "b" 2]; [ex_k "b" 4; ex_k "a" 3]]) = [[ex_k "a" 1; ex_k "b" 2]; [ex_k "a" 3; ex_k "b" 4]].
Proof. split; reflexivity. Qed.

(* ---------------- C49 ---------------- *)

(* Merging never fails for builders that can be built, and every basic builder occurs in the result as often as
   before, below the same wrappers. *)
Theorem C49_structure : forall B (cls : B -> Z) bs, bs <> [] -> Forall buildable bs ->
  exists b, merge_builders B cls bs = Ok b /\ buildable b /\ Permutation (leaves b) (concat (map leaves bs)).
Proof. exact merge_structure. Qed.
Print Assumptions C49_structure.

(* The merged extractor computes the union of the features the given ones compute separately. *)
Theorem C49_features : forall B (cls : B -> Z) O (elements : O -> result (list O)) (basic : B -> O -> result (dict nested)) sparsify,
  (forall b x d, basic b x = Ok d -> dict_ok d) ->
  forall bs, bs <> [] -> Forall buildable bs -> exists b, merge_builders B cls bs = Ok b /\
    forall rate x ds, Forall2 (fun c d => features B O elements basic sparsify c rate x = Ok d) bs ds -> disjoint_parts ds ->
      exists d, features B O elements basic sparsify b rate x = Ok d /\ union_of ds d.
Proof. exact merge_features'. Qed.
Print Assumptions C49_features.

(* and the initializer has the union of the shapes and of the initial values *)
Theorem C49_initializers : forall B (cls : B -> Z) T (init : B -> result (dict T)),
  (forall b d, init b = Ok d -> dict_ok d) ->
  forall bs, bs <> [] -> Forall buildable bs -> exists b, merge_builders B cls bs = Ok b /\
    forall ds, Forall2 (fun c d => initial B T init c = Ok d) bs ds -> disjoint_parts ds ->
      exists d, initial B T init b = Ok d /\ union_of ds d.
Proof. exact merge_initial'. Qed.
Print Assumptions C49_initializers.

(* three word features, a sentence feature and nothing, as they are given to merge *)
Definition ex_bb (z : Z) : builder Z := BBasic Z z.
Definition ex_word_b (z : Z) : builder Z := BPad _ (BIter _ (BIter _ (BSparse _ (ex_bb z)))).
Definition ex_given : list (builder Z) :=
  [ex_word_b 10; BPad _ (BIter _ (ex_bb 20)); BEmpty _; ex_word_b 11; BComp _ [ex_word_b 30; BPad _ (BIter _ (BIter _ (ex_bb 12)))]].
Definition ex_merged : builder Z :=
  BComp _ [BPad _ (BIter _ (BComp _ [BIter _ (BSparse _ (BComp _ [ex_bb 10; ex_bb 11])); ex_bb 20]));
           BComp _ [ex_word_b 30; BPad _ (BIter _ (BIter _ (ex_bb 12)))]].
(* objects: lists of lists of words; features of a word are its length-like number under a name of its own *)
Inductive ex_obj := OWord (z : Z) | OSeq (l : list ex_obj).
Definition ex_elements (x : ex_obj) : result (list ex_obj) := match x with OSeq l => Ok l | OWord _ => Err EType end.
Definition ex_basic (b : Z) (x : ex_obj) : result (dict nested) :=
  Ok [([Z.to_N b], NInt (match x with OWord z => b * 100 + z | OSeq l => zlen l end))].
Definition ex_sparsify (x : ex_obj) (k : str) (r : Q) (v : nested) : nested := v.
Definition ex_batch : ex_obj := OSeq [OSeq [OWord 1; OWord 2]; OSeq [OWord 3]].
Example C49_case :
  Forall buildable ex_given /\ merge_builders Z (fun z => z / 10) ex_given = Ok ex_merged /\
  features Z ex_obj ex_elements ex_basic ex_sparsify ex_merged 0 ex_batch =
    Ok [([10%N], NList [NList [NInt 1001; NInt 1002]; NList [NInt 1003; NInt 0]]);
        ([11%N], NList [NList [NInt 1101; NInt 1102]; NList [NInt 1103; NInt 0]]);
        ([20%N], NList [NInt 2; NInt 1]);
        ([30%N], NList [NList [NInt 3001; NInt 3002]; NList [NInt 3003; NInt 0]]);
        ([12%N], NList [NList [NInt 1201; NInt 1202]; NList [NInt 1203; NInt 0]])].
Proof.
  split; [|split; vm_compute; reflexivity].
  repeat first [apply Forall_nil | apply Forall_cons | constructor | discriminate].
Qed.
