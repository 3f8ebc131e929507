(* Lemmas about the losses. *)
From Coq Require Import String Ascii ZArith NArith QArith Bool List Lia Setoid.
From Verif Require Import Base BaseFacts Model_Layers Model_Loss Spec_Layers Spec_Loss Proofs_Layers.
Import ListNotations.
Open Scope nat_scope.

Lemma qtotal_cons x l : qtotal (x :: l) = (x + qtotal l)%Q.
Proof. reflexivity. Qed.
Lemma qtotal_nil : qtotal [] = 0%Q.
Proof. reflexivity. Qed.

Lemma qtotal_app l m : (qtotal (l ++ m) == qtotal l + qtotal m)%Q.
Proof. induction l as [|x l IH]; cbn [app]; rewrite ?qtotal_cons, ?qtotal_nil; [ring|].  rewrite IH. ring. Qed.

Lemma qtotal_concat ls : (qtotal (concat ls) == qtotal (map qtotal ls))%Q.
Proof. induction ls as [|l ls IH]; [reflexivity|]. cbn [concat map]. rewrite qtotal_app, IH. reflexivity. Qed.

Lemma qtotal_ext {X} (f g : X -> Q) l : (forall x, In x l -> (f x == g x)%Q) -> (qtotal (map f l) == qtotal (map g l))%Q.
Proof.
  induction l as [|x l IH]; intros H; [reflexivity|]. cbn [map]; rewrite ?qtotal_cons, ?qtotal_nil. 
  rewrite (H x (or_introl eq_refl)), IH; [reflexivity|]. intros y Hy. apply H. now right.
Qed.

Lemma qtotal_scale l q : (qtotal (map (fun y => y * q)%Q l) == qtotal l * q)%Q.
Proof. induction l as [|x l IH]; cbn [map]; rewrite ?qtotal_cons, ?qtotal_nil; [ring|].  rewrite IH. ring. Qed.

Lemma qtotal_add {X} (f g : X -> Q) l : (qtotal (map (fun x => f x + g x)%Q l) == qtotal (map f l) + qtotal (map g l))%Q.
Proof.
  induction l as [|x l IH]; cbn [map]; rewrite ?qtotal_cons, ?qtotal_nil; [ring|].
   rewrite IH. ring.
Qed.

Lemma qtotal_zero {X} (l : list X) : (qtotal (map (fun _ => 0%Q) l) == 0)%Q.
Proof. induction l as [|x l IH]; cbn [map]; rewrite ?qtotal_cons, ?qtotal_nil; [reflexivity|].  rewrite IH. ring. Qed.

Lemma qtotal_swap {X Y} (f : X -> Y -> Q) xs ys :
  (qtotal (map (fun x => qtotal (map (f x) ys)) xs) == qtotal (map (fun y => qtotal (map (fun x => f x y) xs)) ys))%Q.
Proof.
  induction xs as [|x xs IH]; cbn [map].
  - rewrite ?qtotal_cons, ?qtotal_nil. symmetry. apply qtotal_zero.
  - rewrite ?qtotal_cons, ?qtotal_nil.  rewrite IH.
    rewrite <- qtotal_add. reflexivity.
Qed.

(* ---------- the mask ---------- *)

Definition mask_row (n m : nat) : list Q := map (fun j => if j <? n then 1%Q else 0%Q) (seq 0 m).

Lemma mask_from {X} (h : X -> Q) : forall m i n r, n <= i + m -> n - i <= length r ->
  (qtotal (map2 (fun x q => h x * q)%Q r (map (fun j => if j <? n then 1%Q else 0%Q) (seq i m))) == qtotal (map h (firstn (n - i) r)))%Q.
Proof.
  induction m as [|m IH]; intros i n r H1 H2; cbn [seq map].
  - replace (n - i) with 0 by lia. destruct r; reflexivity.
  - destruct r as [|x r]; [rewrite firstn_nil; reflexivity|]. cbn [map2]; rewrite ?qtotal_cons, ?qtotal_nil.
    
    cbn [length] in H2. rewrite IH by lia. destruct (Nat.ltb_spec i n) as [L|L].
    + replace (n - i) with (S (n - S i)) by lia. cbn [firstn map]; rewrite ?qtotal_cons, ?qtotal_nil.
       ring.
    + replace (n - i) with 0 by lia. replace (n - S i) with 0 by lia. cbn [firstn map]; rewrite ?qtotal_cons, ?qtotal_nil. ring.
Qed.

Definition masked_sum {X} (h : X -> Q) (raw : list (list X)) (lens : list nat) : Q :=
  qtotal (map2 (fun r m => qtotal (map2 (fun x q => h x * q)%Q r m)) raw (sequence_mask lens)).

Lemma masked_rows {X} (h : X -> Q) m : forall lens raw, (forall n, In n lens -> n <= m) -> Forall2 (fun n (r : list X) => n <= length r) lens raw ->
  (qtotal (map2 (fun r q => qtotal (map2 (fun x q => h x * q)%Q r q)) raw
     (map (fun n => map (fun j => if j <? n then 1%Q else 0%Q) (seq 0 m)) lens))
   == qtotal (concat (map2 (fun n r => map h (firstn n r)) lens raw)))%Q.
Proof.
  intros lens raw Hm H. induction H as [|n r lens raw Hn _ IH]; [reflexivity|]. cbn [map map2 concat]; rewrite ?qtotal_cons, ?qtotal_nil.
  rewrite qtotal_app. apply Qplus_comp.
  - rewrite mask_from; [now rewrite Nat.sub_0_r| |lia]. cbn. apply Hm. now left.
  - apply IH. intros k Hk. apply Hm. now right.
Qed.

Lemma masked_sum_words {X} (h : X -> Q) raw lens : Forall2 (fun n (r : list X) => n <= length r) lens raw ->
  (masked_sum h raw lens == qtotal (concat (map2 (fun n r => map h (firstn n r)) lens raw)))%Q.
Proof. intros H. apply masked_rows; [apply maximum_le|exact H]. Qed.

(* ---------- the words ---------- *)

Lemma row_words {L X Y R} (d : L) (f : L -> Y -> R) (lab : X -> Y) m z i : forall (s : list X) (row : list L) t, length s <= length row ->
  firstn (length s) (map2 f row (map lab (pad_to m z s)))
  = map (fun w => f (nth (snd (fst w) - t) row d) (lab (snd w))) (words_from i t s).
Proof.
  intros s row t H.
  assert (forall (s : list X) (row : list L) k t, length s <= length row -> t <= k ->
    firstn (length s) (map2 f row (map lab (pad_to m z s)))
    = map (fun w => f (nth (snd (fst w) - k) row d) (lab (snd w))) (words_from i k s)) as K.
  { clear. intros s. unfold pad_to. generalize (repeat z (m - length s)) as tail. induction s as [|x s IH]; intros tail row k t H _; [reflexivity|].
    destruct row as [|l row]; cbn [length] in H; [lia|]. cbn [app map map2 length firstn words_from fst snd]. rewrite Nat.sub_diag. cbn [nth].
    f_equal. rewrite (IH tail row (S k) 0) by lia. apply map_ext_in. intros w Hw. f_equal.
    assert (S k <= snd (fst w)) as Lw.
    { clear -Hw. revert k Hw. induction s as [|y s IH]; intros k Hw; [destruct Hw|]. destruct Hw as [<-|Hw]; [cbn; lia|]. apply IH in Hw. lia. }
    replace (snd (fst w) - k) with (S (snd (fst w) - S k)) by lia. reflexivity. }
  exact (K s row t t H (le_n t)).
Qed.

Lemma words_from_index {X} i : forall (s : list X) t w, In w (words_from i t s) -> fst (fst w) = i.
Proof. induction s as [|x s IH]; intros t w; [intros []|]. intros [<-|H]; [reflexivity|]. exact (IH _ _ H). Qed.

Lemma words_of_ge {X} : forall (b : list (list X)) i w, In w (words_of i b) -> i <= fst (fst w).
Proof.
  induction b as [|s b IH]; intros i w H; [destruct H|]. cbn [words_of] in H. apply in_app_iff in H as [H|H].
  - apply words_from_index in H. lia.
  - apply IH in H. lia.
Qed.

Lemma batch_words {L X Y R} (d : L) (f : L -> Y -> R) (lab : X -> Y) (h : R -> Q) m z : forall (b : list (list X)) (t : list (list L)) i,
  length t = length b -> (forall r, In r t -> forall x, In x b -> length x <= length r) ->
  concat (map2 (fun n r => map h (firstn n r)) (map (@length _) b) (map2 (map2 f) t (map (map lab) (map (pad_to m z) b))))
  = map (fun w => h (f (nth (snd (fst w)) (nth (fst (fst w) - i) t []) d) (lab (snd w)))) (words_of i b).
Proof.
  induction b as [|s b IH]; intros [|row t] i E H; try discriminate; [reflexivity|]. injection E as E.
  cbn [map map2 concat words_of]. rewrite map_app. f_equal.
  - rewrite (row_words d f lab m z i s row 0) by (apply H; now left). rewrite map_map. apply map_ext_in. intros w Hw.
    apply words_from_index in Hw. rewrite Hw, !Nat.sub_diag, Nat.sub_0_r. reflexivity.
  - rewrite (IH t (S i) E) by (intros r Hr x Hx; apply H; now right). apply map_ext_in. intros w Hw. apply words_of_ge in Hw.
    replace (fst (fst w) - i) with (S (fst (fst w) - S i)) by lia. reflexivity.
Qed.

Lemma raw_lengths {L X Y R} (f : L -> Y -> R) (lab : X -> Y) m z : forall (b : list (list X)) (t : list (list L)),
  length t = length b -> (forall r, In r t -> forall x, In x b -> length x <= length r) ->
  Forall2 (fun n (r : list R) => n <= length r) (map (@length _) b) (map2 (map2 f) t (map (map lab) (map (pad_to m z) b))).
Proof.
  induction b as [|s b IH]; intros [|row t] E H; try discriminate; [constructor|]. injection E as E. cbn [map map2]. constructor.
  - rewrite map2_length, map_length, pad_to_length. specialize (H row (or_introl eq_refl) s (or_introl eq_refl)). lia.
  - apply IH; [exact E|]. intros r Hr x Hx. apply H; now right.
Qed.

Lemma norm_eq {X} (b : list (list X)) : (sentence_norm (map (@length _) b) == inject_Z (zlen (concat b)))%Q.
Proof.
  unfold sentence_norm, zlen. induction b as [|s b IH]; [reflexivity|]. cbn [map concat]; rewrite ?qtotal_cons, ?qtotal_nil.
   rewrite IH, app_length, Nat2Z.inj_add, inject_Z_plus. reflexivity.
Qed.

(* the masked sum of the fed batch is the sum over its words *)
Lemma fed_words {L X Y R} (d : L) (f : L -> Y -> R) (lab : X -> Y) (h : R -> Q) m z (b : list (list X)) (t : list (list L)) :
  rectangular b t ->
  (masked_sum h (map2 (map2 f) t (map (map lab) (map (pad_to m z) b))) (map (@length _) b)
   == over_words (fun i j x => h (f (at_word d t i j) (lab x))) b)%Q.
Proof.
  intros [E H]. rewrite masked_sum_words by now apply raw_lengths. rewrite (batch_words d f lab h m z b t 0 E H).
  unfold over_words, at_word. 
  apply qtotal_ext. intros w _. rewrite Nat.sub_0_r. reflexivity.
Qed.
