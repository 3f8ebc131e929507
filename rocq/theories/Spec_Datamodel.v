(* Specification vocabulary for the data model.  Uses only the data types
   (records) of the model; only head_chain and same_except_sentence_head mention API functions (.head and ==). *)
From Coq Require Import ZArith NArith Bool Permutation List.
From Verif Require Import Base Model_Datamodel.
Import ListNotations.
Open Scope Z_scope.

(* ---- objects that exist in python ---- *)

(* every Token object: 0 <= start < end, and a sub_index needs a replacement text *)
Definition token_wf (t : token) : Prop :=
  0 <= tstart t < tend t /\ (trepl t = None -> tsub t = 0).

(* every Sentence object *)
Definition sent_wf (s : sentence) : Prop := 0 <= sstart s < send s.

(* the optional sentences argument of Document *)
Definition sents_wf (o : option (list sentence)) : Prop :=
  match o with None => True | Some ss => Forall sent_wf ss end.

(* ---- layout of tokens ---- *)

Definition same_span (a b : token) : Prop := tstart a = tstart b /\ tend a = tend b.
Definition multiword (t : token) : Prop := trepl t <> None.

(* a lies entirely before b, or a and b are words of one multiword token in order *)
Definition before (a b : token) : Prop :=
  tend a <= tstart b \/ (same_span a b /\ tsub a < tsub b).

(* every token stands before every later one *)
Definition in_text_order (ts : list token) : Prop := ForallOrdPairs before ts.

(* equal in everything except the two head indices *)
Definition same_but_heads (a b : token) : Prop :=
  tstart a = tstart b /\ tend a = tend b /\ tpos a = tpos b /\ tlemma a = tlemma b /\
  tdeprel a = tdeprel b /\ tsub a = tsub b /\ trepl a = trepl b /\ textras a = textras b.

(* words of a multiword token follow each other with consecutive numbers and a new
   multiword token starts with 0; nothing is said about the very first token *)
Definition numbered (ts : list token) : Prop :=
  forall i a b, nth_error ts i = Some a -> nth_error ts (S i) = Some b -> multiword b ->
    (multiword a /\ same_span a b /\ tsub b = tsub a + 1) \/
    (~ (multiword a /\ same_span a b) /\ tsub b = 0).

(* ---- sentences ---- *)

(* the sentences cover the token indices a .. b-1 one after another *)
Inductive tiles : Z -> Z -> list sentence -> Prop :=
| tiles_nil a : tiles a a []
| tiles_cons a b s ss : sstart s = a -> a < send s -> tiles (send s) b ss -> tiles a b (s :: ss).

(* the tokens with index start .. end-1 *)
Definition tokens_of (ts : list token) (s : sentence) : list token :=
  firstn (Z.to_nat (send s - sstart s)) (skipn (Z.to_nat (sstart s)) ts).

(* ---- heads ---- *)

(* head_means st n d h m: in a sentence of n tokens starting at token st, the pair
   of document head index d and sentence head index h (each possibly absent) says: no head (m = None),
   root (m = Some (-1)) or the m-th token of the sentence. *)
Inductive head_means (st n : Z) : option Z -> option Z -> option Z -> Prop :=
| hm_none : head_means st n None None None
| hm_root_s : head_means st n None (Some (-1)) (Some (-1))
| hm_root_d : head_means st n (Some (-1)) None (Some (-1))
| hm_root_b : head_means st n (Some (-1)) (Some (-1)) (Some (-1))
| hm_sent h : 0 <= h < n -> head_means st n None (Some h) (Some h)
| hm_doc h : 0 <= h < n -> head_means st n (Some (st + h)) None (Some h)
| hm_both h : 0 <= h < n -> head_means st n (Some (st + h)) (Some h) (Some h).

(* the two given indices do not contradict each other *)
Definition heads_agree (st : Z) (t : token) : Prop :=
  forall d h, thdoc t = Some d -> thsent t = Some h -> d <> -1 -> h <> -1 -> d = h + st.

(* heads of one sentence: None no head, Some (-1) root, Some h the h-th token of the sentence *)
Inductive reaches_root (heads : list (option Z)) : nat -> Prop :=
| rr_root i : nth_error heads i = Some (Some (-1)) -> reaches_root heads i
| rr_step i h : nth_error heads i = Some (Some (Z.of_nat h)) ->
                reaches_root heads h -> reaches_root heads i.

Definition dependency_tree (heads : list (option Z)) : Prop :=
  (forall i, nth_error heads i <> Some None) /\
  (exists r, nth_error heads r = Some (Some (-1)) /\
             forall r', nth_error heads r' = Some (Some (-1)) -> r' = r) /\
  (forall i h, nth_error heads i = Some (Some h) -> h = -1 \/ 0 <= h < Z.of_nat (length heads)) /\
  (forall i, (i < length heads)%nat -> reaches_root heads i).

Definition unparsed (heads : list (option Z)) : Prop := Forall (fun h => h = None) heads.

(* what a sentence view shows of a token's head: root, no head, or the index *)
Definition shown_head (t : token) : option Z :=
  if match thdoc t with Some d => d =? -1 | None => false end then Some (-1) else thsent t.

Definition well_parsed (ts : list token) : Prop :=
  unparsed (map shown_head ts) \/ dependency_tree (map shown_head ts).

(* the optional sentences argument, in another order *)
Definition same_sents (o o' : option (list sentence)) : Prop :=
  match o, o' with
  | None, None => True
  | Some ss, Some ss' => Permutation ss ss'
  | _, _ => False
  end.

(* a head index of -1 (root) appears in both views or in neither *)
Definition minus1_agree (t : token) : Prop := thdoc t = Some (-1) <-> thsent t = Some (-1).

(* a path of next steps that ends at the last item *)
Inductive visits {V} (next : V -> result (option V)) : V -> list V -> Prop :=
| visits_last v : next v = Ok None -> visits next v [v]
| visits_step v w l : next v = Ok (Some w) -> visits next w l -> visits next v (v :: l).

(* following .head until it is None *)
Inductive head_chain : navtoken -> list navtoken -> Prop :=
| hc_root v : nav_head v = Ok None -> head_chain v []
| hc_step v w l : nav_head v = Ok (Some w) -> head_chain w l -> head_chain v (w :: l).

Definition span_eqb (a b : token) : bool := (tstart a =? tstart b) && (tend a =? tend b).

(* two lookups agree *)
Definition get_rel {V} (R : V -> V -> Prop) (x y : option V) : Prop :=
  match x, y with
  | Some v, Some w => R v w
  | None, None => True
  | _, _ => False
  end.

(* values python can build: dictionaries have unique keys at every depth *)
Inductive pyval_wf : pyval -> Prop :=
| wf_none : pyval_wf PNone
| wf_bool b : pyval_wf (PBool b)
| wf_int z : pyval_wf (PInt z)
| wf_str s : pyval_wf (PStr s)
| wf_list l : Forall pyval_wf l -> pyval_wf (PList l)
| wf_dict d : dict_ok d -> Forall (fun kv => pyval_wf (snd kv)) d -> pyval_wf (PDict d).

(* Pos *)
Definition pos_wf (p : pos) : Prop := dict_ok (feats p).
Definition pos_same (p q : pos) : Prop :=
  upos p = upos q /\ xpos p = xpos q /\ forall k, dict_get (feats p) k = dict_get (feats q) k.

(* the same tags are missing *)
Definition same_shape (p q : pos) : Prop :=
  (upos p = None <-> upos q = None) /\ (xpos p = None <-> xpos q = None).

Definition token_full_wf (t : token) : Prop :=
  token_wf t /\ (forall p, tpos t = Some p -> pos_wf p) /\ pyval_wf (PDict (textras t)).

(* everything t1 == t2 looks at *)
Definition same_except_sentence_head (a b : token) : Prop :=
  tstart a = tstart b /\ tend a = tend b /\ get_rel pos_same (tpos a) (tpos b) /\
  tlemma a = tlemma b /\ thdoc a = thdoc b /\ tdeprel a = tdeprel b /\ tsub a = tsub b /\
  trepl a = trepl b /\
  forall k, get_rel (fun v w => pyval_eqb v w = true) (dict_get (textras a) k) (dict_get (textras b) k).

(* what is left of a printed document after deleting the inserted annotations *)
Definition copied (ps : list piece) : str :=
  concat (map (fun p => match p with Copied s => s | Inserted _ => [] end) ps).

