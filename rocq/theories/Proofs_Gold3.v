(* Tagging with the gold labels. *)
From Coq Require Import String ZArith NArith QArith Bool Lia List.
From Verif Require Import Base BaseFacts Proofs_Datamodel Model_Datamodel Spec_Datamodel Model_Vocab Spec_Vocab Proofs_Vocab Model_Lemma Spec_Lemma Model_Features Spec_Features
  Model_Builder Spec_Builder Model_Processors Spec_Processors Proofs_Datamodel2 Proofs_Processors Proofs_UDEval9 Proofs_Tester2
  Model_Neural Spec_Neural Spec_Gold Proofs_Neural Proofs_Neural2 Proofs_Neural3 Proofs_Neural4 Proofs_Neural5 Proofs_Neural6 Proofs_Gold Proofs_Gold2.
Import ListNotations.
Open Scope Z_scope.

Lemma tiles_find a b ss k : tiles a b ss -> a <= k < b -> exists s, In s ss /\ sstart s <= k < send s.
Proof.
  induction 1 as [a|a b s ss E L H IH]; intros R; [lia|]. destruct (Z.ltb_spec k (send s)) as [K|K].
  - exists s. split; [left; auto|lia].
  - destruct IH as (s' & Hs & R'); [lia|]. exists s'. split; [right; auto|auto].
Qed.

Lemma tokens_of_at (l : list token) s k : 0 <= sstart s -> sstart s <= Z.of_nat k < send s ->
  nth_error (tokens_of l s) (k - Z.to_nat (sstart s)) = nth_error l k.
Proof.
  intros S0 R. unfold tokens_of. rewrite nth_error_firstn by lia. rewrite nth_error_skipn.
  replace (Z.to_nat (sstart s) + (k - Z.to_nat (sstart s)))%nat with k by lia. reflexivity.
Qed.

Section Gold.
Variables (lower : str -> str) (F : Type) (get_features : obj -> result F) (predict : F -> result (dict nested)).

Lemma text_same text (a b : token) : same_word a b -> text_of text a = text_of text b.
Proof. intros (E1 & E2 & _ & E4 & _). unfold text_of, doc_text_of. rewrite E1, E2, E4. reflexivity. Qed.

Theorem gold_tagged bs lbs ds i g d : provided bs lbs -> trainable ds lbs -> NoDup (map label_name lbs) -> Forall sized lbs ->
  label_interpreter lower bs ds = Ok i -> In g ds -> built g -> built d -> same_layout g d ->
  oracle lower F get_features predict bs ds g d ->
  exists d', tag_document lower F get_features predict i d = Ok d' /\ built d' /\ same_layout d d' /\
    forall k gt t t', nth_error (dtokens g) k = Some gt -> nth_error (dtokens d) k = Some t -> nth_error (dtokens d') k = Some t' ->
      written (fun lb p lem => recovers lower ds lb (dtext g) gt p lem) (by_class lbs) t t'.
Proof.
  intros Pv Tr Nd Sz Ei Hg Bg Bd (Lt & Ls & Lw) Or. pose proof (built_inv _ Bg) as Ig. pose proof (built_inv _ Bd) as Id.
  assert (Gp : forall s, In s (dsents g) -> exists p, predicted F get_features predict d s p /\ covers (length (tokens_of (dtokens g) s)) p /\
    forall lb, In lb lbs -> exists cells, column_of p (label_name lb) cells /\ Forall2 (tells lower ds lb (dtext g)) (tokens_of (dtokens g) s) cells).
  { intros s Hs. destruct (tiles_tokens g s Ig Hs) as (Ne & Inc).
    destruct (gold_prediction lower bs lbs ds i (dtext g) (tokens_of (dtokens g) s) Pv Tr Nd Sz Ei Ne) as (p & Ep & Cv & Col).
    { apply tokens_of_wf; auto. }
    { intros t Ht. unfold dataset_tokens. apply in_concat. exists (doc_dtokens g). split; [apply in_map; auto|]. apply in_map. auto. }
    exists p. split; [apply Or; auto|]. auto. }
  assert (Fw : forall s, Forall2 same_word (tokens_of (dtokens g) s) (tokens_of (dtokens d) s)) by (intros s; apply Forall2_tokens_of; auto).
  destruct (neural_document lower F get_features predict bs lbs ds i d Pv Tr Ei Bd) as (d' & Et & Bd' & SL & _ & _ & Pm).
  { intros s Hs. rewrite Ls in Hs. destruct (Gp s Hs) as (p & Pr & Cv & Col). assert (L := Forall2_length' _ _ _ (Fw s)). rewrite <- L.
    exists p. split; auto. split; auto. intros lb Hlb. destruct (Col lb Hlb) as (cells & Cc & F2). exists cells. split; auto.
    rewrite (Forall2_length' _ _ _ F2), firstn_all. clear -F2. induction F2 as [|t v ts cells (P & _) _ IH]; constructor; auto. }
  exists d'. split; auto. split; auto. split; auto. intros k gt t t' Hgt Ht Ht'.
  assert (Kr : 0 <= Z.of_nat k < zlen (dtokens g)).
  { assert (k < length (dtokens g))%nat by (apply nth_error_Some; congruence). unfold zlen. lia. }
  destruct (tiles_find _ _ _ _ (inv_tiles _ Ig) Kr) as (s & Hs & Rs).
  destruct (tiles_in _ _ _ _ (inv_tiles _ Ig) Hs) as (S0 & _).
  destruct (Gp s Hs) as (p & Pr & _ & Col). set (j := (k - Z.to_nat (sstart s))%nat) in *.
  assert (Hd : In s (dsents d)) by (rewrite Ls; auto).
  assert (At : forall l, nth_error (tokens_of l s) j = nth_error l k) by (intros l; apply tokens_of_at; lia).
  eapply written_impl; [|apply (Pm s p j t t' Hd Pr); rewrite At; auto].
  intros lb q l Hlb (cells & v & Cc & Hv & Dn). apply (proj1 (by_class_In _ _)) in Hlb.
  destruct (Col lb Hlb) as (cells' & (o' & Cc') & F2). destruct Cc as (o & Cc). rewrite Cc in Cc'. injection Cc' as <- _.
  rewrite <- (At (dtokens g)) in Hgt. destruct (Forall2_nth _ _ _ _ _ F2 Hgt) as (v' & Hv' & _ & Rc). assert (v' = v) by congruence. subst v'.
  apply Rc. rewrite Lt in Dn. rewrite <- (At (dtokens d)) in Ht. destruct (Forall2_nth _ _ _ _ _ (Fw s) Hgt) as (t1 & Ht1 & Sw).
  assert (t1 = t) by congruence. subst t1. rewrite (text_same _ _ _ Sw). exact Dn.
Qed.

(* the last element with a property *)
Lemma last_such {A} (P : A -> Prop) (dec : forall x, P x \/ ~ P x) l : (exists x, In x l /\ P x) ->
  exists before x after, l = before ++ x :: after /\ P x /\ forall y, In y after -> ~ P y.
Proof.
  induction l as [|a l IH]; intros (x & Hx & Px); [destruct Hx|].
  assert (D : (exists y, In y l /\ P y) \/ (forall y, In y l -> ~ P y)).
  { clear -dec. induction l as [|b l IH]; [right; intros y []|]. destruct IH as [(y & Hy & Py)|N]; [left; exists y; split; [right|]; auto|].
    destruct (dec b) as [Pb|Nb]; [left; exists b; split; [left|]; auto|]. right. intros y [<-|Hy]; auto. }
  destruct D as [E|N].
  - destruct (IH E) as (bf & y & af & -> & Py & Ny). exists (a :: bf), y, af. auto.
  - destruct Hx as [<-|Hx]; [|destruct (N x Hx Px)]. exists [], a, l. auto.
Qed.

Theorem gold_reproduced bs lbs ds i g d : provided bs lbs -> trainable ds lbs -> NoDup (map label_name lbs) -> Forall sized lbs ->
  label_interpreter lower bs ds = Ok i -> In g ds -> built g -> built d -> same_layout g d ->
  oracle lower F get_features predict bs ds g d ->
  (exists name st, In (LBPos name st) lbs) -> (exists name, In (LBLemma name) lbs) ->
  (forall lb, In lb lbs -> (exists name st, lb = LBPos name st) \/ (exists name, lb = LBLemma name)) ->
  exists d', tag_document lower F get_features predict i d = Ok d' /\ same_layout g d' /\
    Forall2 (fun gt t => same_pos (tpos gt) (tpos t) /\ tlemma t = tlemma gt) (dtokens g) (dtokens d').
Proof.
  intros Pv Tr Nd Sz Ei Hg Bg Bd SL Or (np & st & HP) (nl & HL) Only.
  destruct (gold_tagged bs lbs ds i g d Pv Tr Nd Sz Ei Hg Bg Bd SL Or) as (d' & Et & Bd' & SL' & Wr).
  exists d'. split; auto. destruct SL as (L1 & L2 & L3). destruct SL' as (M1 & M2 & M3).
  assert (LL := Forall2_length' _ _ _ L3). assert (LM := Forall2_length' _ _ _ M3).
  assert (C3 : Forall2 same_word (dtokens g) (dtokens d')).
  { apply Forall2_by_nth; [lia|]. intros k a c Ha Hc. destruct (Forall2_nth _ _ _ _ _ L3 Ha) as (b & Hb & (A1 & A2 & A3 & A4 & A5)).
    destruct (Forall2_nth _ _ _ _ _ M3 Hb) as (c' & Hc' & (B1 & B2 & B3 & B4 & B5)). assert (c' = c) by congruence. subst c'.
    unfold same_word. repeat split; congruence. }
  split; [split; [congruence|split; [congruence|exact C3]]|]. apply Forall2_by_nth; [lia|]. intros k gt t' Hgt Ht'.
  destruct (Forall2_nth _ _ _ _ _ L3 Hgt) as (t & Ht & _). destruct (Wr k gt t t' Hgt Ht Ht') as (_ & _ & WP & WL).
  assert (Dp : forall lb, writes_pos lb \/ ~ writes_pos lb) by (intros []; cbn; tauto).
  assert (Dl : forall lb, writes_lemma lb \/ ~ writes_lemma lb) by (intros []; unfold writes_lemma; cbn; tauto).
  split.
  - destruct (last_such writes_pos Dp (by_class lbs)) as (bf & lb & af & E & Wp & Na).
    { exists (LBPos np st). split; [apply by_class_In; auto|exact I]. }
    specialize (WP _ _ _ E Wp Na). destruct lb; try destruct Wp. exact WP.
  - destruct (last_such writes_lemma Dl (by_class lbs)) as (bf & lb & af & E & Wp & Na).
    { exists (LBLemma nl). split; [apply by_class_In; auto|intros []]. }
    specialize (WL _ _ _ E Wp Na). assert (Hlb : In lb lbs) by (apply by_class_In; rewrite E; apply in_or_app; right; left; auto).
    destruct (Only lb Hlb) as [(n & s0 & ->)|(n & ->)]; [destruct Wp; exact I|exact WL].
Qed.
End Gold.
