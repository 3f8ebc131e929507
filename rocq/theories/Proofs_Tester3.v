(* The scores of a tagger that keeps the segmentation. *)
From Coq Require Import String Ascii ZArith NArith QArith Bool Permutation Sorted Lia List.
From Verif Require Import Base BaseFacts Model_Datamodel Spec_Datamodel Proofs_Datamodel Model_Conllu Spec_Conllu Proofs_Conllu Proofs_Conllu3 Proofs_Conllu6 Proofs_Conllu7 Proofs_Conllu8
  Model_UDEval Spec_UDEval Proofs_UDEval Proofs_UDEval4 Proofs_UDEval5 Proofs_UDEval6 Proofs_UDEval7 Proofs_UDEval8 Proofs_UDEval9 Spec_Processors Proofs_Processors
  Model_Tester Spec_Tester Proofs_Tester Proofs_Tester2.
Import ListNotations.
Open Scope Z_scope.

(* ---- words and places ---- *)

Fixpoint number_from {A} (i : Z) (l : list A) : list (Z * A) :=
  match l with [] => [] | x :: l' => (i, x) :: number_from (i + 1) l' end.

Lemma enumerate_number {A} (l : list A) : enumerate l = number_from 0 l.
Proof.
  unfold enumerate, zrange, zlen. rewrite Nat2Z.id. change 0 with (Z.of_nat 0). generalize 0%nat.
  induction l as [|x l IH]; intros n; [reflexivity|]. cbn [length seq map combine number_from]. f_equal. rewrite IH. f_equal. lia.
Qed.

Lemma number_app {A} (a : list A) : forall i b, number_from i (a ++ b) = number_from i a ++ number_from (i + zlen a) b.
Proof.
  induction a as [|x a IH]; intros i b; cbn [app number_from].
  - change (zlen (@nil A)) with 0. now rewrite Z.add_0_r.
  - rewrite IH, zlen_cons. do 3 f_equal. lia.
Qed.

Definition row_for (it : Z * token) (cb : list str * bool) : Prop :=
  exists text misc, fst cb = kept_columns (expected_row default_columns text (fst it + 1) (snd it) misc) (snd cb).

Lemma word_rows_for text ws : forall i,
  Forall2 row_for (number_from (i - 1) ws) (map (fun row => (kept_columns row true, true)) (word_rows default_columns text i ws)).
Proof.
  induction ws as [|t ws IH]; intros i; cbn [number_from word_rows map]; constructor.
  - exists text, (of_string "_"). cbn [fst snd]. replace (i - 1 + 1) with i by lia. reflexivity.
  - replace (i - 1 + 1) with (i + 1 - 1) by lia. apply IH.
Qed.

Lemma written_words_for text gs : forall i,
  Forall2 row_for (number_from (i - 1) (flat_map members gs)) (written_words default_columns text i gs).
Proof.
  induction gs as [|[t|t ws] gs IH]; intros i; cbn [flat_map members written_words app number_from]; [constructor| |].
  - constructor.
    + eexists text, _. cbn [fst snd]. replace (i - 1 + 1) with i by lia. reflexivity.
    + replace (i - 1 + 1) with (i + 1 - 1) by lia. apply IH.
  - rewrite number_app. apply Forall2_app; [apply word_rows_for|].
    replace (i - 1 + zlen ws) with (i + zlen ws - 1) by lia. apply IH.
Qed.

Lemma document_words d gss : sentence_groups d gss ->
  Forall2 row_for (flat_map (fun s => enumerate (tokens_of (dtokens d) s)) (dsents d)) (concat (map (written_words default_columns (dtext d) 1) gss)).
Proof.
  unfold sentence_groups. induction 1 as [|s gs ss gss G F IH]; cbn [flat_map map concat]; [constructor|]. apply Forall2_app; auto.
  rewrite enumerate_number. destruct (grouped_members _ _ G) as [M _]. rewrite <- M. apply (written_words_for _ _ 1).
Qed.

Lemma documents_words ds gsss : Forall2 sentence_groups ds gsss ->
  Forall2 row_for (places ds) (concat (map (fun p => concat (map (written_words default_columns (dtext (fst p)) 1) (snd p))) (combine ds gsss))).
Proof.
  unfold places. induction 1 as [|d gss ds gsss G F IH]; cbn [flat_map combine map concat fst snd]; [constructor|]. apply Forall2_app; auto.
  now apply document_words.
Qed.

Lemma written_heads_number ts : forall i, written_heads default_columns i ts = map (fun it => compared_head it + 1) (number_from (i - 1) ts).
Proof.
  induction ts as [|t ts IH]; intros i; cbn [written_heads number_from map]; [reflexivity|].
  replace (i - 1 + 1) with (i + 1 - 1) by lia. rewrite <- IH. f_equal. unfold compared_head. cbn [fst snd].
  destruct (thsent t); [reflexivity|]. lia.
Qed.

Lemma heads_places ds : concat (concat (map (doc_heads default_columns) ds)) = map (fun it => compared_head it + 1) (places ds).
Proof.
  unfold places. induction ds as [|d ds IH]; [reflexivity|]. cbn [map concat flat_map]. rewrite concat_app, IH, map_app. f_equal.
  unfold doc_heads. clear IH. induction (dsents d) as [|s ss IH]; [reflexivity|]. cbn [map concat flat_map]. rewrite map_app, <- IH. f_equal.
  rewrite enumerate_number. apply (written_heads_number _ 1).
Qed.

Lemma parents_iff hss hss' : Forall2 (fun a b => length a = length b) hss hss' -> forall st k p p' h h',
  nth_error (expected_parents st hss) k = Some p -> nth_error (expected_parents st hss') k = Some p' ->
  nth_error (concat hss) k = Some h -> nth_error (concat hss') k = Some h' -> (p = p' <-> h = h').
Proof.
  induction 1 as [|hs hs' hss hss' L F IH]; intros st k p p' h h' A B C D; [destruct k; discriminate|].
  cbn [expected_parents concat] in *.
  destruct (Nat.lt_ge_cases k (length hs)) as [K|K].
  - rewrite nth_error_app1 in A, B, C, D by (rewrite ?map_length; lia). rewrite nth_error_map in A, B. rewrite C in A. rewrite D in B.
    cbn in A, B. injection A as <-. injection B as <-.
    destruct (Z.eqb_spec h 0), (Z.eqb_spec h' 0); split; intros X; try congruence; try lia; try discriminate. injection X as X. lia.
  - rewrite nth_error_app2 in A, B, C, D by (rewrite ?map_length; lia). rewrite map_length in A, B. rewrite L in A, C.
    assert (Z : zlen hs = zlen hs') by (unfold zlen; congruence). rewrite Z in A. eapply IH; eauto.
Qed.

Lemma written_heads_length cols ts : forall i, length (written_heads cols i ts) = length ts.
Proof. induction ts; intros i; cbn [written_heads length]; auto. Qed.

Lemma heads_shape ds ds' : Forall2 same_segmentation ds ds' ->
  Forall2 (fun a b => length a = length b) (concat (map (doc_heads default_columns) ds)) (concat (map (doc_heads default_columns) ds')).
Proof.
  induction 1 as [|d d' ds ds' (_ & S & P) F IH]; cbn [map concat]; [constructor|]. apply Forall2_app; auto. unfold doc_heads. rewrite S. clear S IH.
  induction (dsents d) as [|s ss IHs]; cbn [map]; constructor; auto. rewrite !written_heads_length.
  apply (Forall2_length' _ _ _ (Forall2_tokens_of _ _ _ s P)).
Qed.

(* ---- when the script finds agreement ---- *)

Definition feats_of (t : token) : dict str := match tpos t with Some p => feats p | None => [] end.

Lemma row_columns it w b : row_for it (w, b) ->
  nth 2 w [] = shown (tlemma (snd it)) /\ nth 3 w [] = shown (upos_of (snd it)) /\ nth 4 w [] = shown (xpos_of (snd it)) /\
  nth 5 w [] = feats_cell (feats_of (snd it)) /\ nth 7 w [] = compared_relation (snd it).
Proof.
  intros (text & misc & E). cbn [fst snd] in E. subst. unfold kept_columns, expected_row, upos_of, xpos_of, feats_of, compared_relation. cbn [cell nth].
  change (chosen default_columns 2) with true. change (chosen default_columns 3) with true. change (chosen default_columns 4) with true.
  change (chosen default_columns 5) with true. change (chosen default_columns 6) with true. change (chosen default_columns 7) with true. cbn [cell nth].
  repeat split; [destruct (tpos (snd it)); reflexivity|destruct (thsent (snd it)); reflexivity].
Qed.

Lemma agreement m it it' w v : In m tag_metrics -> row_for it (w_columns w, w_multi w) -> row_for it' (w_columns v, w_multi v) ->
  fine_features (feats_of (snd it)) -> fine_features (feats_of (snd it')) ->
  (w_parent w = w_parent v <-> compared_head it = compared_head it') ->
  (match compared m with
   | None => True
   | Some (cs, heads) => same_columns cs w v /\ (heads = true -> w_parent w = w_parent v)
   end <-> right m it it').
Proof.
  intros M R R' F F' H. apply row_columns in R as (A2 & A3 & A4 & A5 & A7). apply row_columns in R' as (B2 & B3 & B4 & B5 & B7).
  assert (Fe : nth 5 (w_columns w) [] = nth 5 (w_columns v) [] <-> forall k, feature_of (snd it') k = feature_of (snd it) k).
  { rewrite A5, B5, feats_cell_iff by auto. unfold feature_of, feats_of. split; intros X k; specialize (X k);
      destruct (tpos (snd it)), (tpos (snd it')); auto. }
  unfold same_columns.
  assert (S1 : forall c (P : nat -> Prop), Forall P [c] <-> P c).
  { intros c P. split; [now inversion 1|repeat constructor; auto]. }
  assert (S3 : forall a b c (P : nat -> Prop), Forall P [a; b; c] <-> P a /\ P b /\ P c).
  { intros a b c P. split; [inversion 1 as [|? ? X1 X2]; inversion X2 as [|? ? X3 X4]; inversion X4; auto|intros (?&?&?); repeat constructor; auto]. }
  assert (S0 : forall (P : nat -> Prop), Forall P [] <-> True) by (intros; split; auto).
  assert (Sym : forall a b : str, a = b <-> b = a) by (intros; split; auto).
  assert (SymZ : forall a b : Z, a = b <-> b = a) by (intros; split; auto).
  assert (T : forall P : Prop, (true = true -> P) <-> P) by tauto.
  assert (T' : forall P : Prop, (false = true -> P) <-> True) by (split; [auto|discriminate]).
  destruct M as [<-|[<-|[<-|[<-|[<-|[<-|[<-|[<-|[]]]]]]]]]; cbn [compared right]; rewrite ?S1, ?S3, ?S0, ?T, ?T', ?Fe, ?A2, ?A3, ?A4, ?A7, ?B2, ?B3, ?B4, ?B7, ?H;
    rewrite ?(Sym (shown (upos_of (snd it)))), ?(Sym (shown (xpos_of (snd it)))), ?(Sym (shown (tlemma (snd it)))), ?(Sym (compared_relation (snd it))), ?(SymZ (compared_head it)); tauto.
Qed.

(* ---- marks ---- *)

Lemma subseq_In {A} (a b : list A) x : subseq a b -> In x a -> In x b.
Proof. induction 1; cbn; tauto. Qed.

Lemma marks_of {A} (good l : list A) : subseq good l -> NoDup l ->
  exists marks, Forall2 (fun x b => b = true <-> In x good) l marks /\ good = map fst (filter snd (combine l marks)).
Proof.
  induction 1 as [l|x good l S IH|x good l S IH]; intros N.
  - exists (map (fun _ => false) l). split.
    + apply Forall2_map_r. clear. induction l; constructor; auto. split; [discriminate|intros []].
    + clear. induction l; cbn; auto.
  - inversion N as [|? ? N1 N2]; subst. destruct (IH N2) as (marks & F & E). exists (true :: marks). split; [|cbn; now rewrite <- E].
    constructor; [split; auto; intros; now left|].
    clear -F N1. assert (X : forall y, In y l -> y <> x) by congruence. clear N1. induction F; constructor.
    + rewrite H. split; [right; auto|]. intros [E|E]; auto. subst. exfalso. apply (X x0); [now left|auto].
    + apply IHF. intros; apply X; now right.
  - inversion N as [|? ? N1 N2]; subst. destruct (IH N2) as (marks & F & E). exists (false :: marks). split; [|cbn; now rewrite <- E].
    constructor; auto. split; [discriminate|]. intros X. exfalso. apply N1. eapply subseq_In; eauto.
Qed.
