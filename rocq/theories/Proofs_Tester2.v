(* What is loaded of written documents, word by word. *)
From Coq Require Import String Ascii ZArith NArith QArith Bool Permutation Sorted Lia List.
From Verif Require Import Base BaseFacts Model_Datamodel Spec_Datamodel Proofs_Datamodel Model_Conllu Spec_Conllu Proofs_Conllu Proofs_Conllu3 Proofs_Conllu6 Proofs_Conllu7
  Model_UDEval Spec_UDEval Proofs_UDEval Proofs_UDEval4 Proofs_UDEval5 Proofs_UDEval6 Proofs_UDEval7 Proofs_UDEval8 Proofs_UDEval9 Spec_Processors Model_Tester Spec_Tester.
Import ListNotations.
Open Scope Z_scope.

(* ---- the FEATS cell ---- *)

Definition fine_features (fs : dict str) : Prop :=
  NoDup (map fst fs) /\ Forall (fun kv => clean_entry (fst kv) /\ clean_entry (snd kv)) fs.

Lemma entry_text_inj a b : (clean_entry (fst a) /\ clean_entry (snd a)) -> (clean_entry (fst b) /\ clean_entry (snd b)) ->
  entry_text a = entry_text b -> a = b.
Proof.
  intros [(_ & A & _) (_ & A' & _)] [(_ & B & _) (_ & B' & _)] E. destruct a as [k v], b as [k' v']. unfold entry_text in E. cbn [fst snd] in *.
  pose proof (f_equal (split 61%N) E) as S. rewrite !split_app in S by auto. injection S as <- S.
  apply app_inv_head in E. injection E as <-. auto.
Qed.

Lemma entry_no_bar kv : clean_entry (fst kv) /\ clean_entry (snd kv) -> ~ In 124%N (entry_text kv).
Proof.
  intros [(_ & _ & A) (_ & _ & B)] X. unfold entry_text in X. apply in_app_iff in X. destruct X as [X|[X|X]]; auto. discriminate.
Qed.

Lemma in_map_entry fs fs' kv : fine_features fs -> fine_features fs' -> Permutation (map entry_text fs) (map entry_text fs') ->
  In kv fs -> In kv fs'.
Proof.
  intros [_ C] [_ C'] P H. assert (X : In (entry_text kv) (map entry_text fs')). { eapply Permutation_in; [exact P|]. now apply in_map. }
  apply in_map_iff in X as (kv' & E & H'). rewrite Forall_forall in C, C'. apply entry_text_inj in E; [now subst|auto|auto].
Qed.

Lemma fine_get fs fs' : fine_features fs -> fine_features fs' -> (forall kv, In kv fs <-> In kv fs') -> forall k, dict_get fs k = dict_get fs' k.
Proof.
  intros [N _] [N' _] H k. destruct (dict_get fs k) as [v|] eqn:E.
  - symmetry. apply In_dict_get; auto. apply H. now apply dict_get_In.
  - destruct (dict_get fs' k) as [v|] eqn:E'; auto. apply dict_get_In in E'; auto. apply H in E'. apply In_dict_get in E'; auto. congruence.
Qed.

Lemma get_perm fs fs' : fine_features fs -> fine_features fs' -> (forall k, dict_get fs k = dict_get fs' k) -> Permutation fs fs'.
Proof.
  intros [N _] [N' _] H. apply NoDup_Permutation; [now apply NoDup_map_inv in N|now apply NoDup_map_inv in N'|].
  intros [k v]. split; intros X.
  - apply dict_get_In; auto. rewrite <- H. now apply In_dict_get.
  - apply dict_get_In; auto. rewrite H. now apply In_dict_get.
Qed.

Lemma feats_entries fs : fine_features fs -> fs <> [] -> split 124%N (feats_cell fs) = isort str_leb (map entry_text fs).
Proof.
  intros [_ C] N. rewrite feats_cell_eq by auto.
  assert (P := isort_perm str_leb (map entry_text fs)).
  apply split_join.
  - intros E. rewrite E in P. apply Permutation_sym, Permutation_nil in P || apply Permutation_nil in P. destruct fs; [auto|discriminate].
  - apply Forall_forall. intros x Hx.
    assert (X : In x (map entry_text fs)) by (first [exact (Permutation_in _ P Hx)|exact (Permutation_in _ (Permutation_sym P) Hx)]).
    apply in_map_iff in X as (kv & <- & Hk). apply entry_no_bar. rewrite Forall_forall in C. auto.
Qed.

Lemma entry_has_eq kv : In 61%N (entry_text kv).
Proof. unfold entry_text. apply in_app_iff. right. now left. Qed.

Lemma feats_not_underscore fs : fine_features fs -> fs <> [] -> feats_cell fs <> of_string "_".
Proof.
  intros F N E. pose proof (feats_entries fs F N) as S. rewrite E in S.
  assert (P := isort_perm str_leb (map entry_text fs)). rewrite <- S in P. change (split 124%N (of_string "_")) with [of_string "_"] in P.
  destruct fs as [|kv fs]; [auto|].
  assert (X : In (entry_text kv) [of_string "_"]).
  { first [eapply Permutation_in; [exact P|left; reflexivity]|eapply Permutation_in; [apply Permutation_sym; exact P|left; reflexivity]]. }
  destruct X as [X|[]]. pose proof (entry_has_eq kv) as Y. rewrite <- X in Y. destruct Y as [Y|[]]. discriminate.
Qed.

Lemma feats_cell_iff fs fs' : fine_features fs -> fine_features fs' ->
  (feats_cell fs = feats_cell fs' <-> forall k, dict_get fs' k = dict_get fs k).
Proof.
  intros F F'. split; intros H.
  - destruct fs as [|a fs]; [destruct fs' as [|b fs']; [reflexivity|]|destruct fs' as [|b fs']].
    + exfalso. apply (feats_not_underscore (b :: fs')); auto; discriminate.
    + exfalso. apply (feats_not_underscore (a :: fs)); auto; discriminate.
    + assert (P : Permutation (map entry_text (a :: fs)) (map entry_text (b :: fs'))).
      { pose proof (feats_entries _ F ltac:(discriminate)) as E1. pose proof (feats_entries _ F' ltac:(discriminate)) as E2.
        rewrite H, E2 in E1. pose proof (isort_perm str_leb (map entry_text (a :: fs))) as P1. pose proof (isort_perm str_leb (map entry_text (b :: fs'))) as P2.
        rewrite E1 in P2. eapply Permutation_trans; [exact P1|]. apply Permutation_sym. exact P2. }
      intros k. apply fine_get; auto. intros kv. split; intros X; [eapply (in_map_entry (b :: fs')) in X|eapply (in_map_entry (a :: fs)) in X]; eauto using Permutation_sym.
  - assert (P : Permutation fs fs') by (apply get_perm; auto).
    destruct fs as [|a fs]; [apply Permutation_nil in P; now subst|]. destruct fs' as [|b fs']; [apply Permutation_sym, Permutation_nil in P; discriminate|].
    rewrite !feats_cell_eq by discriminate. f_equal. apply isort_perm_eq.
    + exact (leb_of_ok _ str_cmp_ok).
    + intros x y _ _. exact (leb_of_antisym _ str_cmp_ok x y).
    + now apply Permutation_map.
Qed.

(* ---- documents with the same segmentation ---- *)

Definition place (t t' : token) : Prop := tstart t' = tstart t /\ tend t' = tend t /\ tsub t' = tsub t /\ trepl t' = trepl t.

Lemma place_multi t t' : place t t' -> (multiword t' <-> multiword t).
Proof. unfold place, multiword. intros (_ & _ & _ & ->). tauto. Qed.
Lemma place_span a a' b b' : place a a' -> place b b' -> (same_span a' b' <-> same_span a b).
Proof. unfold place, same_span. intros (-> & -> & _) (-> & -> & _). tauto. Qed.

Lemma grouped_same ts gs : grouped_tokens ts gs -> forall ts', Forall2 place ts ts' ->
  exists gs', grouped_tokens ts' gs' /\ Forall2 (group_rel place) gs gs'.
Proof.
  induction 1 as [|t ts gs M G IH|t us ts gs M F X G IH]; intros ts' P; inversion P as [|? t' ? l P1 P2]; subst.
  - exists []. split; constructor.
  - destruct (IH _ P2) as (gs' & G' & R). exists (GWord t' :: gs'). split; constructor; auto. rewrite (place_multi _ _ P1). auto.
  - apply Forall2_app_inv_l in P2 as (us' & ts' & Pu & Pt & ->). destruct (IH _ Pt) as (gs' & G' & R).
    exists (GRange t' (t' :: us') :: gs'). split.
    + apply gt_multi; auto.
      * apply (place_multi _ _ P1); auto.
      * clear -P1 Pu F. revert F. induction Pu as [|u u' us us' Q Pu IHu]; intros F; constructor; inversion F; subst; auto.
        apply (place_span _ _ _ _ P1 Q); auto.
      * intros x Hx. destruct ts' as [|x' ts']; [discriminate|]. injection Hx as ->. inversion Pt as [|y ? ? ? Q _]; subst.
        rewrite (place_span _ _ _ _ P1 Q). apply X. reflexivity.
    + constructor; auto. split; auto.
Qed.

Lemma Forall2_tokens_of (R : token -> token -> Prop) l l' s : Forall2 R l l' -> Forall2 R (tokens_of l s) (tokens_of l' s).
Proof.
  intros F. unfold tokens_of.
  assert (S : forall n, Forall2 R (skipn n l) (skipn n l')).
  { intros n. revert l l' F. induction n as [|n IH]; intros l l' F; [exact F|]. destruct F; cbn; auto. }
  assert (T : forall n a b, Forall2 R a b -> Forall2 R (firstn n a) (firstn n b)).
  { induction n as [|n IH]; intros a b H; [constructor|]. destruct H; cbn; constructor; auto. }
  auto.
Qed.

Lemma sentence_groups_same d d' gss : same_segmentation d d' -> sentence_groups d gss ->
  exists gss', sentence_groups d' gss' /\ Forall2 (Forall2 (group_rel place)) gss gss'.
Proof.
  intros (_ & S & P) G. unfold sentence_groups in *. rewrite S. clear S. induction G as [|s gs ss gss G0 G IH].
  - exists []. split; constructor.
  - destruct IH as (gss' & G' & R). destruct (grouped_same _ _ G0 (tokens_of (dtokens d') s)) as (gs' & G1 & R1).
    + apply Forall2_tokens_of. exact P.
    + exists (gs' :: gss'). split; constructor; auto.
Qed.

Lemma ends_same gs gs' : Forall2 (group_rel place) gs gs' -> ends_multiword gs' -> ends_multiword gs.
Proof.
  intros F (l & t & ws & ->). apply Forall2_app_inv_r in F as (a & b & Fa & Fb & ->). inversion Fb as [|g ? ? ? G0 Fn]; subst.
  inversion Fn; subst. destruct g as [r|r vs]; [destruct G0|]. exists a, r, vs. reflexivity.
Qed.

Lemma no_pending_same gss gss' : Forall2 (Forall2 (group_rel place)) gss gss' -> no_pending gss -> no_pending gss'.
Proof.
  unfold no_pending. induction 1 as [|gs gs' gss gss' G F IH]; intros N; [exact N|].
  destruct F as [|gs2 gs2' gss gss' G2 F]; [constructor|]. cbn [removelast] in *. inversion N as [|? ? N1 N2]; subst. constructor; auto.
  intros X. apply N1. eapply ends_same; eauto.
Qed.

(* ---- the rows of both ---- *)

Definition same_form (c c' : list str) : Prop := cell c 1 = cell c' 1.

Lemma place_text text t t' : place t t' -> text_of text t' = text_of text t /\ doc_text_of text t' = doc_text_of text t.
Proof. unfold place, text_of, doc_text_of. intros (-> & -> & _ & ->). auto. Qed.

Lemma word_rows_same cols text ws ws' : Forall2 place ws ws' -> forall i, Forall2 same_form (word_rows cols text i ws) (word_rows cols text i ws').
Proof.
  induction 1 as [|t t' ws ws' P F IH]; intros i; cbn [word_rows]; constructor; auto.
  unfold same_form, expected_row. cbn [cell nth]. symmetry. apply place_text; auto.
Qed.

Lemma cell_groups_same cols text gs gs' : Forall2 (group_rel place) gs gs' -> forall i,
  Forall2 (group_rel same_form) (cell_groups cols text i gs) (cell_groups cols text i gs').
Proof.
  induction 1 as [|g g' gs gs' G F IH]; intros i; [constructor|]. destruct g as [t|t ws], g' as [t'|t' ws']; try (destruct G; fail).
  - cbn [cell_groups]. constructor; auto. cbn [group_rel] in *. unfold same_form, expected_row. cbn [cell nth]. symmetry. apply place_text; auto.
  - destruct G as [G1 G2]. cbn [cell_groups]. assert (L : zlen ws' = zlen ws) by (unfold zlen; now rewrite (Forall2_length' _ _ _ G2)).
    rewrite L. constructor; auto. split; [|apply word_rows_same; auto].
    unfold same_form, expected_range. cbn [cell nth]. symmetry. apply place_text; auto.
Qed.

Lemma chars_same g g' : group_rel same_form g g' -> group_chars g' = group_chars g.
Proof.
  unfold group_chars. destruct g as [c|c ws], g' as [c'|c' ws']; cbn [group_rel surface_row]; intros G; try (destruct G; fail).
  - now rewrite <- G.
  - destruct G as [G _]. now rewrite <- G.
Qed.

Lemma sentence_chars_same gs gs' : Forall2 (group_rel same_form) gs gs' -> sentence_chars gs' = sentence_chars gs.
Proof. unfold sentence_chars. induction 1; cbn [map concat]; auto. rewrite (chars_same _ _ H). congruence. Qed.

Lemma expected_tokens_same gs gs' : Forall2 (group_rel same_form) gs gs' -> forall a, expected_tokens a gs' = expected_tokens a gs.
Proof. induction 1; intros a; cbn [expected_tokens]; auto. rewrite (chars_same _ _ H), IHForall2. reflexivity. Qed.

Lemma expected_sentences_same gss gss' : Forall2 (Forall2 (group_rel same_form)) gss gss' -> forall a, expected_sentences a gss' = expected_sentences a gss.
Proof. induction 1; intros a; cbn [expected_sentences]; auto. rewrite (sentence_chars_same _ _ H), IHForall2. reflexivity. Qed.

Definition same_facts (f f' : span * list str * bool) : Prop :=
  fst (fst f) = fst (fst f') /\ snd f = snd f' /\ nth 1 (snd (fst f)) [] = nth 1 (snd (fst f')) [].

Lemma expected_words_same gs gs' : Forall2 (group_rel same_form) gs gs' -> forall a,
  Forall2 same_facts (expected_words a gs) (expected_words a gs').
Proof.
  induction 1 as [|g g' gs gs' G F IH]; intros a; cbn [expected_words]; [constructor|]. rewrite (chars_same _ _ G). apply Forall2_app; auto.
  destruct g as [c|c ws], g' as [c'|c' ws']; cbn [group_rel words_of map] in *; try (destruct G; fail).
  - constructor; [|constructor]. split; [reflexivity|]. split; [reflexivity|]. cbn [fst snd kept_columns nth]. unfold same_form in G. now rewrite G.
  - destruct G as [_ G]. rewrite !map_map. clear -G. induction G as [|w w' ws ws' S G IH]; cbn [map]; constructor; auto.
    repeat split. exact S.
Qed.

(* ---- what is loaded ---- *)

Lemma written_loaded cols ds gsss : Forall doc_inv ds -> Forall (fun d => tags_writable cols (dtokens d)) ds ->
  Forall2 sentence_groups ds gsss -> Forall no_pending gsss -> Forall loadable ds ->
  let cgss := concat (map (fun p => map (cell_groups cols (dtext (fst p)) 1) (snd p)) (combine ds gsss)) in
  exists out u, write_str cols ds = Ok out /\ load_conllu out = Ok u /\
    u_chars u = sentence_chars (concat cgss) /\ u_tokens u = expected_tokens 0 (concat cgss) /\ u_sents u = expected_sentences 0 cgss /\
    map word_facts (u_words u) = expected_words 0 (concat cgss) /\
    map (fun w => (w_columns w, w_multi w)) (u_words u) =
      concat (map (fun p => concat (map (written_words cols (dtext (fst p)) 1) (snd p))) (combine ds gsss)) /\
    map w_parent (u_words u) = expected_parents 0 (concat (map (doc_heads cols) ds)).
Proof.
  intros V T G P L cgss. destruct (written_loads cols ds gsss V T G P L) as (out & u & W & E & C1 & C2).
  exists out, u. split; auto. split; auto.
  assert (R : Forall doc_ready ds). { apply Forall_forall. intros d I0. rewrite Forall_forall in V, L. split; auto. }
  pose proof (documents_lines cols ds gsss R G) as UL.
  assert (O : out = concat (map (fun p => doc_out cols (fst p) (snd p)) (combine ds gsss))).
  { pose proof (writer_output cols ds gsss V T G P) as W'. rewrite W in W'. injection W' as ->. reflexivity. }
  rewrite <- O in UL. fold cgss in UL. rewrite (load_is_steps _ _ UL) in E.
  destruct (steps_ok _ _ _ empty_loaded E) as (_ & S1 & S2 & S3 & S4 & _).
  cbn [empty_ud u_chars u_tokens u_words u_sents app map] in *. change (zlen (@nil char)) with 0 in *. auto 8.
Qed.

Lemma cgss_same cols ds gsss ds' gsss' : Forall2 same_segmentation ds ds' -> Forall2 (Forall2 (Forall2 (group_rel place))) gsss gsss' ->
  Forall2 (Forall2 (group_rel same_form))
    (concat (map (fun p => map (cell_groups cols (dtext (fst p)) 1) (snd p)) (combine ds gsss)))
    (concat (map (fun p => map (cell_groups cols (dtext (fst p)) 1) (snd p)) (combine ds' gsss'))).
Proof.
  intros S. revert gsss gsss'. induction S as [|d d' ds ds' S0 S IH]; intros gsss gsss' F; [constructor|].
  destruct F as [|gss gss' gsss gsss' F0 F]; [constructor|]. cbn [combine map concat fst snd]. apply Forall2_app; auto.
  destruct S0 as (-> & _). clear -F0. induction F0; cbn [map]; constructor; auto. apply cell_groups_same; auto.
Qed.

Lemma facts_forall2 (l l' : list word) : Forall2 same_facts (map word_facts l) (map word_facts l') ->
  Forall2 (fun w v => w_span w = w_span v /\ w_multi w = w_multi v /\ form w = form v) l l'.
Proof.
  revert l'. induction l as [|w l IH]; intros [|v l'] F; cbn [map] in F; inversion F as [|? ? ? ? (A & B & C) F']; subst; constructor; auto.
Qed.
