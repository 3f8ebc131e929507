(* The testers: accuracy, perfect predictions. *)
From Coq Require Import String Ascii ZArith NArith QArith Bool Permutation Sorted Lia Lqa List.
From Verif Require Import Base BaseFacts Model_Datamodel Spec_Datamodel Proofs_Datamodel Model_Conllu Spec_Conllu Proofs_Conllu Proofs_Conllu3 Proofs_Conllu4 Proofs_Conllu6 Proofs_Conllu7 Proofs_Conllu9 Proofs_Conllu10
  Model_UDEval Spec_UDEval Proofs_UDEval Proofs_UDEval4 Proofs_UDEval5 Proofs_UDEval6 Proofs_UDEval7 Proofs_UDEval8 Proofs_UDEval9 Spec_Processors Proofs_Processors
  Model_Tester Spec_Tester Proofs_Tester Proofs_Tester2 Proofs_Tester3 Proofs_Tester4.
Import ListNotations.
Open Scope Z_scope.

Lemma built_all ds : Forall built ds -> Forall doc_inv ds.
Proof. intros B. eapply Forall_impl; [|exact B]. exact built_inv. Qed.

Theorem tester_accuracy lower gold gsss tag pred :
  Forall built gold -> Forall2 sentence_groups gold gsss -> Forall no_pending gsss -> Forall loadable gold -> Forall distinct_features gold ->
  tag (prepare_test_data (gold, None)) = (pred, None) ->
  Forall built pred -> Forall loadable pred -> Forall distinct_features pred -> Forall2 same_segmentation gold pred ->
  exists f, dataset_test lower gold tag = Ok f /\ f MWeightedLAS = None /\
    (forall m, In m [MTokens; MSentences; MWords] -> exists sc, f m = Some sc /\ (places gold <> [] -> perfect sc)) /\
    forall m, In m tag_metrics -> exists sc marks, f m = Some sc /\ marked m (places gold) (places pred) marks /\
      scores sc (count (filter (fun x => snd x && counted m (fst x)) (combine (places gold) marks)))
        (count (filter (counted m) (places gold))) (count (filter (counted m) (places pred)))
        (Some (count (filter (counted m) (places gold)))).
Proof.
  intros B G P L D Et B' L' D' S.
  destruct (tester_scores lower gold gsss pred (built_all _ B) G P L D (built_all _ B') L' D' S) as (out & u & out' & u' & f & W & E & W' & E' & Ev & R).
  exists f. split; auto. unfold dataset_test, test, convert_to_internal, all_of. rewrite Et. cbn [fst snd bind]. rewrite W'. cbn [bind]. rewrite E'. cbn [bind].
  rewrite W. cbn [bind]. rewrite E. cbn [bind]. exact Ev.
Qed.

(* ---- the same annotations are written the same way ---- *)

Definition same_for_writer (t t' : token) : Prop :=
  place t t' /\ same_annotation t t' /\
  (forall p, tpos t = Some p -> NoDup (map fst (feats p))) /\ (forall p, tpos t' = Some p -> NoDup (map fst (feats p))).

Lemma feats_cell_same fs fs' : NoDup (map fst fs) -> NoDup (map fst fs') -> (forall k, dict_get fs' k = dict_get fs k) -> feats_cell fs' = feats_cell fs.
Proof.
  intros N N' H. assert (P : Permutation fs' fs).
  { apply NoDup_Permutation; [now apply NoDup_map_inv in N'|now apply NoDup_map_inv in N|].
    intros [k v]. split; intros X.
    - apply dict_get_In; auto. rewrite <- H. now apply In_dict_get.
    - apply dict_get_In; auto. rewrite H. now apply In_dict_get. }
  destruct fs as [|a fs]; [apply Permutation_sym, Permutation_nil in P; now subst|]. destruct fs' as [|b fs']; [apply Permutation_nil in P; discriminate|].
  rewrite !feats_cell_eq by discriminate. f_equal. apply isort_perm_eq.
  - exact (leb_of_ok _ str_cmp_ok).
  - intros x y _ _. exact (leb_of_antisym _ str_cmp_ok x y).
  - now apply Permutation_map.
Qed.

Lemma row_eq text i t misc : expected_row default_columns text i t misc =
  [print_Z i; text_of text t; shown (tlemma t); shown (upos_of t); shown (xpos_of t); feats_cell (feats_of t);
   (match thsent t with Some h => print_Z (h + 1) | None => print_Z (i - 1) end);
   (match thsent t with Some h => shown (tdeprel t) | None => of_string "_" end); of_string "_"; misc].
Proof. unfold expected_row, upos_of, xpos_of, feats_of. destruct (tpos t); reflexivity. Qed.

Lemma row_same text i t t' misc : same_for_writer t t' -> expected_row default_columns text i t' misc = expected_row default_columns text i t misc.
Proof.
  intros (P & (A1 & A2 & A3 & A4 & A5 & A6) & N & N'). rewrite !row_eq. destruct (place_text text t t' P) as [-> _].
  rewrite A1, A2, A3, A5, A6. replace (feats_cell (feats_of t')) with (feats_cell (feats_of t)); [reflexivity|].
  symmetry. apply feats_cell_same; unfold feats_of, feature_of in *.
  - destruct (tpos t) as [p|]; [exact (N p eq_refl)|constructor].
  - destruct (tpos t') as [p|]; [exact (N' p eq_refl)|constructor].
  - intros k. specialize (A4 k). destruct (tpos t), (tpos t'); auto.
Qed.

Lemma space_same text t t' : place t t' -> space_after text t' = space_after text t.
Proof. unfold place, space_after. intros (_ & -> & _). reflexivity. Qed.

Lemma word_rows_eq text ws ws' : Forall2 same_for_writer ws ws' -> forall i, word_rows default_columns text i ws' = word_rows default_columns text i ws.
Proof. induction 1 as [|t t' ws ws' S F IH]; intros i; cbn [word_rows]; [reflexivity|]. rewrite (row_same text i t t'), IH; auto. Qed.

Lemma rows_eq text gs gs' : Forall2 (group_rel same_for_writer) gs gs' -> forall i, expected_rows default_columns text i gs' = expected_rows default_columns text i gs.
Proof.
  induction 1 as [|g g' gs gs' G F IH]; intros i; [reflexivity|]. destruct g as [t|t ws], g' as [t'|t' ws']; try (destruct G; fail); cbn [expected_rows group_rel] in *.
  - rewrite IH, (row_same text i t t'), (space_same text t t') by (auto; apply G). reflexivity.
  - destruct G as [G1 G2]. assert (L : zlen ws' = zlen ws) by (unfold zlen; now rewrite (Forall2_length' _ _ _ G2)).
    rewrite L, IH, (word_rows_eq text ws ws') by auto. unfold expected_range. destruct (place_text text t t' (proj1 G1)) as [_ ->].
    rewrite (space_same text t t') by apply G1. reflexivity.
Qed.

Lemma grouped_writer ts gs : grouped_tokens ts gs -> forall ts', Forall2 same_for_writer ts ts' ->
  exists gs', grouped_tokens ts' gs' /\ Forall2 (group_rel same_for_writer) gs gs'.
Proof.
  induction 1 as [|t ts gs M G IH|t us ts gs M F X G IH]; intros ts' P; inversion P as [|? t' ? l P1 P2]; subst.
  - exists []. split; constructor.
  - destruct (IH _ P2) as (gs' & G' & R). exists (GWord t' :: gs'). split; constructor; auto. rewrite (place_multi _ _ (proj1 P1)). auto.
  - apply Forall2_app_inv_l in P2 as (us' & ts' & Pu & Pt & ->). destruct (IH _ Pt) as (gs' & G' & R).
    exists (GRange t' (t' :: us') :: gs'). split.
    + apply gt_multi; auto.
      * apply (place_multi _ _ (proj1 P1)); auto.
      * clear -P1 Pu F. revert F. induction Pu as [|u u' us us' Q Pu IHu]; intros F; constructor; inversion F; subst; auto.
        apply (place_span _ _ _ _ (proj1 P1) (proj1 Q)); auto.
      * intros x Hx. destruct ts' as [|x' ts']; [discriminate|]. injection Hx as ->. inversion Pt as [|y ? ? ? Q _]; subst.
        rewrite (place_span _ _ _ _ (proj1 P1) (proj1 Q)). apply X. reflexivity.
    + constructor; auto. split; auto.
Qed.

Definition same_written (d d' : document) : Prop :=
  dtext d' = dtext d /\ dsents d' = dsents d /\ Forall2 same_for_writer (dtokens d) (dtokens d').

Lemma written_groups d d' gss : same_written d d' -> sentence_groups d gss ->
  exists gss', sentence_groups d' gss' /\ Forall2 (Forall2 (group_rel same_for_writer)) gss gss'.
Proof.
  intros (_ & S & P) G. unfold sentence_groups in *. rewrite S. clear S. induction G as [|s gs ss gss G0 G IH].
  - exists []. split; constructor.
  - destruct IH as (gss' & G' & R). destruct (grouped_writer _ _ G0 (tokens_of (dtokens d') s)) as (gs' & G1 & R1).
    + apply Forall2_tokens_of. exact P.
    + exists (gs' :: gss'). split; constructor; auto.
Qed.

Lemma group_rel_impl {A B} (R R' : A -> B -> Prop) g g' : (forall a b, R a b -> R' a b) -> group_rel R g g' -> group_rel R' g g'.
Proof.
  intros H. destruct g, g'; cbn; auto. intros [G1 G2]. split; auto. eapply Forall2_impl; eauto.
Qed.

Lemma write_same gold pred gsss : Forall doc_inv gold -> Forall doc_inv pred -> Forall2 sentence_groups gold gsss -> Forall no_pending gsss ->
  Forall2 same_written gold pred -> write_str default_columns pred = write_str default_columns gold.
Proof.
  intros I I' G P S.
  assert (X : exists gsss', Forall2 sentence_groups pred gsss' /\ Forall2 (Forall2 (Forall2 (group_rel same_for_writer))) gsss gsss').
  { clear I I' P. revert gsss G. induction S as [|d d' gold pred S0 S IH]; intros gsss G; inversion G as [|? gss ? gsss' G0 G1]; subst.
    - exists []. split; constructor.
    - destruct (IH _ G1) as (g1 & A & B). destruct (written_groups d d' gss S0 G0) as (g2 & A2 & B2).
      exists (g2 :: g1). split; constructor; auto. }
  destruct X as (gsss' & G' & R).
  assert (P' : Forall no_pending gsss').
  { eapply pending_all; [|exact P]. eapply Forall2_impl; [|exact R]. intros a b H. eapply Forall2_impl; [|exact H]. intros a' b' H'.
    eapply Forall2_impl; [|exact H']. intros g g'. apply group_rel_impl. intros t t' Q. apply Q. }
  rewrite (writer_output default_columns gold gsss I (all_written gold) G P), (writer_output default_columns pred gsss' I' (all_written pred) G' P').
  f_equal. f_equal. clear -S R. revert gsss gsss' R. induction S as [|d d' gold pred (T & _) S IH]; intros gsss gsss' R; [destruct gsss, gsss'; reflexivity|].
  destruct R as [|gss gss' gsss gsss' R0 R]; [reflexivity|]. cbn [combine map fst snd]. f_equal; auto. f_equal. rewrite T.
  clear -R0. induction R0 as [|gs gs' gss gss' R0 R IH]; [reflexivity|]. cbn [map]. rewrite IH. f_equal. unfold sentence_text.
  now rewrite (rows_eq _ gs gs').
Qed.

Lemma same_written_intro gold pred : Forall distinct_features gold -> Forall distinct_features pred -> Forall2 same_segmentation gold pred ->
  Forall2 (fun d d' => Forall2 same_annotation (dtokens d) (dtokens d')) gold pred -> Forall2 same_written gold pred.
Proof.
  intros D D' S A. revert D D' A. induction S as [|d d' gold pred (T & Se & P) S IH]; intros D D' A; constructor.
  - inversion D as [|? ? D1 _]; inversion D' as [|? ? D1' _]; inversion A as [|? ? ? ? A1 _]; subst. split; auto. split; auto.
    assert (X : Forall2 (fun t t' => In t (dtokens d) /\ In t' (dtokens d')) (dtokens d) (dtokens d')).
    { clear -P. induction P as [|t t' l l' _ P IH]; constructor; [split; now left|]. eapply Forall2_impl; [|exact IH]. cbn. tauto. }
    unfold distinct_features in *.
    assert (Y : forall (l l' : list token), Forall2 same_annotation l l' -> Forall2 (fun t t' => tstart t' = tstart t /\ tend t' = tend t /\ tsub t' = tsub t /\ trepl t' = trepl t) l l' ->
      Forall2 (fun t t' => In t (dtokens d) /\ In t' (dtokens d')) l l' -> Forall2 same_for_writer l l').
    { intros l l' H. induction H as [|t t' l l' H0 H IHl]; intros H1 H2; constructor; inversion H1; inversion H2; subst; auto.
      split; auto. split; auto. split; intros p Ep; [apply (D1 t p)|apply (D1' t' p)]; tauto. }
    apply Y; auto.
  - inversion D; inversion D'; inversion A; subst; auto.
Qed.

Lemma total_pos m ds u gsss : In m tag_metrics -> Forall2 for_word (places ds) (u_words u) -> Forall2 sentence_groups ds gsss ->
  (exists it, In it (places ds) /\ counted m it = true) -> ~ (total (metric_weight None m) (u_words u) == 0)%Q.
Proof.
  intros M F _ (it & H1 & H2). rewrite (total_counted m (places ds)) by auto. unfold count. change 0%Q with (inject_Z 0). rewrite inject_Z_injective.
  assert (X : In it (filter (counted m) (places ds))) by now apply filter_In. destruct (filter (counted m) (places ds)); [destruct X|]. cbn [length]. lia.
Qed.

Theorem tester_perfect lower gold gsss tag pred :
  Forall built gold -> Forall2 sentence_groups gold gsss -> Forall no_pending gsss -> Forall loadable gold -> Forall distinct_features gold ->
  tag (prepare_test_data (gold, None)) = (pred, None) ->
  Forall built pred -> Forall distinct_features pred -> Forall2 same_segmentation gold pred ->
  Forall2 (fun d d' => Forall2 same_annotation (dtokens d) (dtokens d')) gold pred ->
  exists f, dataset_test lower gold tag = Ok f /\
    (forall m, f m = None <-> m = MWeightedLAS) /\
    forall m sc, f m = Some sc -> (exists it, In it (places gold) /\ counted m it = true) -> perfect sc.
Proof.
  intros B G P L D Et B' D' S A. pose proof (built_all _ B) as I. pose proof (built_all _ B') as I'.
  pose proof (write_same gold pred gsss I I' G P (same_written_intro _ _ D D' S A)) as WS.
  destruct (written_loaded default_columns gold gsss I (all_written gold) G P L) as (out & u & W & E & _ & _ & _ & _ & C5 & _).
  destruct (self_perfect lower out u None E) as (f & Ev & N & Pf). exists f. split; [|split].
  - unfold dataset_test, test, convert_to_internal, all_of. rewrite Et. cbn [fst snd bind]. rewrite WS, W. cbn [bind]. rewrite E. cbn [bind]. exact Ev.
  - intros m. rewrite N. tauto.
  - intros m sc Fm C. apply (Pf m sc Fm). pose proof (words_places gold u gsss G C5) as PW.
    assert (NZ : forall {X} (l : list X), l <> [] -> ~ (count l == 0)%Q).
    { intros X l Nl. unfold count. change 0%Q with (inject_Z 0). rewrite inject_Z_injective. destruct l; [congruence|]. cbn [length]. lia. }
    assert (Nw : u_words u <> []). { intros X. rewrite X in PW. inversion PW as [Y|]. destruct C as (it & C & _). rewrite <- Y in C. destruct C. }
    assert (Nt : u_tokens u <> [] /\ u_sents u <> []).
    { destruct (load_tiles _ _ E) as (TI1 & TI2 & TI3). destruct (u_words u) as [|w ws] eqn:Ew; [congruence|]. inversion TI3 as [|? ? X _]; subst.
      split; [intros Y; rewrite Y in X; destruct X|]. intros Y. rewrite Y in TI2. inversion TI2; subst.
      destruct (u_tokens u) as [|sp sps]; [destruct X|]. assert (0 < zlen (u_chars u)); [|lia].
      inversion TI1; subst. assert (Z0 : forall a b l, consecutive a b l -> a <= b). { clear. induction 1; lia. }
      match goal with H : consecutive (sp_end sp) _ _ |- _ => apply Z0 in H end. lia. }
    destruct m; cbn [metric_total]; try (apply NZ; tauto); try (eapply (total_pos _ gold); eauto; unfold tag_metrics; cbn [In]; tauto);
      try (change (metric_weight None MWords) with (fun _ : word => 1%Q); rewrite total_count; apply NZ; exact Nw).
Qed.

(* ---- gold data in a file ---- *)

Lemma newlines_id s : ~ In chCR s -> universal_newlines s = s.
Proof.
  induction s as [|c s IH]; intros H; [reflexivity|]. cbn [universal_newlines]. destruct (N.eqb_spec c chCR) as [->|Nc]; [exfalso; apply H; now left|].
  f_equal. apply IH. intros X. apply H. now right.
Qed.

Theorem file_perfect lower save contents gold u tag pred :
  read_file 1 default_columns contents = Ok (gold, None) -> load_conllu_file contents = Ok u -> write_str default_columns gold = Ok contents ->
  save = true \/ ~ In chCR contents ->
  Forall distinct_features gold -> tag (prepare_test_data (gold, None)) = (pred, None) ->
  Forall built pred -> Forall distinct_features pred -> Forall2 same_segmentation gold pred ->
  Forall2 (fun d d' => Forall2 same_annotation (dtokens d) (dtokens d')) gold pred ->
  exists f, file_test lower save contents tag = Ok f /\
    (forall m, f m = None <-> m = MWeightedLAS) /\
    forall m sc, f m = Some sc -> ~ (metric_total None u m == 0)%Q -> perfect sc.
Proof.
  intros R Lo W Sv D Et B' D' S A.
  unfold read_file in R.
  assert (B : Forall built gold). { apply Forall_forall. intros d Hd. exact (reader_constructed _ _ _ _ _ _ R Hd). }
  assert (O : Forall (fun d => zlen (dsents d) <= 1) gold).
  { eapply Forall_impl; [|exact (proj2 (reader_chunks _ _ _ _ _ R))]. cbn. intros d Hd. lia. }
  assert (G : exists gsss, Forall2 sentence_groups gold gsss /\ Forall no_pending gsss).
  { clear -O. induction O as [|d gold O0 O IH]; [exists []; split; constructor|]. destruct IH as (gsss & G & P).
    destruct (groups_unique d) as (gss & G0 & _). exists (gss :: gsss). split; constructor; auto. unfold no_pending.
    pose proof (Forall2_length' _ _ _ G0) as L0. unfold zlen in O0. destruct gss as [|a [|b gss]]; [constructor|constructor|]. cbn [length] in L0. lia. }
  destruct G as (gsss & G & P).
  pose proof (write_same gold pred gsss (built_all _ B) (built_all _ B') G P (same_written_intro _ _ D D' S A)) as WS. rewrite W in WS.
  unfold load_conllu_file in Lo. destruct (self_perfect lower _ u None Lo) as (f & Ev & N & Pf). exists f. split; [|split].
  - unfold file_test, read_file. rewrite R. cbn [bind]. unfold test, load_conllu_file, save_and_read, convert_to_internal, all_of. rewrite Et. cbn [fst snd bind].
    rewrite WS. cbn [bind]. unfold load_conllu_file.
    assert (X : (if save then load_conllu (universal_newlines contents) else load_conllu contents) = Ok u).
    { destruct save; [exact Lo|]. destruct Sv as [Sv|Sv]; [discriminate|]. rewrite newlines_id in Lo by auto. exact Lo. }
    destruct save; rewrite X; cbn [bind]; try rewrite Lo; cbn [bind]; exact Ev.
  - intros m. rewrite N. tauto.
  - exact Pf.
Qed.
