(* Configurations: which configurations are set up, tasks. *)
From Coq Require Import String Ascii ZArith NArith QArith Bool List Lia Permutation.
From Verif Require Import Base BaseFacts Proofs_Datamodel Model_Datamodel Spec_Datamodel Model_Vocab Proofs_Vocab Model_Lemma Proofs_Lemma2 Model_Features Model_Builder Spec_Builder
  Proofs_Features Proofs_Features2 Proofs_Features4 Proofs_Labels Proofs_Labels2 Proofs_Labels3 Proofs_Builder3 Model_Neural Spec_Neural Model_Network Spec_Network Proofs_Network2 Proofs_Network3 Proofs_Processors Model_Config Spec_Config
  Proofs_Config3 Proofs_Config4 Proofs_Config5 Proofs_Config6 Proofs_Config8 Proofs_Config9 Proofs_Config11 Proofs_Config12 Proofs_Config15 Proofs_Config16.
Import ListNotations.
Open Scope Z_scope.

(* ---- the labels ---- *)
Lemma lemmas_runs ds : runs (build_lemmas ds) <-> dataset_tokens ds <> [].
Proof.
  unfold build_lemmas, count_labels. rewrite runs_bind. split.
  - intros (l & E & _) X. rewrite X in E. discriminate.
  - intros N. destruct (id2obj_comparable lemma_eqb lemma_cmp (count_list lemma_eqb (map (fun x => tlemma (dt_tok x)) (dataset_tokens ds)))) as (l & E).
    + intros X. apply count_list_nil in X; [|apply (lo_equiv _ _ _ lemma_order)]. apply map_eq_nil in X. auto.
    + intros [a|] [b|] _ _; eexists; reflexivity.
    + exists l. split; [exact E|apply runs_ok].
Qed.
Lemma rules_runs lower th ds : runs (build_rules lower th ds) <-> dataset_tokens ds <> [] /\ forall x, In x (dataset_tokens ds) -> tlemma (dt_tok x) <> None.
Proof.
  split; [|intros [N H]; apply build_rules_succeeds; auto]. intros R. unfold build_rules in R. apply runs_bind in R. destruct R as (labels & E & R). split.
  - intros X. rewrite X in E. cbn [mapM] in E. injection E as <-. apply runs_bind in R. destruct R as (l & R & _). discriminate.
  - intros x J. apply mapM_ok in E. destruct (In_nth_error _ _ J) as (i & Hi). destruct (Forall2_nth _ _ _ _ _ E Hi) as (y & _ & Hy).
    unfold suffix_transformation in Hy. destruct (tlemma (dt_tok x)); [discriminate|discriminate Hy].
Qed.
Lemma chars_runs seg th ds : runs (build_lemma_chars seg th ds) <-> segments_lemmas ds seg.
Proof.
  unfold build_lemma_chars, segments_lemmas. rewrite runs_bind. split.
  - intros (l & E & _) x J. apply mapM_ok in E. destruct (In_nth_error _ _ J) as (i & Hi). destruct (Forall2_nth _ _ _ _ _ E Hi) as (y & _ & Hy).
    unfold segment_lemma in Hy. destruct (tlemma (dt_tok x)) as [w|]; cbn [of_option bind] in Hy; [eauto|discriminate].
  - intros H. assert (X : exists l, mapM (fun x => segment_lemma seg (tlemma (dt_tok x))) (dataset_tokens ds) = Ok l).
    { clear -H. induction (dataset_tokens ds) as [|x l IH]; [eexists; reflexivity|]. destruct (H x (or_introl eq_refl)) as (w & y & Ew & Ey).
      destruct IH as (l' & E); [intros z J; apply H; right; auto|]. cbn [mapM]. unfold segment_lemma at 1. rewrite Ew. cbn [of_option bind]. rewrite Ey. cbn [bind]. rewrite E. eexists; reflexivity. }
    destruct X as (l & E). exists l. split; [exact E|apply runs_ok].
Qed.
Lemma lens_nonempty st ds b : build_pos_labels st ds = Ok b -> pl_lens b <> [].
Proof.
  intros H. unfold build_pos_labels in H. apply bind_ok_iff in H. destruct H as (s & Es & H). apply bind_ok_iff in H. destruct H as (counts & Ec & H).
  apply bind_ok_iff in H. destruct H as (l & El & H). injection H as <-. cbn [pl_lens]. apply mapM_length in El. apply count_parts_tables in Ec.
  assert (N : counts <> []).
  { assert (X : split_names s <> []).
    { destruct s; cbn [split_names]; try discriminate. intros X.
      assert (J : In n_UPOS (dict_keys (dict_update [(n_UPOS, tt); (n_XPOS, tt)] (map (fun k => (k, tt)) keys)))) by (apply keys_update; left; left; reflexivity).
      rewrite X in J. destruct J. }
    intros Y. rewrite Ec in Y. unfold tables in Y. apply map_eq_nil in Y. destruct (split_names s); [congruence|discriminate]. }
  destruct counts as [|[n c] counts]; [congruence|]. destruct l; [discriminate|]. discriminate.
Qed.

Section Tasks.
Variables (V : Type) (to_float : str -> result V) (zero : V) (lower : str -> str) (stack_dict : result unit) (ds : list document).
Variables (k : shared_kind) (fc : features_config) (tcs : list task_config) (shapes : dict shape).
Notation shapes_of := (feature_shapes V to_float zero lower).
Hypothesis Osh : dict_ok shapes.
Hypothesis Fsh : forall fb, In fb (all_features fc tcs) -> exists sh, shapes_of ds fb = Ok sh /\ incl sh shapes.
Hypothesis Lsh : forall lb, In lb (all_labels tcs) -> exists sh, label_shapes lower ds lb = Ok sh /\ incl sh shapes.
Variables (shi sh : dict tensor).
Hypothesis Inp : dict_keys shi = map fb_name (shared_features fc).
Hypothesis Keys : forall x, In x (dict_keys sh) <-> shared_layer k fc x \/ x = n_mask \/ x = n_norm.

Lemma own_input name t : name = n_applicable \/ name = n_input -> dict_get (dict_update [(name, t)] shi) name = Some t.
Proof.
  intros Hn. rewrite dict_get_update; [|unfold dict_ok; rewrite Inp; apply shared_nodup].
  assert (X : dict_get shi name = None).
  { apply dict_get_None. rewrite Inp. intros J. apply shared_known in J. destruct Hn as [-> | ->]; cbn [In] in J; intuition discriminate. }
  rewrite X. cbn [dict_get]. rewrite (proj2 (str_eqb_eq name name) eq_refl). reflexivity.
Qed.

(* what a task needs, beside what its labels and inputs need *)
Definition task_cond (tc : task_config) : Prop :=
  shared_layer k fc (tc_shared_name tc) /\
  match tc_kind tc with
  | pos_dense st => forall b, build_pos_labels st ds = Ok b -> weighted stack_dict tc (dict_keys (pl_lens b))
  | lemma_dense | lemma_suffix => weighted stack_dict tc [n_LEMMA]
  | lemma_combo => forall c, tc_input tc = Some c -> 0 < sw_embed_size c
  | lemma_binary => False
  end.

Lemma shape_parts_get name d : In (name, ShParts d) shapes -> shape_parts shapes name = Ok d.
Proof. intros H. unfold shape_parts. rewrite (In_dict_get _ _ _ Osh H). reflexivity. Qed.

Lemma in_task_label tc lb : In tc tcs -> In lb (task_label tc) -> In lb (all_labels tcs).
Proof. intros I J. unfold all_labels. apply in_flat_map. eauto. Qed.
Lemma in_task_feature tc fb : In tc tcs -> In fb (task_features tc) -> In fb (all_features fc tcs).
Proof. intros I J. unfold all_features. apply in_app_iff. right. apply in_flat_map. eauto. Qed.

(* one pass of the loop for a dense task *)
Lemma pass_dense name masked sn w ps inp g (b : parts tensor nat) gi d parts :
  let t := mkTask ps inp (dense_gold name) (fun shapes i sh gold _ g => dense_build stack_dict name masked sn w shapes i sh gold g) in
  inp shapes g = Ok (gi, d) -> shape_parts shapes name = Ok parts -> parts <> [] -> In n_dropout (dict_keys (b_gold b)) ->
  (masked = true -> exists m, dict_get (dict_update d shi) n_applicable = Some m) ->
  (runs (build_task shapes shi sh (g, b) (t : task tensor nat graph (dict shape) provider)) <->
   shared_layer k fc sn /\ match w with None => stack_dict = Ok tt | Some w => forall p, In p (dict_keys parts) -> In p w \/ In n_default w end).
Proof.
  intros t Ei Ep Ne Jd Hm. unfold build_task, t. cbn [k_inputs k_gold k_build fst snd]. rewrite Ei. cbn [bind fst snd]. unfold dense_gold. rewrite Ep. cbn [bind]. unfold placeholder. cbn [bind fst snd].
  set (lt := mkTensor _ _). set (g' := mkGraph _ _ _ _ _).
  assert (D : exists dr, dict_get (dict_update (b_gold b) [(name, lt)]) n_dropout = Some dr).
  { assert (J : In n_dropout (dict_keys (dict_update (b_gold b) [(name, lt)]))) by (apply keys_update; auto). apply get_some in J. destruct (dict_get _ n_dropout); [eauto|congruence]. }
  destruct D as (dr & ->). cbn [of_option bind].
  rewrite <- (dense_runs stack_dict k fc shapes sh Keys name masked sn w (dict_update d shi) lt g' parts Ep Ne Hm). rewrite runs_bind. split.
  - intros (x & E & _). eexists; exact E.
  - intros ([g2 [[o l] i]] & E). exists (g2, (o, l, i)). split; [exact E|]. cbn [snd].
    assert (X : i = Some []).
    { unfold dense_build in E. apply bind_ok_iff in E. destruct E as (x1 & _ & E). apply bind_ok_iff in E. destruct E as (x2 & _ & E).
      apply bind_ok_iff in E. destruct E as (x3 & _ & E). apply bind_ok_iff in E. destruct E as (x4 & _ & E). unfold layer, placeholder in E. injection E as _ _ _ <-. reflexivity. }
    rewrite X. cbn [of_option bind]. apply runs_ok.
Qed.

Lemma task_runs tc t g b : In tc tcs -> make_task stack_dict tc = Ok t -> In n_dropout (dict_keys (b_gold b)) ->
  (runs (build_task shapes shi sh (g, b) t) <-> task_cond tc).
Proof.
  intros It Et Jd. unfold make_task in Et. unfold task_cond.
  assert (Lab := fun lb J => Lsh lb (in_task_label tc lb It J)). assert (Fea := fun fb J => Fsh fb (in_task_feature tc fb It J)). unfold task_label in Lab. unfold task_features in Fea.
  destruct (tc_kind tc) eqn:Ek.
  - injection Et as <-. destruct (Lab _ (or_introl eq_refl)) as (s & Es & Inc). cbn [label_shapes] in Es. apply bind_ok_iff in Es. destruct Es as (bl & Eb & Es). injection Es as <-.
    rewrite (pass_dense n_pos_labels false _ _ _ _ g b g [] (pl_lens bl)); [|reflexivity|apply shape_parts_get, Inc; left; reflexivity|eapply lens_nonempty; exact Eb|exact Jd|discriminate].
    unfold weighted. split; [intros [H1 H2]; split; [exact H1|]; intros b' Eb'; rewrite Eb in Eb'; injection Eb' as <-; exact H2|intros [H1 H2]; split; [exact H1|exact (H2 _ Eb)]].
  - injection Et as <-. destruct (Lab _ (or_introl eq_refl)) as (s & Es & Inc). cbn [label_shapes] in Es. apply bind_ok_iff in Es. destruct Es as (bl & Eb & Es). injection Es as <-.
    rewrite (pass_dense n_lemma_labels false _ _ _ _ g b g [] [(n_LEMMA, zlen (snd bl))]); [|reflexivity|apply shape_parts_get, Inc; left; reflexivity|discriminate|exact Jd|discriminate].
    reflexivity.
  - apply bind_ok_iff in Et. destruct Et as (th & Er & Et). destruct (tc_rules tc) as [th'|]; cbn [of_option] in Er; [|discriminate]. injection Er as ->. injection Et as <-.
    destruct (Lab _ (or_introl eq_refl)) as (s & Es & Inc). cbn [label_shapes] in Es. apply bind_ok_iff in Es. destruct Es as (bl & Eb & Es). injection Es as <-.
    destruct (Fea _ (or_introl eq_refl)) as (s & Es & Inc'). cbn [feature_shapes] in Es. rewrite Eb in Es. cbn [bind] in Es. injection Es as <-.
    eassert (Ei : rules_inputs shapes g = Ok (_, [(n_applicable, _)])).
    { unfold rules_inputs, shape_list. rewrite (In_dict_get _ _ _ Osh (Inc' _ (or_introl eq_refl))). cbn [of_option bind]. rewrite dim_0. cbn [bind]. unfold placeholder. reflexivity. }
    rewrite (pass_dense n_rule_labels true _ _ _ _ g b _ _ [(n_LEMMA, zlen (snd bl))] Ei); [|apply shape_parts_get, Inc; left; reflexivity|discriminate|exact Jd|].
    + reflexivity.
    + intros _. eexists. apply own_input. auto.
  - apply bind_ok_iff in Et. destruct Et as (c & Ec & Et). apply bind_ok_iff in Et. destruct Et as ([[th seg] mx] & Eo & Et).
    apply bind_ok_iff in Et. destruct Et as (w & Ew & Et). apply bind_ok_iff in Et. destruct Et as (u & _ & Et).
    destruct (tc_input tc) as [c'|] eqn:Eci; cbn [of_option] in Ec; [|discriminate]. injection Ec as ->. destruct (tc_output tc) as [o'|]; cbn [of_option] in Eo; [|discriminate]. injection Eo as ->.
    injection Et as <-. destruct (Lab _ (or_introl eq_refl)) as (s & Es & Inc). cbn [label_shapes] in Es. apply bind_ok_iff in Es. destruct Es as (bl & Eb & Es). injection Es as <-.
    assert (Ish : exists n l, In (n_input, ShList (Some n :: l)) shapes).
    { destruct (Fea _ (or_introl eq_refl)) as (s & Es & Inc'). unfold subwords_builder in Es. destruct (sw_source c); cbn [feature_shapes] in Es; apply bind_ok_iff in Es; destruct Es as (r & _ & Es); injection Es as <-;
        eexists _, _; apply Inc'; left; reflexivity. }
    destruct Ish as (n & l & Ish).
    unfold build_task. cbn [k_inputs k_gold k_build fst snd bind placeholder].
    match goal with |- context [dict_update (b_gold b) ?x] => assert (D : exists dr, dict_get (dict_update (b_gold b) x) n_dropout = Some dr) end.
    { match goal with |- exists dr, dict_get ?x _ = _ => assert (J : In n_dropout (dict_keys x)) by (apply keys_update; auto) end. apply get_some in J. destruct (dict_get _ n_dropout); [eauto|congruence]. }
    destruct D as (dr & ->). cbn [of_option bind]. unfold combo_build. rewrite own_input by auto. unfold shape_list. rewrite (In_dict_get _ _ _ Osh Ish), (In_dict_get _ _ _ Osh (Inc _ (or_introl eq_refl))).
    cbn [of_option bind]. rewrite !dim_0. cbn [bind]. rewrite <- (read_runs k fc sh Keys (tc_shared_name tc)).
    match goal with |- context [embedding_layer ?a ?b ?c ?d] => pose proof (embedding_runs a b c d) as Er; destruct (embedding_layer a b c d) as [[ge te]|e] eqn:Ee end.
    + assert (P : 0 < sw_embed_size c) by (apply Er; apply runs_ok). destruct (read_shared (tc_shared_name tc) sh) as [v|e]; cbn [bind].
      * cbn [dict_get]. rewrite (proj2 (str_eqb_eq n_output n_output) eq_refl). cbn [of_option bind fst snd]. destruct (sw_source c); unfold matrix_initializer, layer, placeholder; cbn [fst snd of_option bind];
          (split; [intros _; split; [apply runs_ok|intros c0 X; injection X as <-; exact P]|intros _; apply runs_ok]).
      * split; [intros (x & X); discriminate|intros [(x & X) _]; discriminate].
    + split.
      * intros R. exfalso. destruct (read_shared (tc_shared_name tc) sh); cbn [bind] in R; destruct R as (x & X); discriminate.
      * intros [_ P]. exfalso. specialize (P _ eq_refl). apply Er in P. destruct P as (x & X). discriminate.
  - apply bind_ok_iff in Et. destruct Et as (th & Er & Et). injection Et as <-. split; [|intros [_ []]]. intros R. exfalso. unfold build_task in R. cbn [k_inputs k_gold k_build fst snd] in R.
    apply runs_bind in R. destruct R as (x1 & _ & R). apply runs_bind in R. destruct R as (x2 & _ & R). apply runs_bind in R. destruct R as (x3 & _ & R). apply runs_bind in R. destruct R as ([g4 [[o ls] i]] & Eb & R).
    assert (X : i = None).
    { unfold binary_build in Eb. apply bind_ok_iff in Eb. destruct Eb as (y1 & _ & Eb). apply bind_ok_iff in Eb. destruct Eb as (y2 & _ & Eb). apply bind_ok_iff in Eb. destruct Eb as (y3 & _ & Eb).
      apply bind_ok_iff in Eb. destruct Eb as (y4 & _ & Eb). apply bind_ok_iff in Eb. destruct Eb as (y5 & _ & Eb). unfold layer, placeholder in Eb. injection Eb as _ _ _ <-. reflexivity. }
    subst i. cbn [snd of_option bind] in R. destruct R as (x & X); discriminate.
Qed.

(* what a pass keeps *)
Lemma pass_keeps (t : task tensor nat graph (dict shape) provider) g b g' b' : build_task shapes shi sh (g, b) t = Ok (g', b') ->
  (forall x, In x (dict_keys (b_gold b)) -> In x (dict_keys (b_gold b'))) /\ b_losses b' <> [].
Proof.
  intros R. unfold build_task in R. cbn [fst snd] in R. apply bind_ok_iff in R. destruct R as (x1 & _ & R). apply bind_ok_iff in R. destruct R as (x2 & _ & R). apply bind_ok_iff in R. destruct R as (x3 & _ & R).
  apply bind_ok_iff in R. destruct R as ([g4 [[o ls] i]] & _ & R). cbn [snd] in R. apply bind_ok_iff in R. destruct R as (l & _ & R).
  pose proof (f_equal (fun z => match z with Ok (_, b) => b_gold b | Err _ => [] end) R) as Eg. pose proof (f_equal (fun z => match z with Ok (_, b) => b_losses b | Err _ => [] end) R) as El.
  cbv beta iota in Eg, El. cbn [b_gold b_losses] in Eg, El. rewrite <- Eg, <- El. split; [intros x J; apply keys_update; auto|]. destruct (b_losses b); discriminate.
Qed.

Lemma tasks_run tasks : mapM (make_task stack_dict) tcs = Ok tasks -> forall g b, In n_dropout (dict_keys (b_gold b)) ->
  (runs (foldM (build_task shapes shi sh) (g, b) tasks) <-> forall tc, In tc tcs -> task_cond tc).
Proof.
  intros Em g b Jd. apply mapM_ok in Em.
  rewrite (foldM_runs (fun s => In n_dropout (dict_keys (b_gold (snd s)))) (fun t => forall tc, In tc tcs -> make_task stack_dict tc = Ok t -> task_cond tc)).
  - split.
    + intros H tc J. destruct (In_nth_error _ _ J) as (i & Hi). destruct (Forall2_nth _ _ _ _ _ Em Hi) as (t & Ht & E). apply (H t); eauto using nth_error_In.
    + intros H t _ tc J _. auto.
  - intros [g0 b0] t Jt Hd. cbn [snd] in Hd. destruct (In_nth_error _ _ Jt) as (i & Hi). destruct (Forall2_nth_r _ _ _ _ _ Em Hi) as (tc & Htc & E). split.
    + intros R tc' J' E'. apply (task_runs tc' t g0 b0); auto.
    + intros H. apply (task_runs tc t g0 b0); eauto using nth_error_In.
  - intros [g0 b0] t [g1 b1] _ Hd E. cbn [snd] in *. apply (pass_keeps t g0 b0 g1 b1 E). exact Hd.
  - exact Jd.
Qed.
Lemma tasks_keep (tasks : list (task tensor nat graph (dict shape) provider)) : forall g b g' b', foldM (build_task shapes shi sh) (g, b) tasks = Ok (g', b') ->
  (forall x, In x (dict_keys (b_gold b)) -> In x (dict_keys (b_gold b'))) /\ (tasks <> [] -> b_losses b' <> []) /\ (tasks = [] -> b' = b).
Proof.
  induction tasks as [|t tasks IH]; intros g b g' b' E; cbn [foldM] in E.
  - injection E as <- <-. split; [auto|]. split; [congruence|auto].
  - apply bind_ok_iff in E. destruct E as ([g1 b1] & E1 & E). destruct (pass_keeps t g b g1 b1 E1) as [A B]. destruct (IH g1 b1 g' b' E) as (C & D & F). split; [auto|]. split; [|discriminate].
    intros _. destruct tasks as [|t' tasks]; [rewrite F; auto|]. apply D. discriminate.
Qed.
End Tasks.
