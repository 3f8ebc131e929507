(* Configurations: which configurations are set up. *)
From Coq Require Import String Ascii ZArith NArith QArith Bool List Lia Permutation.
From Verif Require Import Base BaseFacts Proofs_Datamodel Model_Datamodel Spec_Datamodel Model_Vocab Proofs_Vocab Model_Lemma Proofs_Lemma2 Model_Features Model_Builder Spec_Builder
  Proofs_Features Proofs_Features2 Proofs_Features4 Proofs_Builder3 Proofs_Builder5 Model_Neural Spec_Neural Model_Network Spec_Network Proofs_Network2 Proofs_Network3 Proofs_Processors Model_Config Spec_Config
  Proofs_Config2 Proofs_Config3 Proofs_Config4 Proofs_Config5 Proofs_Config6 Proofs_Config7 Proofs_Config8 Proofs_Config9 Proofs_Config10 Proofs_Config11 Proofs_Config12 Proofs_Config13 Proofs_Config15 Proofs_Config16 Proofs_Config17.
Import ListNotations.
Open Scope Z_scope.

Section Iff.
Variables (V : Type) (to_float : str -> result V) (zero : V) (lower : str -> str) (stack_dict : result unit) (ds : list document).
Variables (known : bool) (k : shared_kind) (fc : features_config) (tcs : list task_config).
Notation train_set_up := (train_set_up V to_float zero lower stack_dict).
Notation shapes_of := (feature_shapes V to_float zero lower).

Definition shapes_fit (shapes : dict shape) : Prop :=
  dict_ok shapes /\ (forall fb, In fb (all_features fc tcs) -> exists sh, shapes_of ds fb = Ok sh /\ incl sh shapes) /\
  (forall lb, In lb (all_labels tcs) -> exists sh, label_shapes lower ds lb = Ok sh /\ incl sh shapes).

(* building the network *)
Lemma build_runs shapes tasks : shapes_fit shapes -> mapM (make_task stack_dict) tcs = Ok tasks ->
  (runs (build hyper_placeholders sum_losses (optimize known) operation (make_shared k fc) tasks shapes empty_graph) <->
   known = true /\ tcs <> [] /\ (shared_all V to_float zero ds fc /\ shared_steps fc <> []) /\ shared_kind_ok k /\ forall tc, In tc tcs -> task_cond stack_dict ds k fc tc).
Proof.
  intros (Osh & Fsh & Lsh) Em. unfold build. destruct (hyper_placeholders empty_graph) as [g0 [dr lr]]. cbn [make_shared s_inputs s_build fst snd].
  pose proof (placeholders_keys (shared_placeholders fc) g0) as K1. destruct (placeholders_of (shared_placeholders fc) g0) as [g1 shi]. cbn [bind fst snd] in *. rewrite shared_names in K1.
  assert (Hs := shared_runs V to_float zero lower ds k fc tcs shapes Osh Fsh shi K1 g1).
  assert (Lt : tcs <> [] <-> tasks <> []).
  { apply mapM_length in Em. destruct tcs, tasks; cbn in Em; split; congruence. }
  rewrite runs_bind. split.
  - intros ([g2 [sh is]] & Es & R). apply bind_ok_iff in Es. destruct Es as ([[g2' sh'] is'] & Es & X). injection X as -> -> ->. cbn [fst snd] in R.
    destruct (proj1 Hs (ex_intro _ _ Es)) as [S1 S2]. pose proof (build_keys k fc shapes shi _ _ _ _ Es) as Keys.
    apply runs_bind in R. destruct R as ([g3 b] & Et & R). cbn [fst snd] in R.
    pose proof (proj1 (tasks_run V to_float zero lower stack_dict ds k fc tcs shapes Osh Fsh Lsh shi sh K1 Keys tasks Em g2 (mkParts (dict_update [] shi) [(n_dropout, dr); (n_lr, lr)] [] [] []) (or_introl eq_refl)) (ex_intro _ _ Et)) as Ht.
    destruct (tasks_keep shapes shi sh tasks _ _ _ _ Et) as (_ & _ & T3). cbn [b_losses] in T3.
    assert (Nt : tcs <> []) by (apply Lt; intros X; rewrite (T3 X) in R; cbn [b_losses] in R; destruct R as (x & X'); discriminate).
    split; [|split; [exact Nt|split; [exact S1|split; [exact S2|exact Ht]]]].
    destruct (b_losses b); [destruct R as (x & X); discriminate|]. unfold sum_losses, layer, placeholder in R. apply runs_bind in R. destruct R as (lr1 & _ & R). apply runs_bind in R. destruct R as (go & Eo & _).
    unfold optimize in Eo. destruct known; [reflexivity|discriminate].
  - intros (Hk & Nt & S1 & S2 & Ht). destruct (proj2 Hs (conj S1 S2)) as ([[g2 sh] is] & Es). exists (g2, (sh, is)). rewrite Es. split; [reflexivity|]. cbn [fst snd].
    pose proof (build_keys k fc shapes shi _ _ _ _ Es) as Keys.
    destruct (proj2 (tasks_run V to_float zero lower stack_dict ds k fc tcs shapes Osh Fsh Lsh shi sh K1 Keys tasks Em g2 (mkParts (dict_update [] shi) [(n_dropout, dr); (n_lr, lr)] [] [] []) (or_introl eq_refl)) Ht)
      as ([g3 b] & Et). rewrite Et. cbn [bind fst snd]. destruct (tasks_keep shapes shi sh tasks _ _ _ _ Et) as (T1 & T2 & _).
    assert (J : In n_lr (dict_keys (b_gold b))) by (apply T1; right; left; reflexivity). apply get_some in J.
    destruct (b_losses b) eqn:El; [exfalso; apply T2; auto; apply Lt; auto|]. unfold sum_losses, layer, placeholder. destruct (dict_get (b_gold b) n_lr); [|congruence]. cbn [of_option bind].
    unfold optimize. rewrite Hk. cbn [negb raise_if bind]. unfold operation. apply runs_ok.
Qed.

(* the conditions *)
Lemma some_steps : shared_steps fc <> [] <->
  (fc_words fc <> None \/ fc_trained fc <> None \/ fc_characters fc <> None \/ fc_bpe fc <> None \/ fc_morfessor fc <> None).
Proof.
  unfold shared_steps. destruct (fc_words fc), (fc_trained fc), (fc_characters fc), (fc_bpe fc), (fc_morfessor fc); cbn [given_part app]; split; try (intros _; discriminate); try (intros H; repeat destruct H as [H|H]; congruence);
    intros _; first [left; discriminate|right; left; discriminate|right; right; left; discriminate|right; right; right; left; discriminate|right; right; right; right; discriminate].
Qed.
Lemma shared_complete_iff : shared_complete to_float zero fc ds <-> shared_all V to_float zero ds fc /\ shared_steps fc <> [].
Proof. rewrite some_steps. unfold shared_complete, shared_all, subwords_complete. tauto. Qed.

Lemma make_runs tc : runs (make_task stack_dict tc) <-> match tc_kind tc with
  | pos_dense _ | lemma_dense => True
  | lemma_suffix | lemma_binary => tc_rules tc <> None
  | lemma_combo => exists c th seg m w, tc_input tc = Some c /\ tc_output tc = Some (th, seg, m) /\ tc_weights tc = Some w /\ In n_LEMMA w
  end.
Proof.
  assert (Hw : forall w x, has_weight w x = true <-> In x w).
  { intros w' x. unfold has_weight. rewrite existsb_exists. split; [intros (y & J & E); apply str_eqb_eq in E; subst; auto|intros J; exists x; split; [auto|apply str_eqb_eq; auto]]. }
  unfold make_task. destruct (tc_kind tc).
  - split; [auto|intros _; apply runs_ok].
  - split; [auto|intros _; apply runs_ok].
  - destruct (tc_rules tc); cbn [of_option bind]; (split; [first [discriminate|intros (x & X); discriminate|intros _; discriminate]|first [congruence|intros _; apply runs_ok]]).
  - split.
    + intros R. apply runs_bind in R. destruct R as (c & Ec & R). apply runs_bind in R. destruct R as ([[th seg] m] & Eo & R). apply runs_bind in R. destruct R as (w & Ew & R). apply runs_bind in R. destruct R as (u & Eu & _).
      apply raise_ok in Eu. apply negb_false_iff in Eu. apply Hw in Eu. destruct (tc_input tc); [|discriminate]. destruct (tc_output tc); [|discriminate]. destruct (tc_weights tc); [|discriminate].
      injection Ec as ->. injection Eo as ->. injection Ew as ->. exists c, th, seg, m, w. auto.
    + intros (c & th & seg & m & w & -> & -> & -> & J). apply Hw in J. cbn [of_option bind]. rewrite J. cbn [negb raise_if bind]. apply runs_ok.
  - destruct (tc_rules tc); cbn [of_option bind]; (split; [first [discriminate|intros (x & X); discriminate|intros _; discriminate]|first [congruence|intros _; apply runs_ok]]).
Qed.

(* a complete task: its object is made, its labels and inputs are, and it is built *)
Lemma task_complete_iff tc : task_complete to_float zero stack_dict k fc ds tc <->
  runs (make_task stack_dict tc) /\ (forall lb, In lb (task_label tc) -> runs (label_shapes lower ds lb)) /\ (forall fb, In fb (task_features tc) -> runs (shapes_of ds fb)) /\
  task_cond stack_dict ds k fc tc.
Proof.
  rewrite make_runs. unfold task_complete, task_cond, task_label, task_features.
  assert (One : forall A (P : A -> Prop) x, (forall y, In y [x] -> P y) <-> P x) by (intros A P x; split; [intros H; apply H; left; reflexivity|intros H y [<-|[]]; exact H]).
  assert (Bind : forall A (r : result A) (f : A -> dict shape), runs (do x <- r; Ok (f x)) <-> runs r).
  { intros A r f. rewrite runs_bind. split; [intros (a & E & _); eexists; exact E|intros (a & E); exists a; split; [exact E|apply runs_ok]]. }
  destruct (tc_kind tc).
  - rewrite One. cbn [label_shapes]. rewrite Bind. split.
    + intros (H1 & b & Eb & Hw). split; [auto|]. split; [eexists; exact Eb|]. split; [intros fb []|]. split; [exact H1|]. intros b' Eb'. rewrite Eb in Eb'. injection Eb' as <-. exact Hw.
    + intros (_ & (b & Eb) & _ & H1 & Hw). split; [exact H1|]. exists b. auto.
  - rewrite One. cbn [label_shapes]. rewrite Bind, lemmas_runs. fold n_LEMMA. split; [intros (H1 & H2 & H3); repeat split; auto; intros fb []|tauto].
  - destruct (tc_rules tc) as [th|]; cbn [given_part].
    + rewrite !One. cbn [label_shapes feature_shapes]. rewrite !Bind, rules_runs. fold n_LEMMA. split; [intros (H1 & H2 & H3 & H4 & H5); repeat split; auto|]. intros (H0 & (H1 & H2) & _ & H3 & H4). repeat split; auto.
    + split; [intros (_ & H & _); congruence|intros (H & _); congruence].
  - fold n_LEMMA. split.
    + intros (H1 & c & th & seg & m & w & E1 & E2 & E3 & E4 & E5 & E6 & E7). rewrite E1, E2. cbn [given_part]. rewrite !One. split; [exists c, th, seg, m, w; auto|]. split; [cbn [label_shapes]; rewrite Bind; apply chars_runs; exact E6|]. split.
      * unfold subwords_builder. destruct (sw_source c); cbn [feature_shapes]; rewrite Bind; [apply build_subwords_ok; exact E7|exact E7].
      * split; [exact H1|]. intros c0 X. injection X as <-. exact E5.
    + intros ((c & th & seg & m & w & E1 & E2 & E3 & E4) & Hl & Hf & H1 & He). split; [exact H1|]. exists c, th, seg, m, w. rewrite E1, E2 in *. cbn [given_part] in *. rewrite One in Hl, Hf. cbn [label_shapes] in Hl. rewrite Bind in Hl. apply chars_runs in Hl.
      repeat split; auto. unfold subwords_builder in Hf. destruct (sw_source c); cbn [feature_shapes] in Hf; rewrite Bind in Hf; [apply build_subwords_ok in Hf; exact Hf|exact Hf].
  - tauto.
Qed.

Lemma shared_shapes_run : shared_all V to_float zero ds fc -> forall fb, In fb (shared_features fc) -> runs (shapes_of ds fb).
Proof.
  intros (H1 & H2 & H3) fb J. unfold shared_features in J. rewrite !in_app_iff, !given_In in J.
  assert (Vec : forall first lines, vectors to_float zero first lines -> runs (build_embeddings V to_float zero first lines)) by (intros first lines (w & n & s & rows & E & _); eexists; exact E).
  assert (Bind : forall A (r : result A) (f : A -> dict shape), runs r -> runs (do x <- r; Ok (f x))).
  { intros A r f R. rewrite runs_bind. destruct R as (a & E); exists a; split; [exact E|apply runs_ok]. }
  assert (Sub : forall name c, subwords_complete V to_float zero ds c -> runs (shapes_of ds (subwords_builder name c))).
  { intros name c. unfold subwords_complete, subwords_builder. destruct (sw_source c); cbn [feature_shapes]; intros H; apply Bind; [apply build_subwords_ok; apply H|auto]. }
  destruct J as [[<-|[]]|[([lines lc] & E & ->)|[([[th lc] size] & E & ->)|[(c & E & ->)|[(c & E & ->)|(c & E & ->)]]]]].
  - apply runs_ok.
  - cbn [feature_shapes fst snd]. apply Bind. eauto.
  - apply runs_ok.
  - apply Sub. auto.
  - apply Sub. auto.
  - apply Sub. auto.
Qed.

(* the shapes of the builders have different names *)
Definition shape_name (fb : feature_builder) : str := match fb with FBWords _ init _ _ | FBPretrained _ init _ _ => init | _ => fb_name fb end.
Lemma shape_names fb : fb_known fb -> fb_name fb = name_of_file (shape_name fb).
Proof.
  destruct fb; cbn [fb_known shape_name fb_name].
  - intros ->. reflexivity.
  - intros [-> ->]. reflexivity.
  - intros ->. reflexivity.
  - intros [-> I]. cbn [In] in I. destruct I as [<-|[<-|[<-|[<-|[]]]]]; reflexivity.
  - intros I. cbn [In] in I. destruct I as [<-|[<-|[<-|[<-|[]]]]]; reflexivity.
  - intros ->. reflexivity.
Qed.
Lemma shapes_names fb sh : shapes_of ds fb = Ok sh -> forall x, In x (dict_keys sh) -> x = shape_name fb.
Proof.
  destruct fb; cbn [feature_shapes shape_name fb_name]; intros E x J; try (apply bind_ok_iff in E; destruct E as (r & _ & E)); injection E as <-; cbn [dict_keys map fst In] in J; first [contradiction|destruct J as [J|[]]; auto].
Qed.
Lemma shapes_nodup fb sh : shapes_of ds fb = Ok sh -> NoDup (dict_keys sh).
Proof. apply feature_shapes_ok. Qed.
Lemma flat_nodup l es : Forall2 (fun fb e => shapes_of ds fb = Ok e) l es -> NoDup (map shape_name l) -> NoDup (flat_map dict_keys es).
Proof.
  induction 1 as [|fb e l es E F IH]; intros N; cbn [flat_map map] in *; [constructor|]. inversion N as [|? ? N1 N2]; subst. apply NoDup_app_intro; [eapply shapes_nodup; eauto|auto|].
  intros x J1 J2. apply N1. rewrite <- (shapes_names _ _ E x J1). clear -F J2. induction F as [|fb' e' l es E' F IH]; [destruct J2|]. cbn [flat_map map In] in *. apply in_app_iff in J2. destruct J2 as [J|J]; [left; symmetry; eapply shapes_names; eauto|auto].
Qed.
Lemma flat_in l es : Forall2 (fun fb e => shapes_of ds fb = Ok e) l es -> forall x, In x (flat_map dict_keys es) -> exists fb, In fb l /\ x = shape_name fb.
Proof.
  induction 1 as [|fb e l es E F IH]; intros x J; cbn [flat_map] in J; [destruct J|]. apply in_app_iff in J. destruct J as [J|J]; [exists fb; split; [left; auto|eapply shapes_names; eauto]|].
  destruct (IH x J) as (f & I & H). exists f. split; [right; auto|auto].
Qed.
Lemma collect {A B} (f : A -> result B) l : (forall x, In x l -> runs (f x)) -> exists es, Forall2 (fun x e => f x = Ok e) l es.
Proof.
  induction l as [|x l IH]; intros H; [exists []; constructor|]. destruct (H x (or_introl eq_refl)) as (e & E). destruct IH as (es & F); [intros y J; apply H; right; auto|]. exists (e :: es). constructor; auto.
Qed.

Theorem set_up_iff : runs (train_set_up known k fc tcs ds) <->
  known = true /\ tcs <> [] /\ NoDup (map (fun tc => label_of (tc_kind tc)) tcs) /\ shared_kind_ok k /\ shared_complete to_float zero fc ds /\
  forall tc, In tc tcs -> task_complete to_float zero stack_dict k fc ds tc.
Proof.
  rewrite shared_complete_iff. split.
  - intros (su & E). pose proof (set_up_facts V to_float zero lower stack_dict known k fc tcs ds su E) as F.
    unfold Model_Config.train_set_up in E. apply bind_ok_iff in E. destruct E as (tasks & Et & E).
    destruct (feature_providers (make_shared k fc) tasks) as [ps sb] eqn:Ep.
    assert (Esb : sb = mkShared ps (s_inputs (make_shared k fc)) (s_build (make_shared k fc))) by (unfold feature_providers in Ep; injection Ep as <- <-; reflexivity).
    apply bind_ok_iff in E. destruct E as (fb & Ef & E). apply bind_ok_iff in E. destruct E as (lb & El & E).
    apply bind_ok_iff in E. destruct E as (fsh & Efs & E). apply bind_ok_iff in E. destruct E as (lsh & Els & E).
    apply bind_ok_iff in E. destruct E as (shapes & Esh & E). apply bind_ok_iff in E. destruct E as ([net g] & Eb & E). injection E as <-. cbn [fst snd] in *.
    assert (Eb' : build hyper_placeholders sum_losses (optimize known) operation (make_shared k fc) tasks shapes empty_graph = Ok (net, g)) by (rewrite Esb in Eb; exact Eb).
    assert (Sf : shapes_fit shapes) by (split; [|split]; apply F).
    destruct (proj1 (build_runs shapes tasks Sf Et) (ex_intro _ _ Eb')) as (Hk & Nt & S1 & S2 & Ht).
    split; [exact Hk|]. split; [exact Nt|]. split; [rewrite <- (f_lof _ _ _ _ _ _ _ _ _ _ _ F); apply F|]. split; [exact S2|]. split; [exact S1|].
    intros tc J. apply task_complete_iff. split; [|split; [|split; [|auto]]].
    + apply mapM_ok in Et. destruct (In_nth_error _ _ J) as (i & Hi). destruct (Forall2_nth _ _ _ _ _ Et Hi) as (t & _ & H). eexists; exact H.
    + intros l Jl. destruct (proj2 (proj2 Sf) l (in_task_label tcs tc l J Jl)) as (s & Es & _). eexists; exact Es.
    + intros f Jf. destruct (proj1 (proj2 Sf) f (in_task_feature fc tcs tc f J Jf)) as (s & Es & _). eexists; exact Es.
  - intros (Hk & Nt & Nd & S2 & S1 & Ht).
    assert (Tc : forall tc, In tc tcs -> runs (make_task stack_dict tc) /\ (forall lb, In lb (task_label tc) -> runs (label_shapes lower ds lb)) /\ (forall fb, In fb (task_features tc) -> runs (shapes_of ds fb)) /\
      task_cond stack_dict ds k fc tc) by (intros tc J; apply task_complete_iff; auto). clear Ht.
    assert (Et : exists tasks, mapM (make_task stack_dict) tcs = Ok tasks).
    { destruct (collect (make_task stack_dict) tcs) as (ts & F); [intros tc J; apply (Tc tc J)|]. exists ts. apply mapM_ok. exact F. }
    destruct Et as (tasks & Et). destruct (all_parts stack_dict k fc tcs tasks Et) as (Pf & Pl & Nl & Ne).
    unfold Model_Config.train_set_up. rewrite Et. cbn [bind]. destruct (feature_providers (make_shared k fc) tasks) as [ps sb] eqn:Ep.
    assert (Esb : sb = mkShared ps (s_inputs (make_shared k fc)) (s_build (make_shared k fc))) by (unfold feature_providers in Ep; injection Ep as <- <-; reflexivity).
    cbn [fst] in Pf, Pl, Ne.
    assert (Nf : map pr_features ps <> []) by (destruct ps; [congruence|discriminate]). assert (Nlb : map pr_labels ps <> []) by (destruct ps; [congruence|discriminate]).
    assert (Lo : forall x d, label_shapes lower ds x = Ok d -> dict_ok d) by (intros x d H; apply label_shapes_one in H; destruct H as (v & ->); apply dict_one).
    destruct (merge_initial' _ feature_class _ (shapes_of ds) (feature_shapes_ok V to_float zero lower ds) _ Nf (parts_buildable _ _ wrap_of_ok _ _ Pf)) as (fb & Ef & _).
    destruct (merge_initial' _ label_class _ (label_shapes lower ds) Lo _ Nlb (parts_buildable _ _ wrap_word_ok _ _ Pl)) as (lb & El & _).
    rewrite Ef. cbn [bind]. rewrite El. cbn [bind].
    assert (Known : forall f, In f (all_features fc tcs) -> fb_known f) by (intros f; apply all_known).
    destruct (collect (shapes_of ds) (all_features fc tcs)) as (fes & Ff).
    { intros f J. unfold all_features in J. apply in_app_iff in J. destruct J as [J|J]; [apply shared_shapes_run; [apply S1|exact J]|]. apply in_flat_map in J. destruct J as (tc & I & J). destruct (Tc tc I) as (_ & _ & H & _). auto. }
    destruct (collect (label_shapes lower ds) (all_labels tcs)) as (les & Fl).
    { intros l J. apply in_flat_map in J. destruct J as (tc & I & J). destruct (Tc tc I) as (_ & H & _). auto. }
    assert (Fn : NoDup (map fb_name (all_features fc tcs))).
    { unfold all_features. rewrite map_app. apply NoDup_app_intro; [apply shared_nodup|apply task_names; exact Nd|]. intros x J1 J2. apply shared_known in J1.
      apply in_map_iff in J2. destruct J2 as (f & <- & J2). apply in_flat_map in J2. destruct J2 as (tc & _ & J2). unfold task_features in J2.
      assert (X : fb_name f = n_applicable \/ fb_name f = n_input).
      { destruct (tc_kind tc); try destruct J2.
        - destruct (tc_rules tc); cbn in J2; [destruct J2 as [<-|[]]; auto|destruct J2].
        - destruct (tc_input tc) as [c|]; cbn in J2; [destruct J2 as [<-|[]]|destruct J2]. right. unfold subwords_builder. destruct (sw_source c); reflexivity.
        - destruct (tc_rules tc); cbn in J2; [destruct J2 as [<-|[]]; auto|destruct J2]. }
      destruct X as [X|X]; rewrite X in J1; cbn [In] in J1; intuition discriminate. }
    assert (Sn : NoDup (map shape_name (all_features fc tcs))).
    { apply (NoDup_map_inv name_of_file). rewrite map_map. erewrite map_ext_in; [exact Fn|]. intros f J. symmetry. apply shape_names, Known, J. }
    assert (Lk : flat_map dict_keys les = map label_name (all_labels tcs)).
    { clear -Fl. induction Fl as [|x e l es Hx _ IH]; [reflexivity|]. apply label_shapes_one in Hx. destruct Hx as (v & ->). cbn [flat_map map dict_keys fst app]. congruence. }
    assert (Wf : forall x, initial feature_builder shape (shapes_of ds) (wrap_of x) = shapes_of ds x) by (intros x; destruct x; reflexivity).
    destruct (parts_initial_total _ feature_class wrap_of _ (shapes_of ds) _ _ _ _ wrap_of_ok Wf (feature_shapes_ok V to_float zero lower ds) Nf Pf Ef Ff (flat_nodup _ _ Ff Sn)) as (fsh & Efs & Of & Pmf).
    destruct (parts_initial_total _ label_class wrap_word_level _ (label_shapes lower ds) _ _ _ _ wrap_word_ok (fun x => eq_refl) Lo Nlb Pl El Fl) as (lsh & Els & Ol & Pml); [rewrite Lk, Nl; exact Nd|].
    rewrite Efs. cbn [bind]. rewrite Els. cbn [bind].
    assert (Cat : forall (es : list (dict shape)), dict_keys (concat es) = flat_map dict_keys es) by (intros es; unfold dict_keys; rewrite concat_map, flat_map_concat_map; reflexivity).
    assert (Oa : dict_ok (fsh ++ lsh)).
    { unfold dict_ok, dict_keys. rewrite map_app. apply NoDup_app_intro; [exact Of|exact Ol|]. intros x J1 J2.
      assert (K1 : In x (flat_map dict_keys fes)) by (rewrite <- Cat; eapply Permutation_in; [apply Permutation_map; exact Pmf|exact J1]).
      assert (K2 : In x (flat_map dict_keys les)) by (rewrite <- Cat; eapply Permutation_in; [apply Permutation_map; exact Pml|exact J2]).
      rewrite Lk, Nl in K2. destruct (flat_in _ _ Ff _ K1) as (f & If & ->). apply Known in If.
      apply in_map_iff in K2. destruct K2 as (tc & Etc & _).
      destruct f; cbn [fb_known shape_name fb_name] in *; [subst|destruct If; subst|subst|destruct If as [-> If]|idtac|subst]; try (cbn [In] in If);
        repeat match goal with H : _ \/ _ |- _ => destruct H as [H|H] | H : False |- _ => destruct H end; subst; destruct (tc_kind tc); discriminate. }
    assert (Esh : merge_dicts [fsh; lsh] = Ok (fsh ++ lsh)).
    { rewrite merge_dicts_ok; cbn [concat]; rewrite ?app_nil_r; auto. }
    rewrite Esh. cbn [bind].
    assert (Sf : shapes_fit (fsh ++ lsh)).
    { split; [exact Oa|]. split.
      - intros x J. destruct (In_nth_error _ _ J) as (i & Hi). destruct (Forall2_nth _ _ _ _ _ Ff Hi) as (e & He & Hx). exists e. split; auto.
        intros kv Jk. apply in_app_iff. left. eapply Permutation_in; [symmetry; exact Pmf|]. apply in_concat. exists e. split; auto. eapply nth_error_In; eauto.
      - intros x J. destruct (In_nth_error _ _ J) as (i & Hi). destruct (Forall2_nth _ _ _ _ _ Fl Hi) as (e & He & Hx). exists e. split; auto.
        intros kv Jk. apply in_app_iff. right. eapply Permutation_in; [symmetry; exact Pml|]. apply in_concat. exists e. split; auto. eapply nth_error_In; eauto. }
    destruct (proj2 (build_runs (fsh ++ lsh) tasks Sf Et)) as (ng & Eb); [repeat split; auto; try apply S1; apply Tc; assumption|].
    assert (Eb' : build hyper_placeholders sum_losses (optimize known) operation sb tasks (fsh ++ lsh) empty_graph = Ok ng) by (rewrite Esb; exact Eb).
    rewrite Eb'. cbn [bind]. apply runs_ok.
Qed.
End Iff.
