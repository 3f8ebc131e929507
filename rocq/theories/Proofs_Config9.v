(* Configurations: what is set up. *)
From Coq Require Import String Ascii ZArith NArith QArith Bool List Lia Permutation.
From Verif Require Import Base BaseFacts Proofs_Datamodel Model_Datamodel Spec_Datamodel Model_Vocab Model_Lemma Model_Features Spec_Features Model_Builder Spec_Builder
  Proofs_Features Proofs_Builder3 Proofs_Builder5 Model_Neural Spec_Neural Spec_Gold Proofs_Gold Proofs_Gold2 Model_Network Spec_Network Proofs_Network2 Proofs_Network3
  Model_Config Spec_Config Proofs_Config Proofs_Config2 Proofs_Config3 Proofs_Config4 Proofs_Config5 Proofs_Config6 Proofs_Config7 Proofs_Config8.
Import ListNotations.
Open Scope Z_scope.

Lemma wrap_of_ok x : buildable (wrap_of x) /\ exists ws, leaves (wrap_of x) = [(ws, x)].
Proof. destruct x; cbn; (split; [repeat constructor|eexists; reflexivity]). Qed.
Lemma wrap_word_ok x : buildable (wrap_word_level x) /\ exists ws, leaves (wrap_word_level x) = [(ws, x)].
Proof. cbn. split; [repeat constructor|eexists; reflexivity]. Qed.

Lemma dict_one {A} (k : str) (v : A) : dict_ok [(k, v)].
Proof. repeat constructor. intros []. Qed.

(* the names of the features of the tasks are as different as the labels *)
Lemma task_names tcs : NoDup (map (fun tc => label_of (tc_kind tc)) tcs) -> NoDup (map fb_name (flat_map task_features tcs)).
Proof.
  set (partner := fun k => if str_eqb k n_applicable then n_rule_labels else n_output).
  assert (P : forall tc k, In k (map fb_name (task_features tc)) -> label_of (tc_kind tc) = partner k).
  { intros tc k J. apply in_map_iff in J. destruct J as (fb & <- & J). unfold task_features in J. destruct (tc_kind tc); try destruct J.
    - destruct (tc_rules tc); cbn in J; [destruct J as [<-|[]]; reflexivity|destruct J].
    - destruct (tc_input tc) as [c|]; cbn in J; [destruct J as [<-|[]]|destruct J]. unfold subwords_builder. destruct (sw_source c); reflexivity.
    - destruct (tc_rules tc); cbn in J; [destruct J as [<-|[]]; reflexivity|destruct J]. }
  induction tcs as [|tc tcs IH]; intros N; [constructor|]. cbn [map] in N. inversion N as [|? ? N1 N2]; subst. cbn [flat_map]. rewrite map_app. apply NoDup_app_intro; auto.
  - unfold task_features. destruct (tc_kind tc); [constructor|constructor|destruct (tc_rules tc)|destruct (tc_input tc)|destruct (tc_rules tc)]; cbn; repeat constructor; intros [].
  - intros k J1 J2. apply N1. apply P in J1. rewrite J1. apply in_map_iff in J2. destruct J2 as (fb & Ek & J2). apply in_flat_map in J2. destruct J2 as (tc' & I' & J2).
    rewrite <- (P tc' k) by (rewrite <- Ek; apply in_map; auto). apply (in_map (fun tc => label_of (tc_kind tc)) _ _ I').
Qed.

Section SetUp.
Variables (V : Type) (to_float : str -> result V) (zero : V) (lower : str -> str) (stack_dict : result unit).
Notation train_set_up := (train_set_up V to_float zero lower stack_dict).
Notation shapes_of := (feature_shapes V to_float zero lower).

Lemma feature_shapes_ok ds fb sh : shapes_of ds fb = Ok sh -> dict_ok sh.
Proof.
  destruct fb; cbn [feature_shapes]; intros H; try (apply bind_ok_iff in H; destruct H as (? & _ & H)); injection H as <-; try apply dict_one; constructor.
Qed.
Lemma label_shapes_one ds lb sh : label_shapes lower ds lb = Ok sh -> exists v, sh = [(label_name lb, v)].
Proof. destruct lb; cbn [label_shapes]; intros H; apply bind_ok_iff in H; destruct H as (? & _ & H); injection H as <-; eauto. Qed.

Record facts (known : bool) (k : shared_kind) (fc : features_config) (tcs : list task_config) (ds : list document) (su : set_up) : Prop := mkFacts {
  f_features : exists bs, bs <> [] /\ parts _ wrap_of bs (all_features fc tcs) /\ merge_builders _ feature_class bs = Ok (su_features su);
  f_labels : exists bs, bs <> [] /\ parts _ wrap_word_level bs (all_labels tcs) /\ merge_builders _ label_class bs = Ok (su_labels su);
  f_names : NoDup (map fb_name (all_features fc tcs));
  f_lnames : NoDup (map label_name (all_labels tcs));
  f_lof : map label_name (all_labels tcs) = map (fun tc => label_of (tc_kind tc)) tcs;
  f_shapes : dict_ok (su_shapes su);
  f_fsh : forall fb, In fb (all_features fc tcs) -> exists sh, shapes_of ds fb = Ok sh /\ incl sh (su_shapes su);
  f_lsh : forall lb, In lb (all_labels tcs) -> exists sh, label_shapes lower ds lb = Ok sh /\ incl sh (su_shapes su);
  f_tasks : exists tasks, mapM (make_task stack_dict) tcs = Ok tasks;
  f_binary : Forall (fun tc => tc_kind tc <> lemma_binary) tcs;
  f_some : tcs <> [];
  f_net : exists op inits, n_initializers (su_network su) = IGlobal op :: inits /\
    inv fc tcs (su_shapes su) (su_graph su) (n_inputs (su_network su)) (n_gold (su_network su)) inits;
  f_inputs : dict_keys (n_inputs (su_network su)) = map fb_name (all_features fc tcs);
  f_gold : dict_keys (n_gold (su_network su)) = [n_dropout; n_lr] ++ map label_name (all_labels tcs)
}.

Lemma set_up_facts known k fc tcs ds su : train_set_up known k fc tcs ds = Ok su -> facts known k fc tcs ds su.
Proof.
  intros E. unfold Model_Config.train_set_up in E. apply bind_ok_iff in E. destruct E as (tasks & Et & E).
  destruct (feature_providers (make_shared k fc) tasks) as [ps sb] eqn:Ep.
  assert (Esb : sb = mkShared ps (s_inputs (make_shared k fc)) (s_build (make_shared k fc))) by (unfold feature_providers in Ep; injection Ep as <- <-; reflexivity).
  destruct (all_parts stack_dict k fc tcs tasks Et) as (Pf & Pl & Nl & Ne). rewrite Ep in Pf, Pl, Ne. cbn [fst] in Pf, Pl, Ne.
  apply bind_ok_iff in E. destruct E as (fb & Ef & E). apply bind_ok_iff in E. destruct E as (lb & El & E).
  apply bind_ok_iff in E. destruct E as (fsh & Efs & E). apply bind_ok_iff in E. destruct E as (lsh & Els & E).
  apply bind_ok_iff in E. destruct E as (shapes & Esh & E). apply bind_ok_iff in E. destruct E as ([net g] & Eb & E). injection E as <-. cbn [fst snd] in *.
  assert (Nf : map pr_features ps <> []) by (destruct ps; [congruence|discriminate]). assert (Nlb : map pr_labels ps <> []) by (destruct ps; [congruence|discriminate]).
  destruct (parts_initial _ feature_class wrap_of wrap_of_ok _ (shapes_of ds) _ _ _ _ (feature_shapes_ok ds) Nf Pf Ef Efs) as (Of & fes & Ff & Pmf).
  assert (Lo : forall x d, label_shapes lower ds x = Ok d -> dict_ok d) by (intros x d H; apply label_shapes_one in H; destruct H as (v & ->); apply dict_one).
  destruct (parts_initial _ label_class wrap_word_level wrap_word_ok _ (label_shapes lower ds) _ _ _ _ Lo Nlb Pl El Els) as (Ol & les & Fl & Pml).
  assert (Lnd : NoDup (map label_name (all_labels tcs))).
  { assert (K : dict_keys (concat les) = map label_name (all_labels tcs)).
    { clear -Fl. induction Fl as [|x e l es Hx _ IH]; [reflexivity|]. apply label_shapes_one in Hx. destruct Hx as (v & ->). cbn. unfold dict_keys in IH. congruence. }
    rewrite <- K. eapply Permutation_NoDup; [apply Permutation_map; exact Pml|exact Ol]. }
  assert (Lnd' : NoDup (map (fun tc => label_of (tc_kind tc)) tcs)) by (rewrite <- Nl; exact Lnd).
  pose proof (task_names tcs Lnd') as Tn.
  assert (Fnd : NoDup (map fb_name (all_features fc tcs))).
  { unfold all_features. rewrite map_app. apply NoDup_app_intro; [apply shared_nodup|auto|]. intros x J1 J2. apply shared_known in J1.
    apply in_map_iff in J2. destruct J2 as (f & <- & J2). apply in_flat_map in J2. destruct J2 as (tc & _ & J2). unfold task_features in J2.
    assert (X : fb_name f = n_applicable \/ fb_name f = n_input).
    { destruct (tc_kind tc); try destruct J2.
      - destruct (tc_rules tc); cbn in J2; [destruct J2 as [<-|[]]; auto|destruct J2].
      - destruct (tc_input tc) as [c|]; cbn in J2; [destruct J2 as [<-|[]]|destruct J2]. right. unfold subwords_builder. destruct (sw_source c); reflexivity.
      - destruct (tc_rules tc); cbn in J2; [destruct J2 as [<-|[]]; auto|destruct J2]. }
    destruct X as [X|X]; rewrite X in J1; cbn [In] in J1; intuition discriminate. }
  apply merge_dicts_inv in Esh; [|repeat constructor; auto]. destruct Esh as [Esh Osh]. cbn [concat] in Esh, Osh. rewrite app_nil_r in Esh, Osh. rewrite <- Esh in Osh.
  assert (Eb' : build hyper_placeholders sum_losses (optimize known) operation (make_shared k fc) tasks shapes empty_graph = Ok (net, g)) by (rewrite Esb in Eb; exact Eb).
  destruct (network_inv stack_dict known fc tcs shapes k tasks net g Et Tn Lnd' Eb') as (op & inits & Ei & I & Ki & Kg & Nb & Ns).
  constructor; cbn [su_features su_labels su_shapes su_network su_graph]; eauto.
  - intros x J. destruct (In_nth_error _ _ J) as (i & Hi). destruct (Forall2_nth _ _ _ _ _ Ff Hi) as (e & He & Hx). exists e. split; auto.
    intros kv Jk. rewrite Esh. apply in_app_iff. left. eapply Permutation_in; [symmetry; exact Pmf|]. apply in_concat. exists e. split; auto. eapply nth_error_In; eauto.
  - intros x J. destruct (In_nth_error _ _ J) as (i & Hi). destruct (Forall2_nth _ _ _ _ _ Fl Hi) as (e & He & Hx). exists e. split; auto.
    intros kv Jk. rewrite Esh. apply in_app_iff. right. eapply Permutation_in; [symmetry; exact Pml|]. apply in_concat. exists e. split; auto. eapply nth_error_In; eauto.
  - rewrite Kg, Nl. reflexivity.
Qed.
End SetUp.
