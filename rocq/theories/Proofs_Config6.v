(* Configurations: the network that is built, as a whole. *)
From Coq Require Import String Ascii ZArith NArith QArith Bool List Lia Permutation.
From Verif Require Import Base BaseFacts Proofs_Datamodel Model_Datamodel Spec_Datamodel Model_Vocab Model_Lemma Model_Features Model_Builder Spec_Builder
  Proofs_Features Proofs_Builder3 Model_Neural Spec_Neural Model_Network Spec_Network Proofs_Network2 Proofs_Network3 Proofs_Processors Model_Config Spec_Config
  Proofs_Config3 Proofs_Config4 Proofs_Config5.
Import ListNotations.
Open Scope Z_scope.

Section Network.
Variables (stack_dict : result unit) (known : bool) (fc : features_config) (tcs : list task_config) (shapes : dict shape).
Notation make_task := (make_task stack_dict).
Notation inv := (inv fc tcs shapes).

Lemma hyper_inv g0 d l : hyper_placeholders empty_graph = (g0, (d, l)) -> inv g0 [] [(n_dropout, d); (n_lr, l)] [].
Proof.
  unfold hyper_placeholders, placeholder. cbn. intros H. injection H as <- <- <-. constructor; cbn.
  - repeat constructor; cbn; intuition discriminate.
  - intros k t [H|[H|[]]]; injection H as <- <-; cbn; lia.
  - intros k t [].
  - intros k t [H|[H|[]]]; injection H as <- <-; reflexivity.
  - intros t r [].
  - intros t r [].
  - intros t r n [].
  - intros p ix vs up [].
  - constructor.
  - split; [constructor|intros u []].
Qed.

Lemma shared_names : map fst (shared_placeholders fc) = map fb_name (shared_features fc).
Proof.
  unfold shared_placeholders, shared_features. rewrite !map_app.
  assert (S : forall name c, fb_name (subwords_builder name c) = name) by (intros name c; unfold subwords_builder; destruct (sw_source c); reflexivity).
  destruct (fc_words fc), (fc_trained fc), (fc_characters fc), (fc_bpe fc), (fc_morfessor fc); cbn [given_part map fst fb_name app]; rewrite ?S; reflexivity.
Qed.
Lemma shared_dims k dims : In (k, dims) (shared_placeholders fc) -> dims_ok shapes k dims.
Proof.
  unfold shared_placeholders. rewrite !in_app_iff. intros [[H|[]]|H]; [injection H as <- <-; reflexivity|].
  destruct (fc_words fc), (fc_trained fc), (fc_characters fc), (fc_bpe fc), (fc_morfessor fc); cbn [given_part In] in H;
    repeat match goal with H : _ \/ _ |- _ => destruct H as [H|H] | H : False |- _ => destruct H end; injection H as <- <-; reflexivity.
Qed.
Lemma shared_known k : In k (map fb_name (shared_features fc)) -> In k [n_lengths; n_words; n_trained_words; n_characters; n_bpe; n_morfessor].
Proof.
  rewrite <- shared_names. unfold shared_placeholders. rewrite !map_app, !in_app_iff.
  destruct (fc_words fc), (fc_trained fc), (fc_characters fc), (fc_bpe fc), (fc_morfessor fc); cbn [given_part map fst In]; intuition.
Qed.
Lemma shared_nodup : NoDup (map fb_name (shared_features fc)).
Proof.
  rewrite <- shared_names. unfold shared_placeholders. rewrite !map_app.
  destruct (fc_words fc), (fc_trained fc), (fc_characters fc), (fc_bpe fc), (fc_morfessor fc); cbn [given_part map fst app];
    repeat constructor; cbn [In]; intuition discriminate.
Qed.

Lemma network_inv k tasks net g : mapM make_task tcs = Ok tasks ->
  NoDup (map fb_name (flat_map task_features tcs)) -> NoDup (map (fun tc => label_of (tc_kind tc)) tcs) ->
  build hyper_placeholders sum_losses (optimize known) operation (make_shared k fc) tasks shapes empty_graph = Ok (net, g) ->
  exists op inits, n_initializers net = IGlobal op :: inits /\ inv g (n_inputs net) (n_gold net) inits /\
    dict_keys (n_inputs net) = map fb_name (all_features fc tcs) /\
    dict_keys (n_gold net) = [n_dropout; n_lr] ++ map (fun tc => label_of (tc_kind tc)) tcs /\
    Forall (fun tc => tc_kind tc <> lemma_binary) tcs /\ tcs <> [].
Proof.
  intros Em Df Dl E. unfold build in E. destruct (hyper_placeholders empty_graph) as [g0 [dr lr]] eqn:Eh. cbn [fst snd make_shared s_inputs s_build] in E.
  pose proof (placeholders_inv fc tcs shapes (shared_placeholders fc) g0 [] _ [] shared_dims (hyper_inv _ _ _ Eh)) as I1.
  pose proof (placeholders_keys (shared_placeholders fc) g0) as K1. destruct (placeholders_of (shared_placeholders fc) g0) as [g1 shi]. cbn [bind fst snd app] in *.
  apply bind_ok_iff in E. destruct E as ([g2 [sh shin]] & Es & E). cbn [fst snd] in E. apply bind_ok_iff in Es. destruct Es as ([[g2' sh'] shin'] & Es & H). injection H as -> -> ->.
  pose proof (shared_inv fc tcs shapes k _ _ _ _ _ _ I1 Es) as I2.
  apply bind_ok_iff in E. destruct E as ([g3 b] & Et & E). cbn [fst snd] in E.
  assert (Oi : dict_ok shi) by (unfold dict_ok; rewrite K1, shared_names; apply shared_nodup).
  assert (Ui : dict_update [] shi = shi) by (rewrite dict_update_fresh; [reflexivity|exact Oi|intros ? ? []]).
  rewrite Ui in Et.
  assert (Nk : forall x, In x (dict_keys shi) -> In x [n_lengths; n_words; n_trained_words; n_characters; n_bpe; n_morfessor]).
  { intros x J. apply shared_known. rewrite <- shared_names, <- K1. exact J. }
  assert (Na : ~ In n_applicable (dict_keys shi)) by (intros J; apply Nk in J; cbn [In] in J; intuition discriminate).
  assert (Ni : ~ In n_input (dict_keys shi)) by (intros J; apply Nk in J; cbn [In] in J; intuition discriminate).
  assert (Tk : forall x, In x (map fb_name (flat_map task_features tcs)) -> x = n_applicable \/ x = n_input).
  { intros x J. apply in_map_iff in J. destruct J as (fb & <- & J). apply in_flat_map in J. destruct J as (tc & _ & J). unfold task_features in J.
    destruct (tc_kind tc); try destruct J.
    - destruct (tc_rules tc); cbn in J; [destruct J as [<-|[]]; auto|destruct J].
    - destruct (tc_input tc) as [c|]; cbn in J; [destruct J as [<-|[]]|destruct J]. right. unfold subwords_builder. destruct (sw_source c); reflexivity.
    - destruct (tc_rules tc); cbn in J; [destruct J as [<-|[]]; auto|destruct J]. }
  destruct (tasks_inv stack_dict fc tcs shapes shi sh shin Oi Na Ni tcs tasks g2 (mkParts shi [(n_dropout, dr); (n_lr, lr)] [] [] []) g3 b) as (I3 & K2 & K3 & Nb); auto.
  - apply incl_refl.
  - cbn [b_inputs]. apply NoDup_app_intro; auto. intros x J1 J2. destruct (Tk x J2) as [-> | ->]; auto.
  - cbn [b_gold dict_keys map fst]. apply NoDup_app_intro; auto; [repeat constructor; cbn [In]; intuition discriminate|].
    intros x J1 J2. apply in_map_iff in J2. destruct J2 as (tc & <- & _). destruct (tc_kind tc); cbn [In label_of] in J1; intuition discriminate.
  - cbn [b_inputs b_gold b_inits]. rewrite app_nil_r. exact I2.
  - cbn [b_inputs b_gold] in K2, K3. destruct (b_losses b) as [|l0 ls] eqn:El; [discriminate|].
    unfold sum_losses, layer, placeholder in E. apply bind_ok_iff in E. destruct E as (lr' & _ & E). apply bind_ok_iff in E. destruct E as ([g4 op] & Eo & E).
    unfold optimize in Eo. apply bind_ok_iff in Eo. destruct Eo as (u & _ & Eo). unfold operation, layer, placeholder in *. cbn [fst snd g_next g_lookups g_updates g_masks g_targets] in *.
    injection Eo as <- <-. cbn [g_next g_lookups g_updates g_masks g_targets] in E. injection E as <- <-. cbn [n_initializers n_inputs n_gold].
    eexists _, _. split; [reflexivity|]. split; [apply (inv_next fc tcs shapes g3 (S (S (S (g_next g3))))); [exact I3|lia]|].
    split; [rewrite K2, K1, shared_names; unfold all_features; rewrite map_app; reflexivity|]. split; [exact K3|]. split; [exact Nb|].
    intros ->. cbn [mapM] in Em. injection Em as <-. cbn [foldM] in Et. injection Et as <- <-. cbn [b_losses] in El. discriminate.
Qed.
End Network.
