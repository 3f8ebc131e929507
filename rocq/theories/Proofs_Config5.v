(* Configurations: the network that is built, tasks. *)
From Coq Require Import String Ascii ZArith NArith QArith Bool List Lia Permutation.
From Verif Require Import Base BaseFacts Proofs_Datamodel Model_Datamodel Spec_Datamodel Model_Vocab Model_Lemma Model_Features Model_Builder Spec_Builder
  Proofs_Features Proofs_Builder3 Model_Neural Spec_Neural Model_Network Spec_Network Proofs_Network2 Proofs_Network3 Proofs_Processors Model_Config Spec_Config Proofs_Config3 Proofs_Config4.
Import ListNotations.
Open Scope Z_scope.

Section Network.
Variables (stack_dict : result unit) (fc : features_config) (tcs : list task_config) (shapes : dict shape).
Notation make_task := (make_task stack_dict).
Notation inv := (inv fc tcs shapes).

Lemma dense_parts_inv name masked shared_name given sh labels parts l : forall g g' inputs gold inits,
  str_eqb name n_dropout || str_eqb name n_lr = false -> shape_parts shapes name = Ok parts -> (forall ip, In ip l -> nth_error parts (Z.to_nat (fst ip)) = Some (snd ip)) ->
  In (name, labels) gold ->
  (masked = true -> name = n_rule_labels /\ forall m, dict_get given n_applicable = Some m -> In (n_applicable, m) inputs) ->
  inv g inputs gold inits -> foldM (dense_part masked shared_name given sh labels) g l = Ok g' -> inv g' inputs gold inits.
Proof.
  induction l as [|[i [nm n]] l IH]; intros g g' inputs gold inits N1 Ep Hl Ig Hm I E; cbn [foldM] in E; [injection E as <-; exact I|].
  apply bind_ok_iff in E. destruct E as (g1 & E1 & E). eapply IH; [exact N1|exact Ep| |exact Ig|exact Hm| |exact E]; [intros; apply Hl; right; auto|].
  unfold dense_part in E1. cbn [fst snd] in E1. apply bind_ok_iff in E1. destruct E1 as (u & _ & E1). apply bind_ok_iff in E1. destruct E1 as (g0 & E0 & E1).
  injection E1 as <-. pose proof (Hl _ (or_introl eq_refl)) as Hn. cbn [fst snd] in Hn.
  apply (inv_target fc tcs shapes g0 inputs gold inits labels _ n name); auto.
  - destruct masked; [|injection E0 as <-; exact I]. destruct (Hm eq_refl) as [-> Hg]. apply bind_ok_iff in E0. destruct E0 as (m & Em & E0). injection E0 as <-.
    destruct (dict_get given n_applicable) as [m'|]; cbn [of_option] in Em; [|discriminate]. injection Em as ->.
    eapply inv_mask; eauto. eapply nth_error_In; eauto.
  - split; [exact N1|]. exists parts, nm. auto.
Qed.

Lemma dense_inv name masked shared_name weights given sh t g g' inputs gold inits o l x :
  str_eqb name n_dropout || str_eqb name n_lr = false -> In (name, t) gold ->
  (masked = true -> name = n_rule_labels /\ forall m, dict_get given n_applicable = Some m -> In (n_applicable, m) inputs) ->
  inv g inputs gold inits -> dense_build stack_dict name masked shared_name weights shapes given sh [(name, t)] g = Ok (g', (o, l, x)) ->
  x = Some [] /\ inv g' inputs gold inits.
Proof.
  intros N1 Ig Hm I E. unfold dense_build in E. cbn [dict_get] in E. rewrite (proj2 (str_eqb_eq name name) eq_refl) in E. cbn [of_option bind] in E.
  apply bind_ok_iff in E. destruct E as (parts & E1 & E). apply bind_ok_iff in E. destruct E as (g1 & E2 & E). apply bind_ok_iff in E. destruct E as (u & _ & E).
  unfold layer, placeholder in E. cbn [g_next g_lookups g_updates g_masks g_targets] in E. injection E as <- _ _ <-. split; [reflexivity|].
  apply inv_next; [|lia]. eapply dense_parts_inv; [exact N1|exact E1| |exact Ig|exact Hm|exact I|exact E2].
  intros [i p] J. apply In_nth_error in J. destruct J as [j J]. rewrite enumerate_nth' in J. destruct (nth_error parts j) as [q|] eqn:Q; cbn [option_map] in J; [|discriminate]. injection J as <- <-.
  cbn [fst snd]. rewrite Nat2Z.id. exact Q.
Qed.

Lemma dense_whole name masked shared_name weights given sh g1 g2 g3 d2 inputs gold inits o l x :
  str_eqb name n_dropout || str_eqb name n_lr = false -> str_eqb name n_output = false ->
  (masked = true -> name = n_rule_labels /\ forall m, dict_get given n_applicable = Some m -> In (n_applicable, m) inputs) ->
  inv g1 inputs gold inits -> dense_gold name shapes g1 = Ok (g2, d2) ->
  dense_build stack_dict name masked shared_name weights shapes given sh d2 g2 = Ok (g3, (o, l, x)) ->
  x = Some [] /\ exists t, d2 = [(name, t)] /\ inv g3 inputs (gold ++ [(name, t)]) inits.
Proof.
  intros N1 N2 Hm I E2 E3. unfold dense_gold in E2. apply bind_ok_iff in E2. destruct E2 as (parts & Ep & E2).
  assert (I1 : inv g2 inputs (gold ++ d2) inits /\ exists t, d2 = [(name, t)]).
  { pose proof (inv_golden fc tcs shapes _ _ _ _ name [None; None; Some (zlen parts)] I) as I1.
    destruct (placeholder [None; None; Some (zlen parts)] g1) as [g' t]. cbn [fst snd] in I1. injection E2 as <- <-. split; [|eauto]. apply I1.
    unfold gold_ok. rewrite N1, N2. eauto. }
  destruct I1 as [I1 [t ->]]. assert (Ig : In (name, t) (gold ++ [(name, t)])) by (apply in_app_iff; right; left; reflexivity).
  destruct (dense_inv _ _ _ _ _ _ _ _ _ _ _ _ _ _ _ N1 Ig Hm I1 E3) as [-> I3]. split; eauto.
Qed.

Lemma task_step shi sh tc t g b g' b' inits0 : dict_ok shi -> ~ In n_applicable (dict_keys shi) -> ~ In n_input (dict_keys shi) ->
  In tc tcs -> make_task tc = Ok t ->
  (forall k, In k (map fb_name (task_features tc)) -> ~ In k (dict_keys (b_inputs b))) -> ~ In (label_of (tc_kind tc)) (dict_keys (b_gold b)) ->
  inv g (b_inputs b) (b_gold b) (inits0 ++ b_inits b) -> build_task shapes shi sh (g, b) t = Ok (g', b') ->
  inv g' (b_inputs b') (b_gold b') (inits0 ++ b_inits b') /\
  dict_keys (b_inputs b') = dict_keys (b_inputs b) ++ map fb_name (task_features tc) /\
  dict_keys (b_gold b') = dict_keys (b_gold b) ++ [label_of (tc_kind tc)] /\ tc_kind tc <> lemma_binary.
Proof.
  intros Oi Na Ni Itc Et Fi Fg I E. unfold build_task in E. cbn [fst snd] in E.
  apply bind_ok_iff in E. destruct E as ([g1 d1] & E1 & E). cbn [fst snd] in E. apply bind_ok_iff in E. destruct E as ([g2 d2] & E2 & E). cbn [fst snd] in E.
  apply bind_ok_iff in E. destruct E as (dr & _ & E). apply bind_ok_iff in E. destruct E as ([g3 [[o l] x]] & E3 & E). cbn [fst snd] in E.
  apply bind_ok_iff in E. destruct E as (is & Ex & E). injection E as <- <-. cbn [b_inputs b_gold b_inits].
  destruct x as [is'|]; cbn [of_option] in Ex; [|discriminate]. injection Ex as ->.
  assert (Gget : forall k (v : tensor), ~ In k (dict_keys shi) -> dict_get (dict_update [(k, v)] shi) k = Some v).
  { intros k v N. rewrite dict_get_update by auto. rewrite (proj2 (dict_get_None _ _) N). cbn [dict_get]. rewrite (proj2 (str_eqb_eq k k) eq_refl). reflexivity. }
  assert (Upd : forall (d : dict tensor) k v, ~ In k (dict_keys d) -> dict_update d [(k, v)] = d ++ [(k, v)]).
  { intros d k v N. apply dict_update_fresh; [repeat constructor; intros []|]. intros k' [<-|[]]. exact N. }
  assert (Ks : forall (d : dict tensor) k v, dict_keys (d ++ [(k, v)]) = dict_keys d ++ [k]).
  { intros d k v. unfold dict_keys. rewrite map_app. reflexivity. }
  destruct tc as [kind sn ws rules inp out].
  destruct kind as [st| | | |]; unfold Model_Config.make_task, task_features in *; cbn [tc_kind tc_rules tc_input tc_output tc_weights tc_shared_name label_of] in *.
  - injection Et as <-. cbn [k_inputs k_gold k_build] in *. unfold no_inputs in E1. injection E1 as <- <-.
    eapply dense_whole in E3; [|reflexivity|reflexivity|discriminate|exact I|exact E2]. destruct E3 as [Ei (t & -> & I3)]. injection Ei as ->.
    change (dict_update (b_inputs b) []) with (b_inputs b). rewrite Upd by exact Fg. rewrite Ks, !app_nil_r. split; [exact I3|split; [reflexivity|split; [reflexivity|discriminate]]].
  - injection Et as <-. cbn [k_inputs k_gold k_build] in *. unfold no_inputs in E1. injection E1 as <- <-.
    eapply dense_whole in E3; [|reflexivity|reflexivity|discriminate|exact I|exact E2]. destruct E3 as [Ei (t & -> & I3)]. injection Ei as ->.
    change (dict_update (b_inputs b) []) with (b_inputs b). rewrite Upd by exact Fg. rewrite Ks, !app_nil_r. split; [exact I3|split; [reflexivity|split; [reflexivity|discriminate]]].
  - apply bind_ok_iff in Et. destruct Et as (th & Er & Et). destruct rules as [th'|]; cbn [of_option] in Er; [|discriminate]. injection Er as ->.
    injection Et as <-. cbn [k_inputs k_gold k_build given_part map fb_name] in *. unfold rules_inputs in E1. apply bind_ok_iff in E1. destruct E1 as (shp & Es & E1).
    apply bind_ok_iff in E1. destruct E1 as (n & En & E1).
    assert (I1 : exists m, d1 = [(n_applicable, m)] /\ inv g1 (b_inputs b ++ [(n_applicable, m)]) (b_gold b) (inits0 ++ b_inits b)).
    { pose proof (inv_input fc tcs shapes _ _ _ _ n_applicable [None; None; Some n] I) as I1.
      destruct (placeholder [None; None; Some n] g) as [g0 m]. cbn [fst snd] in I1. injection E1 as <- <-. exists m. split; auto. apply I1.
      unfold dims_ok. cbn. eauto. }
    destruct I1 as (m & -> & I1).
    eapply dense_whole in E3; [|reflexivity|reflexivity| |exact I1|exact E2].
    2:{ intros _. split; [reflexivity|]. intros m' Em. rewrite Gget in Em by exact Na. injection Em as <-. apply in_app_iff. right. left. reflexivity. }
    destruct E3 as [Ei (t & -> & I3)]. injection Ei as ->. rewrite Upd by (apply Fi; left; auto). rewrite Upd by exact Fg.
    rewrite !Ks, !app_nil_r. split; [exact I3|split; [reflexivity|split; [reflexivity|discriminate]]].
  - apply bind_ok_iff in Et. destruct Et as (c & Ec & Et). apply bind_ok_iff in Et. destruct Et as ([[th seg] mx] & Eo & Et).
    apply bind_ok_iff in Et. destruct Et as (w & Ew & Et). apply bind_ok_iff in Et. destruct Et as (u & _ & Et).
    destruct inp as [c'|]; cbn [of_option] in Ec; [|discriminate]. injection Ec as ->. destruct out as [o'|]; cbn [of_option] in Eo; [|discriminate]. injection Eo as ->.
    injection Et as <-. cbn [k_inputs k_gold k_build given_part map] in *.
    assert (Fn : fb_name (subwords_builder n_input c) = n_input) by (unfold subwords_builder; destruct (sw_source c); reflexivity). rewrite Fn in *.
    assert (I1 : exists m, d1 = [(n_input, m)] /\ inv g1 (b_inputs b ++ [(n_input, m)]) (b_gold b) (inits0 ++ b_inits b)).
    { pose proof (inv_input fc tcs shapes _ _ _ _ n_input [None; None; None] I) as I1.
      unfold placeholder in I1. cbn [fst snd] in I1. cbn [placeholder] in E1. injection E1 as <- <-. eexists. split; [reflexivity|]. apply I1. reflexivity. }
    destruct I1 as (m & -> & I1).
    assert (I2 : exists t, d2 = [(n_output, t)] /\ inv g2 (b_inputs b ++ [(n_input, m)]) (b_gold b ++ [(n_output, t)]) (inits0 ++ b_inits b)).
    { pose proof (inv_golden fc tcs shapes _ _ _ _ n_output [None; None; Some mx] I1) as I2.
      unfold placeholder in I2. cbn [fst snd] in I2. cbn [placeholder] in E2. injection E2 as <- <-. eexists. split; [reflexivity|]. apply I2.
      exists (mkTaskConfig lemma_combo sn ws rules (Some c) (Some (th, seg, mx))), th, seg, mx. auto. }
    destruct I2 as (t & -> & I2). unfold combo_build in E3. apply bind_ok_iff in E3. destruct E3 as (u' & _ & E3). rewrite Gget in E3 by exact Ni. cbn [of_option bind] in E3.
    apply bind_ok_iff in E3. destruct E3 as (ish & Eish & E3). apply bind_ok_iff in E3. destruct E3 as (rows & Erows & E3).
    apply bind_ok_iff in E3. destruct E3 as ([g4 e] & Eemb & E3). cbn [fst snd] in E3.
    assert (I4 : inv g4 (b_inputs b ++ [(n_input, m)]) (b_gold b ++ [(n_output, t)]) (inits0 ++ b_inits b)).
    { eapply inv_embedding; [exact I2|apply in_app_iff; right; left; reflexivity|reflexivity| |exact Eemb]. unfold rows_of. change (str_eqb n_input n_words) with false. cbv iota. rewrite Eish. exact Erows. }
    assert (I5 : exists g5 is5, match sw_source c with
                     | Learned _ => (g4, [])
                     | Pretrained _ => let (g2, i) := matrix_initializer n_input rows (sw_embed_size c) g4 in (g2, [i])
                     end = (g5, is5) /\ inv g5 (b_inputs b ++ [(n_input, m)]) (b_gold b ++ [(n_output, t)]) (inits0 ++ b_inits b ++ is5)).
    { destruct (sw_source c) as [thr|lines] eqn:Esc.
      - exists g4, []. rewrite app_nil_r. auto.
      - pose proof (inv_matrix fc tcs shapes _ _ _ _ n_input rows (sw_embed_size c) I4) as I5. destruct (matrix_initializer n_input rows (sw_embed_size c) g4) as [g5 i].
        cbn [fst snd] in I5. rewrite <- app_assoc in I5. exists g5, [i]. split; auto. apply I5.
        exists (subwords_builder n_input c), lines, ish. split; [|split; [unfold subwords_builder; rewrite Esc; reflexivity|split; [exact Eish|split; [exact Erows|split; [exact (embedding_cols _ _ _ _ _ Eemb)|]]]]].
        + unfold all_features. apply in_app_iff. right. apply in_flat_map. eexists. split; [exact Itc|]. left. reflexivity.
        + right. split; [reflexivity|]. eexists. exists c. split; [exact Itc|]. auto. }
    destruct I5 as (g5 & is5 & Em & I5). rewrite Em in E3. apply bind_ok_iff in E3. destruct E3 as (osh & Eosh & E3). apply bind_ok_iff in E3. destruct E3 as (n & En & E3).
    cbn [dict_get] in E3. rewrite (proj2 (str_eqb_eq n_output n_output) eq_refl) in E3. cbn [of_option bind] in E3.
    unfold layer, placeholder in E3. cbn [g_next g_lookups g_updates g_masks g_targets add_target] in E3. injection E3 as <- _ _ <-.
    rewrite Upd by (apply Fi; left; auto). rewrite Upd by exact Fg. rewrite !Ks.
    split; [|split; [|split; [|discriminate]]]; auto.
    apply (inv_target fc tcs shapes _ _ _ _ t None n n_output) in I5.
    + apply (inv_next fc tcs shapes _ (S (S (g_next g5)))) in I5; [exact I5|unfold add_target; cbn [g_next]; lia].
    + apply in_app_iff. right. left. reflexivity.
    + split; [reflexivity|]. eauto.
  - apply bind_ok_iff in Et. destruct Et as (th & Er & Et). injection Et as <-. cbn [k_build] in E3. unfold binary_build in E3.
    repeat (apply bind_ok_iff in E3; destruct E3 as (? & _ & E3)). discriminate.
Qed.

(* the loop over the tasks *)
Lemma tasks_inv shi sh inits0 : dict_ok shi -> ~ In n_applicable (dict_keys shi) -> ~ In n_input (dict_keys shi) ->
  forall l ts g b g' b', incl l tcs -> mapM make_task l = Ok ts ->
  NoDup (dict_keys (b_inputs b) ++ map fb_name (flat_map task_features l)) -> NoDup (dict_keys (b_gold b) ++ map (fun tc => label_of (tc_kind tc)) l) ->
  inv g (b_inputs b) (b_gold b) (inits0 ++ b_inits b) -> foldM (build_task shapes shi sh) (g, b) ts = Ok (g', b') ->
  inv g' (b_inputs b') (b_gold b') (inits0 ++ b_inits b') /\
  dict_keys (b_inputs b') = dict_keys (b_inputs b) ++ map fb_name (flat_map task_features l) /\
  dict_keys (b_gold b') = dict_keys (b_gold b) ++ map (fun tc => label_of (tc_kind tc)) l /\ Forall (fun tc => tc_kind tc <> lemma_binary) l.
Proof.
  intros Oi Na Ni. induction l as [|tc l IH]; intros ts g b g' b' Inc Em Di Dg I E; cbn [mapM] in Em.
  - injection Em as <-. cbn [foldM] in E. injection E as <- <-. cbn [flat_map map]. rewrite !app_nil_r. auto.
  - apply bind_ok_iff in Em. destruct Em as (t & Et & Em). apply bind_ok_iff in Em. destruct Em as (ts' & Em & H). injection H as <-.
    cbn [foldM] in E. apply bind_ok_iff in E. destruct E as ([g1 b1] & E1 & E). cbn [flat_map map] in *. rewrite map_app in Di.
    destruct (task_step shi sh tc t g b g1 b1 inits0 Oi Na Ni) as (I1 & K1 & K2 & Nb); auto.
    + apply Inc. left. reflexivity.
    + intros k J1 J2. apply NoDup_app_iff in Di. destruct Di as (_ & _ & D). apply (D k J2). apply in_app_iff. auto.
    + intros J. apply NoDup_app_iff in Dg. destruct Dg as (_ & _ & D). apply (D _ J). left. reflexivity.
    + destruct (IH ts' g1 b1 g' b') as (I2 & K3 & K4 & Nl); auto.
      * intros x J. apply Inc. right. exact J.
      * rewrite K1, <- app_assoc. exact Di.
      * rewrite K2, <- app_assoc. exact Dg.
      * split; auto. rewrite map_app, K3, K1, K4, K2, <- !app_assoc. auto.
Qed.
End Network.
