(* Configurations: everything that is fed is used. *)
From Coq Require Import String Ascii ZArith NArith QArith Bool List Lia Permutation.
From Verif Require Import Base BaseFacts Proofs_Datamodel Model_Datamodel Spec_Datamodel Model_Vocab Model_Lemma Model_Features Model_Builder Spec_Builder
  Proofs_Features Proofs_Builder3 Model_Neural Spec_Neural Model_Network Spec_Network Proofs_Network2 Proofs_Network3 Proofs_Processors Model_Config Spec_Config
  Proofs_Config3 Proofs_Config4 Proofs_Config5 Proofs_Config6 Proofs_Config9 Proofs_Config12 Proofs_Config15 Proofs_Config16 Proofs_Config17.
Import ListNotations.
Open Scope Z_scope.

Definition grows (g g' : graph) : Prop := incl (g_lookups g) (g_lookups g') /\ incl (g_masks g) (g_masks g') /\ incl (g_targets g) (g_targets g').
Lemma grows_refl g : grows g g.
Proof. repeat split; apply incl_refl. Qed.
Lemma grows_trans a b c : grows a b -> grows b c -> grows a c.
Proof. intros (A1 & A2 & A3) (B1 & B2 & B3). repeat split; eapply incl_tran; eauto. Qed.
Definition looked (g : graph) (t : tensor) : Prop := exists n, In (t, n) (g_lookups g).
Definition masks (g : graph) (t : tensor) : Prop := exists n, In (t, n) (g_masks g).
Lemma looked_grows g g' t : grows g g' -> looked g t -> looked g' t.
Proof. intros (A & _) (n & J). exists n. auto. Qed.
Lemma masks_grows g g' t : grows g g' -> masks g t -> masks g' t.
Proof. intros (_ & A & _) (n & J). exists n. auto. Qed.
Lemma learned_grows g g' t : grows g g' -> learned g t -> learned g' t.
Proof.
  intros (_ & _ & A) (w & Ed & H). exists w. split; [exact Ed|]. destruct H as [(n & J)|H]; [left; exists n; auto|]. right. intros j Hj. destruct (H j Hj) as (n & J). exists n. auto.
Qed.

Lemma in_set {A} (d : dict A) k v x : In x (dict_set d k v) -> In x d \/ x = (k, v).
Proof.
  induction d as [|[k' v'] d IH]; cbn [dict_set]; [intros [<-|[]]; auto|]. destruct (str_eqb_spec k k') as [-> |].
  - intros [<-|H]; [auto|left; right; exact H].
  - intros [<-|H]; [left; left; reflexivity|]. destruct (IH H) as [J|J]; [left; right; exact J|auto].
Qed.
Lemma in_update {A} (e : dict A) : forall d x, In x (dict_update d e) -> In x d \/ In x e.
Proof.
  unfold dict_update. induction e as [|[k v] e IH]; intros d x; cbn [fold_left]; [auto|]. intros H. destruct (IH _ _ H) as [J|J]; [|right; right; exact J].
  apply in_set in J. destruct J as [J| ->]; [auto|right; left; reflexivity].
Qed.

Lemma embedding_looks ids rows cols g ge : embedding_layer ids rows cols g = Ok ge -> grows g (fst ge) /\ looked (fst ge) ids.
Proof.
  intros E. unfold embedding_layer in E. apply bind_ok_iff in E. destruct E as (u & _ & E). apply bind_ok_iff in E. destruct E as (u' & _ & E). injection E as <-. unfold layer, placeholder. cbn [fst].
  split; [repeat split; cbn [g_lookups g_masks g_targets]; try apply incl_refl; apply incl_tl, incl_refl|]. exists rows. left. reflexivity.
Qed.
Lemma matrix_grows name rows cols g : grows g (fst (matrix_initializer name rows cols g)).
Proof. unfold matrix_initializer, layer, placeholder. cbn [fst]. repeat split; apply incl_refl. Qed.

Section Steps.
Variables (fc : features_config) (shapes : dict shape) (inputs : dict tensor).
Definition reads (f : step) (n : str) : Prop := forall g g' nt i, f shapes inputs g = Ok (g', nt, i) ->
  grows g g' /\ exists t, dict_get inputs n = Some t /\ looked g' t.
Lemma option_some {A} e (o : option A) a : of_option e o = Ok a -> o = Some a.
Proof. destruct o; cbn; congruence. Qed.
Lemma words_reads : reads words_step n_words.
Proof.
  intros g g' nt i E. unfold words_step in E. apply bind_ok_iff in E. destruct E as (ids & Ei & E). apply bind_ok_iff in E. destruct E as (sh & _ & E).
  apply bind_ok_iff in E. destruct E as (rows & _ & E). apply bind_ok_iff in E. destruct E as (cols & _ & E). apply bind_ok_iff in E. destruct E as (ge & Ee & E).
  apply option_some in Ei. destruct (embedding_looks _ _ _ _ _ Ee) as [G L]. pose proof (matrix_grows n_word_embeddings rows cols (fst ge)) as M. destruct (matrix_initializer n_word_embeddings rows cols (fst ge)) as [g2 i2].
  cbn [fst] in M. injection E as <- _ _. split; [eapply grows_trans; eauto|]. exists ids. split; [exact Ei|]. eapply looked_grows; eauto.
Qed.
Lemma trained_reads size : reads (trained_step size) n_trained_words.
Proof.
  intros g g' nt i E. unfold trained_step in E. apply bind_ok_iff in E. destruct E as (sh & _ & E). apply bind_ok_iff in E. destruct E as (rows & _ & E).
  apply bind_ok_iff in E. destruct E as (ids & Ei & E). apply bind_ok_iff in E. destruct E as (ge & Ee & E). injection E as <- _ _. apply option_some in Ei. destruct (embedding_looks _ _ _ _ _ Ee) as [G L]. eauto.
Qed.
Lemma subwords_reads name c : reads (subwords_step name c) name.
Proof.
  intros g g' nt i H. unfold subwords_step in H. apply bind_ok_iff in H. destruct H as (ids & Ei & H). apply bind_ok_iff in H. destruct H as (sh & _ & H). apply bind_ok_iff in H. destruct H as (rows & _ & H).
  apply option_some in Ei. destruct (sw_source c).
  - apply bind_ok_iff in H. destruct H as (ge & Ee & H). destruct (embedding_looks _ _ _ _ _ Ee) as [G L]. unfold layer, placeholder in H. injection H as <- _ _. split; [exact G|]. exists ids. split; [exact Ei|exact L].
  - apply bind_ok_iff in H. destruct H as (cols & _ & H). apply bind_ok_iff in H. destruct H as (ge & Ee & H). destruct (embedding_looks _ _ _ _ _ Ee) as [G L].
    pose proof (matrix_grows name rows cols (fst ge)) as M. destruct (matrix_initializer name rows cols (fst ge)) as [g2 i2]. cbn [fst] in M. unfold layer, placeholder in H. injection H as <- _ _.
    assert (G2 : grows g2 (mkGraph (S (g_next g2)) (g_lookups g2) (g_updates g2) (g_masks g2) (g_targets g2))) by (repeat split; apply incl_refl).
    split; [eapply grows_trans; [exact G|eapply grows_trans; [exact M|exact G2]]|]. exists ids. split; [exact Ei|]. eapply looked_grows; [exact G2|]. eapply looked_grows; [exact M|exact L].
Qed.
Definition read_names : list str :=
  given_part (fc_words fc) (fun _ => n_words) ++ given_part (fc_trained fc) (fun _ => n_trained_words)
  ++ given_part (fc_characters fc) (fun _ => n_characters) ++ given_part (fc_bpe fc) (fun _ => n_bpe) ++ given_part (fc_morfessor fc) (fun _ => n_morfessor).
Lemma read_names_all : map fst (shared_placeholders fc) = n_lengths :: read_names.
Proof. unfold shared_placeholders, read_names. destruct (fc_words fc), (fc_trained fc), (fc_characters fc), (fc_bpe fc), (fc_morfessor fc); reflexivity. Qed.
Lemma steps_read : Forall2 reads (shared_steps fc) read_names.
Proof.
  assert (G : forall A (o : option A) (f : A -> step) n, (forall a, reads (f a) n) -> Forall2 reads (given_part o f) (given_part o (fun _ => n))).
  { intros A o f n H. destruct o; cbn [given_part]; constructor; auto. }
  unfold shared_steps, read_names. repeat apply Forall2_app; apply G; intros; auto using words_reads, trained_reads, subwords_reads.
Qed.
Lemma steps_looked steps names : Forall2 reads steps names -> forall g r is g' r' is', foldM (run_step shapes inputs) (g, r, is) steps = Ok (g', r', is') ->
  grows g g' /\ forall n, In n names -> exists t, dict_get inputs n = Some t /\ looked g' t.
Proof.
  induction 1 as [|f n steps names Hf _ IH]; intros g r is g' r' is' E; cbn [foldM] in E.
  - injection E as <- _ _. split; [apply grows_refl|intros n []].
  - apply bind_ok_iff in E. destruct E as ([[g1 r1] i1] & E1 & E). unfold run_step in E1 at 1. apply bind_ok_iff in E1. destruct E1 as ([[g0 nt] i] & E0 & E1). injection E1 as <- <- <-.
    destruct (Hf _ _ _ _ E0) as [G1 (t & Et & L)]. destruct (IH _ _ _ _ _ _ E) as [G2 H]. split; [eapply grows_trans; eauto|]. intros n' [<-|J]; [|auto]. exists t. split; [exact Et|]. eapply looked_grows; eauto.
Qed.
Lemma layer_grows name s : grows (fst (fst s)) (fst (fst (add_layer name s))).
Proof. destruct s as [[g r] i]. unfold add_layer, layer, placeholder. cbn [fst]. repeat split; apply incl_refl. Qed.
Lemma skip_grows name sk s s' : add_skip name sk s = Ok s' -> grows (fst (fst s)) (fst (fst s')).
Proof.
  destruct sk as [|same| |]; cbn [add_skip]; intros E.
  - injection E as <-. apply grows_refl.
  - destruct same; cbn [negb raise_if bind] in E; [|discriminate]. injection E as <-. apply layer_grows.
  - injection E as <-. apply layer_grows.
  - discriminate.
Qed.
Lemma shared_looked k g g' r is : shared_build k fc shapes inputs g = Ok (g', r, is) -> forall n, In n read_names -> exists t, dict_get inputs n = Some t /\ looked g' t.
Proof.
  intros E n J. unfold shared_build in E. apply bind_ok_iff in E. destruct E as ([[g1 r1] is1] & E1 & E).
  assert (L1 : exists t, dict_get inputs n = Some t /\ looked g1 t).
  { unfold shared_layers in E1. apply bind_ok_iff in E1. destruct E1 as ([[g0 r0] is0] & E0 & E1). apply bind_ok_iff in E1. destruct E1 as (t & _ & E1). unfold layer, placeholder in E1.
    apply bind_ok_iff in E1. destruct E1 as (u & _ & E1). pose proof (f_equal (fun z => match z with Ok (g, _, _) => g | Err _ => empty_graph end) E1) as Eg. cbv beta iota in Eg.
    destruct (steps_looked _ _ steps_read _ _ _ _ _ _ E0) as [_ H]. destruct (H n J) as (t' & Et & L). exists t'. split; [exact Et|]. rewrite <- Eg. exact L. }
  assert (G : grows g1 g').
  { change g1 with (fst (fst (g1, r1, is1))). change g' with (fst (fst (g', r, is))). remember (g1, r1, is1) as s1. remember (g', r, is) as s2. clear -E. destruct k as [|layers sk|layers sk|kernels sk].
    - injection E as <-. apply grows_refl.
    - apply bind_ok_iff in E. destruct E as (u & _ & E). apply skip_grows in E. eapply grows_trans; [apply layer_grows|exact E].
    - apply bind_ok_iff in E. destruct E as (u & _ & E). apply bind_ok_iff in E. destruct E as (s' & E2 & E). injection E as <-. apply skip_grows in E2.
      eapply grows_trans; [apply (layer_grows n_bilstm)|]. eapply grows_trans; [exact E2|apply layer_grows].
    - apply bind_ok_iff in E. destruct E as (u & _ & E). apply skip_grows in E. eapply grows_trans; [apply layer_grows|exact E]. }
  destruct L1 as (t & Et & L). exists t. split; [exact Et|]. eapply looked_grows; eauto.
Qed.
End Steps.

Lemma dense_fold masked sn inputs sh t l : forall g g', foldM (dense_part masked sn inputs sh t) g l = Ok g' ->
  grows g g' /\ forall ip, In ip l -> In (t, Some (Z.to_nat (fst ip)), snd (snd ip)) (g_targets g') /\ (masked = true -> exists m, dict_get inputs n_applicable = Some m /\ masks g' m).
Proof.
  induction l as [|[i [nm n]] l IH]; intros g g' E; cbn [foldM] in E.
  - injection E as <-. split; [apply grows_refl|intros ip []].
  - apply bind_ok_iff in E. destruct E as (g1 & E1 & E). destruct (IH _ _ E) as [G H]. clear IH E. unfold dense_part in E1. apply bind_ok_iff in E1. destruct E1 as (u & _ & E1).
    apply bind_ok_iff in E1. destruct E1 as (g0 & E0 & E1). injection E1 as E1. cbn [fst snd] in *.
    assert (G0 : grows g g0 /\ (masked = true -> exists m, dict_get inputs n_applicable = Some m /\ masks g0 m)).
    { destruct masked; [|injection E0 as <-; split; [apply grows_refl|discriminate]]. apply bind_ok_iff in E0. destruct E0 as (m & Em & E0). injection E0 as <-. apply option_some in Em. split.
      - repeat split; cbn [add_mask g_lookups g_masks g_targets]; try apply incl_refl; apply incl_tl, incl_refl.
      - intros _. exists m. split; [exact Em|]. exists n. left. reflexivity. }
    destruct G0 as [G0 M0].
    assert (G1 : grows g0 g1) by (rewrite <- E1; repeat split; cbn [add_target g_lookups g_masks g_targets]; try apply incl_refl; apply incl_tl, incl_refl).
    split; [eapply grows_trans; [exact G0|eapply grows_trans; eauto]|]. intros ip [<-|J]; [|auto]. cbn [fst snd]. split.
    + destruct G as (_ & _ & G). apply G. rewrite <- E1. left. reflexivity.
    + intros Em. destruct (M0 Em) as (m & Hm & Mm). exists m. split; [exact Hm|]. eapply masks_grows; [exact G|]. eapply masks_grows; eauto.
Qed.
Lemma dense_uses stack_dict name masked sn w shapes given sh t g g' r : dense_build stack_dict name masked sn w shapes given sh [(name, t)] g = Ok (g', r) ->
  exists parts, shape_parts shapes name = Ok parts /\ grows g g' /\ (forall j, 0 <= j < zlen parts -> exists n, In (t, Some (Z.to_nat j), n) (g_targets g')) /\
    (masked = true -> parts <> [] -> exists m, dict_get given n_applicable = Some m /\ masks g' m).
Proof.
  unfold dense_build. cbn [dict_get]. rewrite (proj2 (str_eqb_eq name name) eq_refl). cbn [of_option bind]. intros E. apply bind_ok_iff in E. destruct E as (parts & Ep & E).
  apply bind_ok_iff in E. destruct E as (g1 & E1 & E). apply bind_ok_iff in E. destruct E as (u & _ & E). unfold layer, placeholder in E. injection E as <- _.
  exists parts. split; [exact Ep|]. destruct (dense_fold _ _ _ _ _ _ _ _ E1) as [G H].
  assert (En : forall j, (j < length parts)%nat -> exists x, In (Z.of_nat j, x) (enumerate parts)).
  { intros j Hj. destruct (nth_error parts j) as [x|] eqn:Ex; [|apply nth_error_None in Ex; lia]. exists x. eapply nth_error_In. rewrite enumerate_nth', Ex. reflexivity. }
  split; [exact G|]. split.
  - intros j Hj. unfold zlen in Hj. destruct (En (Z.to_nat j)) as (x & J); [lia|]. destruct (H _ J) as [T _]. cbn [fst] in T. rewrite Z2Nat.id in T by lia. exists (snd x). exact T.
  - intros Em Ne. destruct (En 0%nat) as (x & J); [destruct parts; [congruence|cbn; lia]|]. destruct (H _ J) as [_ M]. exact (M Em).
Qed.

Section Tasks.
Variables (V : Type) (to_float : str -> result V) (zero : V) (lower : str -> str) (stack_dict : result unit) (ds : list document).
Variables (k : shared_kind) (fc : features_config) (tcs : list task_config) (shapes : dict shape).
Hypothesis Osh : dict_ok shapes.
Hypothesis Lsh : forall lb, In lb (all_labels tcs) -> exists sh, label_shapes lower ds lb = Ok sh /\ incl sh shapes.
Variables (shi sh : dict tensor).
Hypothesis Inp : dict_keys shi = map fb_name (shared_features fc).

Definition all_used (g : graph) (b : parts tensor nat) : Prop :=
  (forall x t, In (x, t) (b_inputs b) -> x = n_lengths \/ (x <> n_applicable /\ looked g t) \/ (x = n_applicable /\ masks g t)) /\
  (forall x t, In (x, t) (b_gold b) -> x = n_lr \/ x = n_dropout \/ learned g t).

Lemma task_uses tc t g b g' b' : In tc tcs -> make_task stack_dict tc = Ok t -> build_task shapes shi sh (g, b) t = Ok (g', b') -> all_used g b -> all_used g' b'.
Proof.
  intros It Et E [U1 U2]. unfold build_task in E. cbn [fst snd] in E.
  apply bind_ok_iff in E. destruct E as ([g1 d1] & E1 & E). cbn [fst snd] in E. apply bind_ok_iff in E. destruct E as ([g2 d2] & E2 & E). cbn [fst snd] in E.
  apply bind_ok_iff in E. destruct E as (dr & _ & E). apply bind_ok_iff in E. destruct E as ([g3 [[o l] x]] & E3 & E). cbn [fst snd] in E.
  apply bind_ok_iff in E. destruct E as (is & Ex & E).
  pose proof (f_equal (fun z => match z with Ok (g, _) => g | Err _ => g end) E) as Eg. pose proof (f_equal (fun z => match z with Ok (_, b) => b_inputs b | Err _ => [] end) E) as Ei. pose proof (f_equal (fun z => match z with Ok (_, b) => b_gold b | Err _ => [] end) E) as Eo.
  cbv beta iota in Eg, Ei, Eo. cbn [b_inputs b_gold] in Ei, Eo. subst g3. clear E.
  assert (X : grows g g' /\ (forall x t, In (x, t) d1 -> (x <> n_applicable /\ looked g' t) \/ (x = n_applicable /\ masks g' t)) /\ (forall x t, In (x, t) d2 -> learned g' t)).
  { clear U1 U2 Ei Eo.
    assert (Dense : forall name masked, k_gold t = dense_gold name -> k_build t = (fun shapes i sh gold _ g => dense_build stack_dict name masked (tc_shared_name tc) (tc_weights tc) shapes i sh gold g) ->
      exists parts, shape_parts shapes name = Ok parts /\ grows g1 g' /\ (forall x t, In (x, t) d2 -> learned g' t) /\
        (masked = true -> parts <> [] -> exists m, dict_get (dict_update d1 shi) n_applicable = Some m /\ masks g' m)).
    { intros name masked Hg Hb. rewrite Hg in E2. rewrite Hb in E3. unfold dense_gold in E2. apply bind_ok_iff in E2. destruct E2 as (parts & Ep & E2). unfold placeholder in E2. injection E2 as <- <-.
      destruct (dense_uses _ _ _ _ _ _ _ _ _ _ _ _ E3) as (parts' & Ep' & G & T & M). rewrite Ep in Ep'. injection Ep' as <-. exists parts. split; [exact Ep|]. split; [exact G|]. split; [|exact M].
      intros y t' [H|[]]. injection H as _ <-. exists (zlen parts). split; [reflexivity|right; exact T]. }
    unfold make_task in Et. assert (Lab := fun lb J => Lsh lb (in_task_label tcs tc lb It J)). unfold task_label in Lab. destruct (tc_kind tc).
    - injection Et as <-. cbn [k_inputs] in E1. unfold no_inputs in E1. injection E1 as <- <-. destruct (Dense n_pos_labels false eq_refl eq_refl) as (parts & _ & G & T & _). split; [exact G|]. split; [intros ? ? []|exact T].
    - injection Et as <-. cbn [k_inputs] in E1. unfold no_inputs in E1. injection E1 as <- <-. destruct (Dense n_lemma_labels false eq_refl eq_refl) as (parts & _ & G & T & _). split; [exact G|]. split; [intros ? ? []|exact T].
    - apply bind_ok_iff in Et. destruct Et as (th & Er & Et). destruct (tc_rules tc) as [th'|]; cbn [of_option] in Er; [|discriminate]. injection Er as ->. injection Et as <-. cbn [k_inputs] in E1.
      destruct (Dense n_rule_labels true eq_refl eq_refl) as (parts & Ep & G & T & M). destruct (Lab _ (or_introl eq_refl)) as (s & Es & Inc). cbn [label_shapes] in Es. apply bind_ok_iff in Es. destruct Es as (bl & Eb & Es). injection Es as <-.
      rewrite (shape_parts_get shapes Osh n_rule_labels _ (Inc _ (or_introl eq_refl))) in Ep. injection Ep as <-.
      unfold rules_inputs in E1. apply bind_ok_iff in E1. destruct E1 as (shp & _ & E1). apply bind_ok_iff in E1. destruct E1 as (n & _ & E1). unfold placeholder in E1. injection E1 as <- <-.
      destruct M as (m & Em & M); [reflexivity|discriminate|]. rewrite (own_input fc shi Inp n_applicable _ (or_introl eq_refl)) in Em. injection Em as <-.
      split; [exact G|]. split; [|exact T]. intros y t' [H|[]]. injection H as <- <-. right. split; [reflexivity|exact M].
    - apply bind_ok_iff in Et. destruct Et as (c & Ec & Et). apply bind_ok_iff in Et. destruct Et as ([[th seg] mx] & Eo & Et).
      apply bind_ok_iff in Et. destruct Et as (w & Ew & Et). apply bind_ok_iff in Et. destruct Et as (u & _ & Et). injection Et as <-. clear Dense. cbn [k_inputs k_gold k_build placeholder] in E1, E2, E3. injection E1 as <- <-. injection E2 as <- <-.
      unfold combo_build in E3. apply bind_ok_iff in E3. destruct E3 as (u' & _ & E3). rewrite (own_input fc shi Inp n_input _ (or_intror eq_refl)) in E3. cbn [of_option bind] in E3.
      apply bind_ok_iff in E3. destruct E3 as (ish & Eish & E3). apply bind_ok_iff in E3. destruct E3 as (rows & Erows & E3).
      apply bind_ok_iff in E3. destruct E3 as (ge & Eemb & E3). destruct (embedding_looks _ _ _ _ _ Eemb) as [G L].
      assert (M : grows (fst ge) (fst (match sw_source c with Learned _ => (fst ge, []) | Pretrained _ => let (g2, i) := matrix_initializer n_input rows (sw_embed_size c) (fst ge) in (g2, [i]) end))).
      { destruct (sw_source c); [apply grows_refl|]. pose proof (matrix_grows n_input rows (sw_embed_size c) (fst ge)) as M. destruct (matrix_initializer n_input rows (sw_embed_size c) (fst ge)). exact M. }
      destruct (match sw_source c with Learned _ => _ | Pretrained _ => _ end) as [g5 is5]. cbn [fst] in M.
      apply bind_ok_iff in E3. destruct E3 as (osh & Eosh & E3). apply bind_ok_iff in E3. destruct E3 as (n & En & E3).
      cbn [dict_get] in E3. rewrite (proj2 (str_eqb_eq n_output n_output) eq_refl) in E3. cbn [of_option bind] in E3.
      unfold layer, placeholder in E3. cbn [g_next g_lookups g_updates g_masks g_targets add_target] in E3. injection E3 as <- _ _ _.
      assert (G5 : forall tt, grows g5 (mkGraph (S (S (g_next g5))) (g_lookups g5) (g_updates g5) (g_masks g5) (tt :: g_targets g5))) by (intros tt; repeat split; cbn [g_lookups g_masks g_targets]; try apply incl_refl; apply incl_tl, incl_refl).
      split; [eapply grows_trans; [exact G|eapply grows_trans; [exact M|apply G5]]|]. split.
      + intros y t' [H|[]]. injection H as <- <-. left. split; [discriminate|]. eapply looked_grows; [eapply grows_trans; [exact M|apply G5]|exact L].
      + intros y t' [H|[]]. injection H as <- <-. exists mx. split; [reflexivity|]. left. eexists. left. reflexivity.
    - exfalso. apply bind_ok_iff in Et. destruct Et as (th & Er & Et). injection Et as <-. cbn [k_build] in E3. clear Dense. rename E3 into Eb.
      unfold binary_build in Eb. apply bind_ok_iff in Eb. destruct Eb as (y1 & _ & Eb). apply bind_ok_iff in Eb. destruct Eb as (y2 & _ & Eb). apply bind_ok_iff in Eb. destruct Eb as (y3 & _ & Eb).
      apply bind_ok_iff in Eb. destruct Eb as (y4 & _ & Eb). apply bind_ok_iff in Eb. destruct Eb as (y5 & _ & Eb). unfold layer, placeholder in Eb. injection Eb as _ _ _ <-. discriminate. }
  destruct X as (G & H1 & H2). split.
  - intros y t' J. rewrite <- Ei in J. apply in_update in J. destruct J as [J|J]; [|right; auto]. destruct (U1 _ _ J) as [H|[[N H]|[N H]]]; [auto|right; left; split; [auto|eapply looked_grows; eauto]|right; right; split; [auto|eapply masks_grows; eauto]].
  - intros y t' J. rewrite <- Eo in J. apply in_update in J. destruct J as [J|J]; [|right; right; eauto]. destruct (U2 _ _ J) as [H|[H|H]]; auto. right. right. eapply learned_grows; eauto.
Qed.

Lemma tasks_use tasks : forall l, incl l tcs -> mapM (make_task stack_dict) l = Ok tasks -> forall g b g' b', foldM (build_task shapes shi sh) (g, b) tasks = Ok (g', b') ->
  all_used g b -> all_used g' b'.
Proof.
  induction tasks as [|t tasks IH]; intros l Il Em g b g' b' E U.
  - cbn [foldM] in E. injection E as <- <-. exact U.
  - destruct l as [|tc l]; [discriminate|]. cbn [mapM] in Em. apply bind_ok_iff in Em. destruct Em as (t' & Et & Em). apply bind_ok_iff in Em. destruct Em as (ts & Em & H). injection H as -> ->.
    cbn [foldM] in E. apply bind_ok_iff in E. destruct E as ([g1 b1] & E1 & E). apply (IH l (fun x J => Il x (or_intror J)) Em _ _ _ _ E). eapply task_uses; [apply Il; left; reflexivity|exact Et|exact E1|exact U].
Qed.
End Tasks.

Theorem set_up_used : forall V to_float zero lower stack_dict known k fc tcs ds su,
  train_set_up V to_float zero lower stack_dict known k fc tcs ds = Ok su ->
  (forall x t, In (x, t) (n_inputs (su_network su)) -> x = of_string "sentences_lengths" \/
     (x <> of_string "applicable_rules" /\ exists n, In (t, n) (g_lookups (su_graph su))) \/ (x = of_string "applicable_rules" /\ exists n, In (t, n) (g_masks (su_graph su)))) /\
  (forall x t, In (x, t) (n_gold (su_network su)) -> x = of_string "learning_rate" \/ x = of_string "dropout_probability" \/ learned (su_graph su) t).
Proof.
  intros V to_float zero lower stack_dict known k fc tcs ds su E. pose proof (set_up_facts V to_float zero lower stack_dict known k fc tcs ds su E) as F.
  unfold train_set_up in E. apply bind_ok_iff in E. destruct E as (tasks & Et & E).
  destruct (feature_providers (make_shared k fc) tasks) as [ps sb] eqn:Ep.
  assert (Esb : sb = mkShared ps (s_inputs (make_shared k fc)) (s_build (make_shared k fc))) by (unfold feature_providers in Ep; injection Ep as <- <-; reflexivity).
  apply bind_ok_iff in E. destruct E as (fb & Ef & E). apply bind_ok_iff in E. destruct E as (lb & El & E).
  apply bind_ok_iff in E. destruct E as (fsh & Efs & E). apply bind_ok_iff in E. destruct E as (lsh & Els & E).
  apply bind_ok_iff in E. destruct E as (shapes & Esh & E). apply bind_ok_iff in E. destruct E as ([net g] & Eb & E). injection E as <-. cbn [fst snd su_network su_graph] in *.
  assert (Eb' : build hyper_placeholders sum_losses (optimize known) operation (make_shared k fc) tasks shapes empty_graph = Ok (net, g)) by (rewrite Esb in Eb; exact Eb).
  pose proof (f_shapes _ _ _ _ _ _ _ _ _ _ _ F) as Osh. pose proof (f_lsh _ _ _ _ _ _ _ _ _ _ _ F) as Lsh. cbn [su_shapes] in Osh, Lsh.
  clear F Eb Ef El Efs Els Esh. unfold build in Eb'. destruct (hyper_placeholders empty_graph) as [g0 [dr lr]] eqn:Eh. cbn [fst snd make_shared s_inputs s_build] in Eb'.
  pose proof (placeholders_keys (shared_placeholders fc) g0) as K0. destruct (placeholders_of (shared_placeholders fc) g0) as [g1 shi]. cbn [bind fst snd] in *. pose proof K0 as K1. rewrite shared_names in K1. rewrite read_names_all in K0.
  assert (Oi : dict_ok shi) by (unfold dict_ok; rewrite K1; apply shared_nodup).
  apply bind_ok_iff in Eb'. destruct Eb' as ([g2 [sh shin]] & Es & E). cbn [fst snd] in E. apply bind_ok_iff in Es. destruct Es as ([[g2' sh'] shin'] & Es & H). injection H as -> -> ->.
  apply bind_ok_iff in E. destruct E as ([g3 b] & Eb & E). cbn [fst snd] in E.
  assert (U : all_used g3 b).
  { eapply (tasks_use lower stack_dict ds fc tcs shapes Osh Lsh shi sh K1 tasks tcs (incl_refl _) Et _ _ _ _ Eb). split; cbn [b_inputs b_gold].
    - intros x t J. apply in_update in J. destruct J as [[]|J].
      assert (Jx : In x (n_lengths :: read_names fc)) by (rewrite <- K0; apply (in_map fst _ _ J)). destruct Jx as [<-|Jx]; [auto|]. right. left.
      destruct (shared_looked fc shapes shi k _ _ _ _ Es x Jx) as (t' & Et' & L). rewrite (In_dict_get _ _ _ Oi J) in Et'. injection Et' as <-. split; [|exact L].
      intros ->. unfold read_names in Jx. rewrite !in_app_iff, !given_In in Jx. repeat destruct Jx as [Jx|Jx]; destruct Jx as (? & _ & X); discriminate.
    - intros x t [H|[H|[]]]; injection H as <- _; auto. }
  destruct (b_losses b) as [|l0 ls]; [discriminate|]. unfold sum_losses, layer, placeholder in E.
  apply bind_ok_iff in E. destruct E as (lr' & _ & E). apply bind_ok_iff in E. destruct E as ([g5 op] & Eo & E). cbn [fst snd] in E. unfold optimize in Eo. apply bind_ok_iff in Eo. destruct Eo as (u & _ & Eo).
  unfold operation, layer, placeholder in Eo, E. cbn [fst snd g_next g_lookups g_updates g_masks g_targets] in Eo, E. injection Eo as <- _. injection E as <- <-. cbn [n_inputs n_gold]. exact U.
Qed.
