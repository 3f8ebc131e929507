(* Configurations: which configurations are set up, shared layers and tasks. *)
From Coq Require Import String Ascii ZArith NArith QArith Bool List Lia Permutation.
From Verif Require Import Base BaseFacts Proofs_Datamodel Model_Datamodel Spec_Datamodel Model_Vocab Model_Lemma Model_Features Model_Builder Spec_Builder
  Proofs_Features Proofs_Builder3 Model_Neural Spec_Neural Model_Network Spec_Network Proofs_Network2 Proofs_Network3 Proofs_Processors Model_Config Spec_Config
  Proofs_Config3 Proofs_Config4 Proofs_Config5 Proofs_Config6 Proofs_Config9 Proofs_Config12 Proofs_Config15.
Import ListNotations.
Open Scope Z_scope.

Lemma keys_set {A} (d : dict A) k v x : In x (dict_keys (dict_set d k v)) <-> x = k \/ In x (dict_keys d).
Proof.
  rewrite dict_keys_set. destruct (dict_mem d k) eqn:E.
  - apply dict_mem_In in E. split; [auto|intros [-> |H]; auto].
  - rewrite in_app_iff. cbn [In]. split; [intros [H|[H|[]]]; auto|intros [H|H]; auto].
Qed.
Lemma keys_update {A} (e : dict A) : forall d x, In x (dict_keys (dict_update d e)) <-> In x (dict_keys d) \/ In x (dict_keys e).
Proof.
  unfold dict_update. induction e as [|[k v] e IH]; intros d x; cbn [fold_left]; [cbn; tauto|].
  rewrite IH, keys_set. cbn [fst dict_keys map In]. split; [intros [[-> |H]|H]; auto|intros [H|[H|H]]; auto].
Qed.
Lemma get_some {A} (d : dict A) k : dict_get d k <> None <-> In k (dict_keys d).
Proof. rewrite dict_get_None. split; [|tauto]. intros H. rewrite <- dict_mem_In. destruct (dict_mem d k) eqn:E; auto. exfalso. apply H. intros J. apply dict_mem_In in J. congruence. Qed.

Lemma steps_keys shapes inputs steps names : Forall2 (yields shapes inputs) steps names -> forall g r is g' r' is',
  foldM (run_step shapes inputs) (g, r, is) steps = Ok (g', r', is') -> forall x, In x (dict_keys r') <-> In x (dict_keys r) \/ In x names.
Proof.
  induction 1 as [|f n steps names Hf _ IH]; intros g r is g' r' is' E x; cbn [foldM] in E.
  - injection E as <- <- <-. cbn; tauto.
  - apply bind_ok_iff in E. destruct E as ([[g1 r1] i1] & E1 & E). unfold run_step in E1 at 1. apply bind_ok_iff in E1. destruct E1 as ([[g0 nt] i] & E0 & E1). injection E1 as <- <- <-.
    rewrite (IH _ _ _ _ _ _ E x), keys_set, (Hf _ _ _ _ E0). cbn [In]. split; [intros [[-> |H]|H]; auto|intros [H|[H|H]]; auto].
Qed.

Section Build.
Variables (V : Type) (to_float : str -> result V) (zero : V) (lower : str -> str) (stack_dict : result unit) (ds : list document).
Variables (k : shared_kind) (fc : features_config) (tcs : list task_config) (shapes : dict shape).
Notation shapes_of := (feature_shapes V to_float zero lower).
Hypothesis Osh : dict_ok shapes.
Hypothesis Fsh : forall fb, In fb (all_features fc tcs) -> exists sh, shapes_of ds fb = Ok sh /\ incl sh shapes.
Hypothesis Lsh : forall lb, In lb (all_labels tcs) -> exists sh, label_shapes lower ds lb = Ok sh /\ incl sh shapes.

Section Inputs.
Variable inputs : dict tensor.
Hypothesis Inp : dict_keys inputs = map fb_name (shared_features fc).

Lemma step_names_in x : In x (step_names fc) <->
  (x = n_word_embedding /\ fc_words fc <> None) \/ (x = n_trained_embedding /\ fc_trained fc <> None) \/ (x = n_characters /\ fc_characters fc <> None) \/
  (x = n_bpe /\ fc_bpe fc <> None) \/ (x = n_morfessor /\ fc_morfessor fc <> None).
Proof.
  assert (G : forall A (o : option A) n, (exists a, o = Some a /\ x = n) <-> (x = n /\ o <> None)).
  { intros A o n. split; [intros (a & -> & ->); split; congruence|]. intros [-> H]. destruct o as [a|]; [eauto|congruence]. }
  unfold step_names. rewrite !in_app_iff, !given_In, !G. tauto.
Qed.

Lemma layers_runs g : runs (shared_layers fc shapes inputs g) <-> shared_all V to_float zero ds fc /\ shared_steps fc <> [].
Proof.
  assert (L : exists t, dict_get inputs n_lengths = Some t).
  { apply (input_get fc inputs Inp (FBLength n_lengths)). unfold shared_features. apply in_app_iff. left. left. reflexivity. }
  destruct L as (t & Et). unfold shared_layers. rewrite runs_bind. rewrite <- (steps_all V to_float zero lower ds fc tcs shapes Osh Fsh inputs Inp g [] []). split.
  - intros ([[g1 r] is] & E & H). split; [eexists; exact E|]. rewrite Et in H. cbn [of_option bind] in H. unfold layer, placeholder in H. apply runs_bind in H. destruct H as (u & H & _).
    apply raise_ok in H. intros X. rewrite X in H. discriminate.
  - intros [([[g1 r] is] & E) Ne]. exists (g1, r, is). split; [exact E|]. rewrite Et. cbn [of_option bind]. unfold layer, placeholder. destruct (shared_steps fc); [congruence|]. cbn [raise_if bind]. apply runs_ok.
Qed.
Lemma layers_keys g g' r is : shared_layers fc shapes inputs g = Ok (g', r, is) ->
  forall x, In x (dict_keys r) <-> In x (step_names fc) \/ x = n_word_features \/ x = n_mask \/ x = n_norm.
Proof.
  intros E x. unfold shared_layers in E. apply bind_ok_iff in E. destruct E as ([[g1 r1] is1] & E1 & E). apply bind_ok_iff in E. destruct E as (t & _ & E). unfold layer, placeholder in E.
  apply bind_ok_iff in E. destruct E as (u & _ & E). pose proof (f_equal (fun z => match z with Ok (_, r, _) => r | Err _ => [] end) E) as Er. cbv beta iota in Er. rewrite <- Er, keys_update, (steps_keys _ _ _ _ (steps_yield fc shapes inputs) _ _ _ _ _ _ E1 x).
  cbn [dict_keys map fst In]. split; [intros [[[]|H]|[H|[H|[H|[]]]]]; auto|intros [H|[H|[H|H]]]; auto 6].
Qed.

Lemma skip_runs name sk s : runs (add_skip name sk s) <-> skips sk.
Proof.
  destruct sk as [|same| |]; cbn [add_skip skips].
  - split; [auto|intros _; apply runs_ok].
  - rewrite runs_bind. setoid_rewrite raise_ok. split; [intros (u & H & _); destruct same; auto|intros ->; exists tt; split; [reflexivity|apply runs_ok]].
  - split; [auto|intros _; apply runs_ok].
  - split; [intros (a & H); discriminate|intros []].
Qed.
Definition keys_of (s : graph * dict tensor * list (initializer tensor nat)) : list str := dict_keys (snd (fst s)).
Lemma layer_keys name s x : In x (keys_of (add_layer name s)) <-> x = name \/ In x (keys_of s).
Proof. destruct s as [[g r] i]. unfold add_layer, layer, placeholder, keys_of. cbn [fst snd]. apply keys_set. Qed.
Lemma skip_keys name sk s s' : add_skip name sk s = Ok s' -> forall x, In x (keys_of s') <-> (x = name /\ sk <> SkipNone) \/ In x (keys_of s).
Proof.
  destruct sk as [|same| |]; cbn [add_skip]; intros E x.
  - injection E as <-. split; [auto|intros [[_ H]|H]; [congruence|auto]].
  - destruct same; cbn [negb raise_if bind] in E; [|discriminate]. injection E as <-. rewrite layer_keys. split; [intros [H|H]; [left; split; [auto|discriminate]|auto]|intros [[H _]|H]; auto].
  - injection E as <-. rewrite layer_keys. split; [intros [H|H]; [left; split; [auto|discriminate]|auto]|intros [[H _]|H]; auto].
  - discriminate.
Qed.

Lemma shared_runs g : runs (shared_build k fc shapes inputs g) <-> (shared_all V to_float zero ds fc /\ shared_steps fc <> []) /\ shared_kind_ok k.
Proof.
  unfold shared_build. rewrite runs_bind, <- (layers_runs g).
  assert (P : forall s, runs (match k with
    | WE_charCNN => Ok s
    | BiLSTM layers sk => do _ <- raise_if (layers <=? 0) EValue; add_skip n_bilstm_skip sk (add_layer n_bilstm s)
    | BiLSTM_CNN layers sk =>
        do _ <- raise_if (layers <=? 0) EValue;
        do s' <- add_skip n_bilstm_skip sk (add_layer n_bilstm s);
        Ok (add_layer n_bilstm_cnn s')
    | Dilated_CNN kernels sk => do _ <- raise_if (negb kernels) EValue; add_skip n_dilated_skip sk (add_layer n_dilated s)
    end) <-> shared_kind_ok k).
  { intros s. destruct k as [|layers sk|layers sk|kernels sk]; cbn [shared_kind_ok].
    - split; [auto|intros _; apply runs_ok].
    - rewrite runs_bind, <- (skip_runs n_bilstm_skip sk (add_layer n_bilstm s)). setoid_rewrite raise_ok. split; [intros (u & H & R); apply Z.leb_gt in H; auto|intros [H R]; exists tt; split; [apply Z.leb_gt; exact H|exact R]].
    - rewrite runs_bind, <- (skip_runs n_bilstm_skip sk (add_layer n_bilstm s)). setoid_rewrite raise_ok. setoid_rewrite runs_bind. split.
      + intros (u & H & s' & E & _); apply Z.leb_gt in H; split; [exact H|eexists; exact E].
      + intros [H (s' & R)]; exists tt; split; [apply Z.leb_gt; exact H|]. exists s'. split; [exact R|apply runs_ok].
    - rewrite runs_bind, <- (skip_runs n_dilated_skip sk (add_layer n_dilated s)). setoid_rewrite raise_ok. split; [intros (u & H & R); destruct kernels; auto; discriminate|intros [-> R]; exists tt; split; [reflexivity|exact R]]. }
  split; [intros (s & E & R); apply P in R; split; [eexists; exact E|auto]|intros [(s & E) K]; exists s; split; [exact E|apply P; auto]].
Qed.

Lemma build_keys g g' r is : shared_build k fc shapes inputs g = Ok (g', r, is) ->
  forall x, In x (dict_keys r) <-> shared_layer k fc x \/ x = n_mask \/ x = n_norm.
Proof.
  intros E x. unfold shared_build in E. apply bind_ok_iff in E. destruct E as ([[g1 r1] is1] & E1 & E). pose proof (layers_keys _ _ _ _ E1 x) as K. rewrite step_names_in in K.
  change (dict_keys r1) with (keys_of (g1, r1, is1)) in K. change (dict_keys r) with (keys_of (g', r, is)). remember (g1, r1, is1) as s1. remember (g', r, is) as s2. clear Heqs1 Heqs2 E1.
  unfold shared_layer. fold n_word_features n_word_embedding n_trained_embedding n_characters n_bpe n_morfessor n_bilstm n_bilstm_skip n_bilstm_cnn n_dilated n_dilated_skip.
  destruct k as [|layers sk|layers sk|kernels sk].
  - injection E as <-. tauto.
  - apply bind_ok_iff in E. destruct E as (u & _ & E). rewrite (skip_keys _ _ _ _ E x), layer_keys. tauto.
  - apply bind_ok_iff in E. destruct E as (u & _ & E). apply bind_ok_iff in E. destruct E as (s' & E2 & E). injection E as <-. rewrite layer_keys, (skip_keys _ _ _ _ E2 x), layer_keys. tauto.
  - apply bind_ok_iff in E. destruct E as (u & _ & E). rewrite (skip_keys _ _ _ _ E x), layer_keys. tauto.
Qed.
End Inputs.

Lemma layer_special : ~ shared_layer k fc n_mask /\ ~ shared_layer k fc n_norm.
Proof.
  unfold shared_layer. split; intros H; destruct k as [|layers sk|layers sk|kernels sk];
    repeat match goal with H : _ \/ _ |- _ => destruct H as [H|H] | H : _ /\ _ |- _ => destruct H as [H _] end; discriminate || contradiction.
Qed.

Variable sh : dict tensor.
Hypothesis Keys : forall x, In x (dict_keys sh) <-> shared_layer k fc x \/ x = n_mask \/ x = n_norm.

Lemma read_runs name : runs (read_shared name sh) <-> shared_layer k fc name.
Proof.
  unfold read_shared. rewrite runs_bind.
  assert (G : forall x, In x (dict_keys sh) -> exists t, dict_get sh x = Some t).
  { intros x J. apply get_some in J. destruct (dict_get sh x) as [t|]; [eauto|congruence]. }
  destruct (G n_mask) as (tm & Em); [apply Keys; auto|]. destruct (G n_norm) as (tn & En); [apply Keys; auto|]. split.
  - intros (t & Et & H). apply runs_bind in H. destruct H as (u & H & _). apply raise_ok in H. apply orb_false_iff in H. destruct H as [H1 H2].
    assert (J : In name (dict_keys sh)) by (apply get_some; destruct (dict_get sh name); [discriminate|cbn in Et; discriminate]).
    apply Keys in J. destruct J as [J|[-> | ->]]; auto; discriminate.
  - intros H. destruct (G name) as (t & Et); [apply Keys; auto|]. exists t. rewrite Et. split; [reflexivity|]. destruct layer_special as [S1 S2].
    assert (N1 : str_eqb name n_mask = false) by (destruct (str_eqb_spec name n_mask) as [-> |]; [contradiction|auto]).
    assert (N2 : str_eqb name n_norm = false) by (destruct (str_eqb_spec name n_norm) as [-> |]; [contradiction|auto]).
    rewrite N1, N2, Em, En. cbn [orb raise_if of_option bind]. apply runs_ok.
Qed.

Lemma sum_runs w ps : runs (sum_weighted stack_dict w ps) <-> match w with None => stack_dict = Ok tt | Some w => forall p, In p ps -> In p w \/ In n_default w end.
Proof.
  assert (Hw : forall w x, has_weight w x = true <-> In x w).
  { intros w' x. unfold has_weight. rewrite existsb_exists. split; [intros (y & J & E); apply str_eqb_eq in E; subst; auto|intros J; exists x; split; [auto|apply str_eqb_eq; auto]]. }
  unfold sum_weighted. destruct w as [w|].
  - rewrite runs_raise, negb_false_iff, forallb_forall. split.
    + intros H p J. specialize (H p J). apply orb_true_iff in H. rewrite !Hw in H. exact H.
    + intros H p J. apply orb_true_iff. rewrite !Hw. auto.
  - split; [intros ([] & H); exact H|intros ->; apply runs_ok].
Qed.

Lemma dense_runs name masked sn w given t g parts : shape_parts shapes name = Ok parts -> parts <> [] -> (masked = true -> exists m, dict_get given n_applicable = Some m) ->
  (runs (dense_build stack_dict name masked sn w shapes given sh [(name, t)] g) <->
   shared_layer k fc sn /\ match w with None => stack_dict = Ok tt | Some w => forall p, In p (dict_keys parts) -> In p w \/ In n_default w end).
Proof.
  intros Ep Ne Hm. unfold dense_build. cbn [dict_get]. rewrite (proj2 (str_eqb_eq name name) eq_refl), Ep. cbn [of_option bind]. rewrite runs_bind, <- sum_runs.
  assert (F : runs (foldM (dense_part masked sn given sh t) g (enumerate parts)) <-> shared_layer k fc sn).
  { rewrite (foldM_runs (fun _ => True) (fun _ => shared_layer k fc sn)); auto.
    - split; [|intros H x _; exact H]. intros H. destruct (enumerate parts) as [|x l] eqn:E.
      + exfalso. apply Ne. apply length_zero_iff_nil. rewrite <- enumerate_len', E. reflexivity.
      + apply (H x). left. reflexivity.
    - intros g0 [i [nm n]] _ _. unfold dense_part. rewrite runs_bind. cbn [fst snd]. rewrite <- read_runs. split; [intros (u & E & _); eexists; exact E|].
      intros (u & E). exists u. split; [exact E|]. destruct masked; [|cbn [bind]; apply runs_ok]. destruct (Hm eq_refl) as (m & ->). cbn [of_option bind]. apply runs_ok. }
  rewrite <- F. split.
  - intros (g1 & E & R). split; [eexists; exact E|]. apply runs_bind in R. destruct R as (u & R & _). eexists; exact R.
  - intros [(g1 & E) (u & R)]. exists g1. split; [exact E|]. rewrite R. cbn [bind]. unfold layer, placeholder. apply runs_ok.
Qed.
End Build.
