(* Configurations: labels, and the parts of what is set up. *)
From Coq Require Import String Ascii ZArith NArith QArith Bool List Lia Permutation.
From Verif Require Import Base BaseFacts Proofs_Datamodel Model_Datamodel Spec_Datamodel Model_Vocab Model_Lemma Model_Features Spec_Features Model_Builder Spec_Builder
  Proofs_Features Proofs_Builder3 Proofs_Builder5 Model_Neural Spec_Neural Spec_Gold Proofs_Gold Proofs_Gold2 Model_Network Spec_Network Proofs_Network2 Proofs_Network3
  Model_Config Spec_Config Proofs_Config Proofs_Config2 Proofs_Config3 Proofs_Config4 Proofs_Config5 Proofs_Config6 Proofs_Config7.
Import ListNotations.
Open Scope Z_scope.

(* what is known about the array of a label, given the shapes of its builder *)
Definition label_ok (lb : label_builder) (sh : dict shape) (ss : list (list dtoken)) (m : Z) (y : nested) : Prop :=
  match lb with
  | LBChars name _ _ mx => exists n, sh = [(name, ShList [Some n])] /\ shaped [zlen ss; m; mx] y /\ within n y
  | _ => exists lens, sh = [(label_name lb, ShParts lens)] /\ shaped [zlen ss; m; zlen lens] y /\
           forall i nm n, nth_error lens i = Some (nm, n) -> column_within i n y
  end.

Section Labels.
Variables (lower : str -> str) (ds : list document).
Notation features := (features label_builder obj elements (label_features lower ds) (fun _ _ _ v => v)).

Lemma label_list lb ss m (Wd : nat -> Prop) (C : nat -> Z -> Prop) : ss <> [] -> (forall s, In s ss -> s <> []) -> max_length ss m -> (forall i, C i 0) ->
  (forall s x, In s ss -> In x s -> exists ids, label_features lower ds lb (OTok x) = Ok [(label_name lb, NList (map NInt ids))] /\ Wd (length ids) /\
     forall i z, nth_error ids i = Some z -> C i z) ->
  exists y w, features (wrap_word_level lb) 0%Q (batch ss) = Ok [(label_name lb, y)] /\ shaped [zlen ss; m; Z.of_nat w] y /\ Wd w /\
    forall p z, at_path p y = Some (NInt z) -> exists a b i, p = [a; b; i] /\ C i z.
Proof.
  intros Ne Nes Hm C0 H.
  destruct (tokens_features _ (label_features lower ds) (fun _ _ _ v => v) (BBasic _ lb) (label_name lb) 0%Q
     (fun v => exists ids, v = NList (map NInt ids) /\ Wd (length ids) /\ forall i z, nth_error ids i = Some z -> C i z) ss Ne Nes)
    as (vss & E & L & F).
  { intros s x Hs Hx. destruct (H s x Hs Hx) as (ids & Ez & Hw & Hz). cbn [Model_Builder.features]. rewrite Ez. eexists. split; [reflexivity|]. eauto. }
  destruct (lists_array ss vss m Wd C Ne Nes L Hm C0 F) as (y & w & Ey & Sh & Hw & Hp).
  exists y, w. split; [|split; [|split]]; auto. unfold wrap_word_level.
  change (features (BPad _ ?b) 0%Q (batch ss)) with (do d <- features b 0%Q (batch ss); pad_values d).
  rewrite E. cbn [bind]. unfold pad_values. cbn [mapM snd fst]. rewrite Ey. reflexivity.
Qed.

Lemma shapes_build lb sh : label_shapes lower ds lb = Ok sh -> exists l, build_label lower ds lb = Ok l.
Proof.
  destruct lb; cbn [label_shapes build_label]; intros H; apply bind_ok_iff in H; destruct H as (v & -> & _); cbn [bind]; eauto.
Qed.

Lemma label_array lb sh ss m : Forall opt_pos_wf (dataset_poses ds) ->
  (forall name, lb = LBPos name pos_gran -> no_reserved_feature (dataset_poses ds)) -> sized lb ->
  ss <> [] -> (forall s, In s ss -> s <> []) -> max_length ss m -> training_batch ds ss -> label_shapes lower ds lb = Ok sh ->
  exists y, features (wrap_word_level lb) 0%Q (batch ss) = Ok [(label_name lb, y)] /\ label_ok lb sh ss m y.
Proof.
  intros W N Sz Ne Nes Hm Tb E. destruct (shapes_build lb sh E) as (l & El).
  assert (G : forall s x, In s ss -> In x s -> exists ids n, label_features lower ds lb (OTok x) = Ok [(label_name lb, NList (map NInt ids))] /\
    width ds lb n /\ length ids = n /\ possible lower ds lb (NList (map NInt ids))).
  { intros s x Is Ix. destruct (Tb s x Is Ix) as [Id Wx]. destruct (gold_label lower ds lb l x W N Sz El Wx Id) as (ids & n & A & B & C & D & _). exists ids, n. auto. }
  assert (X : exists s x, In s ss /\ In x s).
  { clear -Ne Nes. destruct ss as [|s0 ss']; [congruence|]. destruct s0 as [|x0 s0]; [exfalso; apply (Nes []); [left; auto|auto]|]. exists (x0 :: s0), x0. split; left; auto. }
  destruct X as (s0 & x0 & I0 & J0). destruct (G s0 x0 I0 J0) as (ids0 & n0 & _ & W0 & L0 & P0).
  assert (Single : forall nm n (Po : forall ids, possible lower ds lb (NList (map NInt ids)) -> exists i more, ids = i :: more /\ 0 <= i < n),
     sh = [(label_name lb, ShParts [(nm, n)])] -> (forall k, width ds lb k -> k = 1%nat) -> label_ok lb sh ss m = (fun y => exists lens, sh = [(label_name lb, ShParts lens)] /\ shaped [zlen ss; m; zlen lens] y /\
           forall i nm n, nth_error lens i = Some (nm, n) -> column_within i n y) ->
     exists y, features (wrap_word_level lb) 0%Q (batch ss) = Ok [(label_name lb, y)] /\ label_ok lb sh ss m y).
  { intros nm n Po Esh W1 ->.
    destruct (label_list lb ss m (fun k => k = 1%nat) (fun _ z => 0 <= z < n) Ne Nes Hm) as (y & w & Ey & Sh & -> & Hp).
    - destruct (Po ids0 P0) as (i & more & _ & Hi). intros _. lia.
    - intros s x Is Ix. destruct (G s x Is Ix) as (ids & k & Ei & Wk & Lk & Pk). exists ids. split; auto. apply W1 in Wk. subst k. split; auto.
      destruct (Po ids Pk) as (i & more & -> & Hi). destruct more; [|discriminate]. intros [|[|j]] z; cbn; intros H; try discriminate. injection H as <-. auto.
    - exists y. split; auto. exists [(nm, n)]. split; auto. split; auto. intros [|[|i]] nm' n' H; cbn in H; try discriminate. injection H as <- <-.
      intros a b z A. destruct (Hp _ _ A) as (_ & _ & _ & _ & Hz). exact Hz. }
  destruct lb as [name st|name|name th|name th seg mx]; cbn [label_shapes label_name] in *.
  - apply bind_ok_iff in E. destruct E as (b & Eb & H). injection H as <-. cbn [label_ok label_name].
    assert (Po : forall ids, possible lower ds (LBPos name st) (NList (map NInt ids)) -> Forall2 (fun i nl => 0 <= i < snd nl) ids (pl_lens b)).
    { intros ids (b' & ids' & Eb' & Ei & F). rewrite Eb in Eb'. injection Eb' as <-. injection Ei as Ei.
      replace ids with ids'; auto. clear -Ei. revert ids' Ei. induction ids as [|i ids IH]; intros [|i' ids'] E; cbn in E; try discriminate; auto.
      injection E as -> E. f_equal. apply IH. exact E. }
    destruct (label_list (LBPos name st) ss m (fun k => k = length (pl_lens b)) (fun i z => forall nm n, nth_error (pl_lens b) i = Some (nm, n) -> 0 <= z < n) Ne Nes Hm)
      as (y & w & Ey & Sh & -> & Hp).
    + intros i nm n Hn. pose proof (Po _ P0) as F0. destruct (Forall2_nth_r _ _ _ _ _ F0 Hn) as (z & _ & Hz). cbn [snd] in Hz. lia.
    + intros s x Is Ix. destruct (G s x Is Ix) as (ids & k & Ei & (b' & Eb' & ->) & Lk & Pk). rewrite Eb in Eb'. injection Eb' as <-. exists ids. split; auto. split; auto.
      intros i z Hi nm n Hn. destruct (Forall2_nth _ _ _ _ _ (Po _ Pk) Hi) as (nl & Hn' & Hz). rewrite Hn in Hn'. injection Hn' as <-. exact Hz.
    + exists y. split; auto. exists (pl_lens b). split; auto. split; auto. intros i nm n Hn a b' z A. destruct (Hp _ _ A) as (a1 & b1 & i1 & Ep & Hz). injection Ep as <- <- <-. eauto.
  - apply bind_ok_iff in E. destruct E as ([l2i i2l] & Eb & H). injection H as <-. cbn [snd] in *. apply (Single n_LEMMA (zlen i2l)); auto.
    intros ids (l2i' & i2l' & i & more & Eb' & Ei & Hi). rewrite Eb in Eb'. injection Eb' as <- <-. destruct ids as [|i' ids']; cbn in Ei; [discriminate|]. injection Ei as -> _. eauto.
  - apply bind_ok_iff in E. destruct E as ([r2i i2r] & Eb & H). injection H as <-. cbn [snd] in *. apply (Single n_LEMMA (zlen i2r)); auto.
    intros ids (r2i' & i2r' & i & more & Eb' & Ei & Hi). rewrite Eb in Eb'. injection Eb' as <- <-. destruct ids as [|i' ids']; cbn in Ei; [discriminate|]. injection Ei as -> _. eauto.
  - apply bind_ok_iff in E. destruct E as (v & Eb & H). injection H as <-. cbn [label_ok].
    assert (Po : forall ids, possible lower ds (LBChars name th seg mx) (NList (map NInt ids)) -> Forall (fun i => 0 <= i < zlen v + 4) ids).
    { intros ids (v' & ids' & Eb' & Ei & F). rewrite Eb in Eb'. injection Eb' as <-. injection Ei as Ei.
      replace ids with ids'; auto. clear -Ei. revert ids' Ei. induction ids as [|i ids IH]; intros [|i' ids'] E; cbn in E; try discriminate; auto.
      injection E as -> E. f_equal. apply IH. exact E. }
    destruct (label_list (LBChars name th seg mx) ss m (fun k => Z.of_nat k = mx) (fun _ z => 0 <= z < zlen v + 4) Ne Nes Hm) as (y & w & Ey & Sh & Ew & Hp).
    + intros _. pose proof (zlen_nonneg v). lia.
    + intros s x Is Ix. destruct (G s x Is Ix) as (ids & k & Ei & Wk & Lk & Pk). exists ids. split; auto. cbn [width] in Wk. rewrite Lk. split; auto.
      intros i z Hi. apply nth_error_In in Hi. pose proof (Po _ Pk) as F. rewrite Forall_forall in F. auto.
    + exists y. split; auto. exists (zlen v + 4). split; auto. rewrite Ew in Sh. split; auto. intros p z A. destruct (Hp _ _ A) as (_ & _ & _ & _ & Hz). exact Hz.
Qed.
End Labels.

(* the providers *)
Lemma shared_parts fc : parts _ wrap_of (map pr_features (shared_providers fc)) (shared_features fc) /\
  parts _ wrap_word_level (map pr_labels (shared_providers fc)) [].
Proof.
  assert (G : forall {A} (o : option A) (f : A -> feature_builder) (g : A -> provider), (forall a, pr_features (g a) = wrap_of (f a) /\ pr_labels (g a) = BEmpty _) ->
     parts _ wrap_of (map pr_features (given_part o g)) (given_part o f) /\ parts _ wrap_word_level (map pr_labels (given_part o g)) []).
  { intros A [a|] f g H; cbn [given_part map]; [|split; constructor]. destruct (H a) as [-> ->]. split; [apply parts_wrap|apply parts_empty]; constructor. }
  assert (Sw : forall name c, pr_features (subwords_provider name c) = wrap_of (subwords_builder name c) /\ pr_labels (subwords_provider name c) = BEmpty _).
  { intros name c. unfold subwords_provider, subwords_builder. destruct (sw_source c); split; reflexivity. }
  unfold shared_providers, shared_features. rewrite !map_app.
  destruct (G _ (fc_words fc) (fun c => FBWords n_words n_word_embeddings (fst c) (snd c)) (fun c => features_only (wrap_words true (FBWords n_words n_word_embeddings (fst c) (snd c))))) as [A1 B1]; [split; reflexivity|].
  destruct (G _ (fc_trained fc) (fun c => FBTrained n_trained_words (fst (fst c)) (snd (fst c))) (fun c => features_only (wrap_words true (FBTrained n_trained_words (fst (fst c)) (snd (fst c)))))) as [A2 B2]; [split; reflexivity|].
  destruct (G _ (fc_characters fc) (subwords_builder n_characters) (subwords_provider n_characters)) as [A3 B3]; [apply Sw|].
  destruct (G _ (fc_bpe fc) (subwords_builder n_bpe) (subwords_provider n_bpe)) as [A4 B4]; [apply Sw|].
  destruct (G _ (fc_morfessor fc) (subwords_builder n_morfessor) (subwords_provider n_morfessor)) as [A5 B5]; [apply Sw|].
  split.
  - repeat (apply parts_app; auto). cbn [map features_only pr_features]. apply (parts_wrap _ wrap_of (FBLength n_lengths)). constructor.
  - change (@nil label_builder) with (([] ++ ([] ++ ([] ++ ([] ++ ([] ++ []))))) : list label_builder). repeat (apply parts_app; auto). cbn [map features_only pr_labels]. apply parts_empty. constructor.
Qed.

Lemma task_parts stack_dict tc t : make_task stack_dict tc = Ok t ->
  parts _ wrap_of (map pr_features (k_providers t)) (task_features tc) /\ parts _ wrap_word_level (map pr_labels (k_providers t)) (task_label tc) /\
  map label_name (task_label tc) = [label_of (tc_kind tc)].
Proof.
  intros E. unfold make_task in E. unfold task_features, task_label. destruct (tc_kind tc).
  - injection E as <-. cbn. split; [apply parts_empty; constructor|]. split; [|reflexivity]. apply (parts_wrap _ wrap_word_level). constructor.
  - injection E as <-. cbn. split; [apply parts_empty; constructor|]. split; [|reflexivity]. apply (parts_wrap _ wrap_word_level). constructor.
  - apply bind_ok_iff in E. destruct E as (th & Er & E). destruct (tc_rules tc) as [th'|]; cbn [of_option] in Er; [|discriminate]. injection Er as ->. injection E as <-.
    cbn [k_providers map pr_features pr_labels given_part label_name label_of]. split; [apply (parts_wrap _ wrap_of (FBApplicable n_applicable th)); constructor|].
    split; [apply (parts_wrap _ wrap_word_level); constructor|reflexivity].
  - apply bind_ok_iff in E. destruct E as (c & Ec & E). apply bind_ok_iff in E. destruct E as ([[th seg] mx] & Eo & E).
    apply bind_ok_iff in E. destruct E as (w & Ew & E). apply bind_ok_iff in E. destruct E as (u & _ & E).
    destruct (tc_input tc) as [c'|]; cbn [of_option] in Ec; [|discriminate]. injection Ec as ->. destruct (tc_output tc) as [o'|]; cbn [of_option] in Eo; [|discriminate]. injection Eo as ->.
    injection E as <-. cbn [k_providers map pr_features pr_labels given_part label_name label_of labels_only subwords_provider features_only]. split; [|split; [|reflexivity]].
    + apply parts_empty. replace (wrap_words true (subwords_builder n_input c)) with (wrap_of (subwords_builder n_input c)) by (unfold subwords_builder; destruct (sw_source c); reflexivity).
      apply parts_wrap. constructor.
    + apply (parts_wrap _ wrap_word_level). apply parts_empty. constructor.
  - apply bind_ok_iff in E. destruct E as (th & Er & E). destruct (tc_rules tc) as [th'|]; cbn [of_option] in Er; [|discriminate]. injection Er as ->. injection E as <-.
    cbn [k_providers map pr_features pr_labels given_part label_name label_of]. split; [apply (parts_wrap _ wrap_of (FBApplicable n_applicable th)); constructor|].
    split; [apply (parts_wrap _ wrap_word_level); constructor|reflexivity].
Qed.

Lemma all_parts stack_dict k fc tcs tasks : mapM (make_task stack_dict) tcs = Ok tasks ->
  parts _ wrap_of (map pr_features (fst (feature_providers (make_shared k fc) tasks))) (all_features fc tcs) /\
  parts _ wrap_word_level (map pr_labels (fst (feature_providers (make_shared k fc) tasks))) (all_labels tcs) /\
  map label_name (all_labels tcs) = map (fun tc => label_of (tc_kind tc)) tcs /\
  fst (feature_providers (make_shared k fc) tasks) <> [].
Proof.
  intros E. unfold feature_providers. cbn [fst]. 
  assert (Fl : forall (ts : list (task tensor nat graph (dict shape) provider)) acc, fold_left (fun r t => r ++ k_providers t) ts acc = acc ++ flat_map k_providers ts).
  { induction ts as [|t ts IH]; intros acc; cbn [fold_left flat_map]; [rewrite app_nil_r; auto|]. rewrite IH, app_assoc. reflexivity. }
  rewrite Fl. cbn [make_shared s_providers]. rewrite !map_app. destruct (shared_parts fc) as [A B].
  assert (G : parts _ wrap_of (map pr_features (flat_map k_providers tasks)) (flat_map task_features tcs) /\
     parts _ wrap_word_level (map pr_labels (flat_map k_providers tasks)) (all_labels tcs) /\ map label_name (all_labels tcs) = map (fun tc => label_of (tc_kind tc)) tcs).
  { apply mapM_ok in E. induction E as [|tc t tcs tasks Ht _ (IH1 & IH2 & IH3)]; [repeat split; constructor|]. destruct (task_parts _ _ _ Ht) as (C & D & F).
    unfold all_labels in *. cbn [flat_map map]. rewrite !map_app, F, IH3. repeat split; auto using parts_app. }
  destruct G as (C & D & F). split; [apply parts_app; auto|]. split; [apply (parts_app _ _ _ [] _ (all_labels tcs)); auto|]. split; auto.
  unfold shared_providers. discriminate.
Qed.
