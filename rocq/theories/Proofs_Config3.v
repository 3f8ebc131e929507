(* Configurations: the features of a batch, builder by builder. *)
From Coq Require Import String Ascii ZArith NArith QArith Bool List Lia Permutation.
From Verif Require Import Base BaseFacts Proofs_Datamodel Model_Datamodel Spec_Datamodel Model_Vocab Model_Lemma Model_Features Model_Builder Spec_Builder
  Proofs_Features Proofs_Features5 Proofs_Features6 Proofs_Lemma2 Proofs_Builder Proofs_Builder3 Proofs_Builder5 Proofs_Labels3 Model_Neural Spec_Neural Proofs_Gold2
  Model_Network Spec_Network Model_Config Spec_Config Proofs_Config Proofs_Config2.
Import ListNotations.
Open Scope Z_scope.

Definition fb_name (fb : feature_builder) : str :=
  match fb with
  | FBLength n | FBWords n _ _ _ | FBTrained n _ _ | FBPretrained n _ _ _ | FBSubwords n _ _ | FBApplicable n _ => n
  end.
Definition fb_segment (fb : feature_builder) : option (str -> result (list str)) :=
  match fb with FBPretrained _ _ _ seg | FBSubwords _ _ seg => Some seg | _ => None end.
Definition wrap_of (fb : feature_builder) : builder feature_builder :=
  match fb with
  | FBLength _ => wrap_sentence_level fb
  | FBApplicable _ _ => wrap_words false fb
  | _ => wrap_words true fb
  end.
(* what is known about the array of a feature, given the shapes of its builder *)
Definition array_ok (fb : feature_builder) (sh : dict shape) (ss : list (list dtoken)) (m : Z) (y : nested) : Prop :=
  match fb with
  | FBLength _ => y = NList (map (fun s => NInt (zlen s)) ss)
  | FBWords _ init _ _ => shaped [zlen ss; m] y /\ exists rows c, sh = [(init, ShList [Some rows; c])] /\ within rows y
  | FBTrained name _ _ => shaped [zlen ss; m] y /\ exists rows, sh = [(name, ShList [Some rows])] /\ within rows y
  | FBPretrained _ init _ _ => (exists w, shaped [zlen ss; m; w] y) /\ exists rows c, sh = [(init, ShList [Some rows; c])] /\ within rows y
  | FBSubwords name _ _ => (exists w, shaped [zlen ss; m; w] y) /\ exists rows, sh = [(name, ShList [Some rows])] /\ within rows y
  | FBApplicable name _ => exists n, sh = [(name, ShList [Some n])] /\ shaped [zlen ss; m; n] y /\ within 2 y
  end.

Section Features.
Variables (V : Type) (to_float : str -> result V) (zero : V) (lower : str -> str) (ds : list document)
  (sparsify : obj -> str -> Q -> nested -> nested) (Dr : draws_numbers sparsify).
Notation basic := (feature_values V to_float zero lower ds).
Notation features := (features feature_builder obj elements basic sparsify).
Notation shapes_of := (feature_shapes V to_float zero lower ds).

Lemma emb_ids first lines w2i height size rows : 2 <= first -> build_embeddings V to_float zero first lines = Ok (w2i, (height, size), rows) ->
  first <= height /\ forall s, 0 <= sym_get w2i s < height.
Proof.
  intros Hf E. destruct (embeddings_spec V to_float zero first lines w2i height size rows Hf E) as (_ & R & _).
  assert (H : first <= height).
  { unfold build_embeddings in E. apply bind_ok_iff in E. destruct E as (r & _ & E). injection E as <- <- _ _. pose proof (zlen_nonneg (number_from first (dict_keys (fst r)))). lia. }
  split; auto. intros s. unfold sym_get, OOV. destruct (dict_get w2i s) as [i|] eqn:Ei; [specialize (R _ _ Ei); lia|lia].
Qed.

Lemma subwords_ids segment v text ids n : 4 <= n -> (forall s, 0 <= sym_get v s < n) -> subword_ids segment v text = Ok ids ->
  Forall (fun i => 0 <= i < n) ids.
Proof.
  unfold subword_ids. intros Hn Hs E. apply bind_ok_iff in E. destruct E as (syms & _ & E). injection E as <-.
  unfold START, END. constructor; [lia|]. apply Forall_app. split; [apply Forall_map, Forall_forall; auto|]. constructor; [lia|constructor].
Qed.

Lemma subword_ids_ok segment v text syms : segment text = Ok syms -> exists ids, subword_ids segment v text = Ok ids.
Proof. unfold subword_ids. intros ->. cbn [bind]. eauto. Qed.

(* one number for every word, sparsified *)
Lemma number_feature fb rate ss m n : ss <> [] -> (forall s, In s ss -> s <> []) -> max_length ss m -> 2 <= n ->
  (forall x, exists z, basic fb (OTok x) = Ok [(fb_name fb, NInt z)] /\ 0 <= z < n) ->
  exists y, features (wrap_words true fb) rate (batch ss) = Ok [(fb_name fb, y)] /\ shaped [zlen ss; m] y /\ within n y.
Proof.
  intros Ne Nes Hm Hn H.
  destruct (tokens_features _ basic sparsify (BSparse _ (BBasic _ fb)) (fb_name fb) rate (fun v => exists z, v = NInt z /\ 0 <= z < n) ss Ne Nes)
    as (vss & E & L & F).
  { intros s x _ _. destruct (H x) as (z & Ez & Hz). cbn [Model_Builder.features]. rewrite Ez. cbn [bind map fst snd].
    eexists. split; [reflexivity|]. destruct (Dr (OTok x) (fb_name fb) rate (NInt z)) as (draws & rest & Es).
    apply sparse_int in Es. destruct Es as [->| ->]; eexists; (split; [reflexivity|lia]). }
  destruct (numbers_array ss vss m n Ne Nes L Hm ltac:(lia) F) as (y & Ey & Sh & Wi). exists y. split; auto.
  unfold wrap_words. change (features (BPad _ ?b) rate (batch ss)) with (do d <- features b rate (batch ss); pad_values d).
  rewrite E. cbn [bind]. unfold pad_values. cbn [mapM snd fst]. rewrite Ey. reflexivity.
Qed.

(* a list of numbers for every word *)
Lemma list_feature (sp : bool) fb rate ss m n (Wd : nat -> Prop) : ss <> [] -> (forall s, In s ss -> s <> []) -> max_length ss m -> 2 <= n ->
  (forall s x, In s ss -> In x s -> exists ids, basic fb (OTok x) = Ok [(fb_name fb, NList (map NInt ids))] /\ Forall (fun i => 0 <= i < n) ids /\ Wd (length ids)) ->
  exists y w, features (wrap_words sp fb) rate (batch ss) = Ok [(fb_name fb, y)] /\ shaped [zlen ss; m; Z.of_nat w] y /\ Wd w /\ within n y.
Proof.
  intros Ne Nes Hm Hn H.
  destruct (tokens_features _ basic sparsify (if sp then BSparse _ (BBasic _ fb) else BBasic _ fb) (fb_name fb) rate
     (fun v => exists ids, v = NList (map NInt ids) /\ Wd (length ids) /\ forall i z, nth_error ids i = Some z -> 0 <= z < n) ss Ne Nes)
    as (vss & E & L & F).
  { intros s x Hs Hx. destruct (H s x Hs Hx) as (ids & Ez & Hz & Hw). destruct sp; cbn [Model_Builder.features]; rewrite Ez; cbn [bind map fst snd]; (eexists; split; [reflexivity|]).
    - destruct (Dr (OTok x) (fb_name fb) rate (NList (map NInt ids))) as (draws & rest & Es).
      apply sparse_ints in Es. destruct Es as (ids' & -> & F'). exists ids'. split; auto. split; [rewrite <- (Forall2_length' _ _ _ F'); auto|].
      intros i z Hi. destruct (Forall2_nth_r _ _ _ _ _ F' Hi) as (z0 & H0 & [->| ->]); [|lia]. apply nth_error_In in H0. rewrite Forall_forall in Hz. auto.
    - exists ids. split; auto. split; auto. intros i z Hi. apply nth_error_In in Hi. rewrite Forall_forall in Hz. auto. }
  destruct (lists_array ss vss m Wd (fun _ z => 0 <= z < n) Ne Nes L Hm) as (y & w & Ey & Sh & Hw & Hp); [intros; lia|exact F|].
  exists y, w. split; [|split; [|split]]; auto.
  - unfold wrap_words. change (features (BPad _ ?b) rate (batch ss)) with (do d <- features b rate (batch ss); pad_values d).
    rewrite E. cbn [bind]. unfold pad_values. cbn [mapM snd fst]. rewrite Ey. reflexivity.
  - intros p z A. destruct (Hp p z A) as (_ & _ & _ & _ & Hz). exact Hz.
Qed.

Lemma feature_array fb sh rate ss m : ss <> [] -> (forall s, In s ss -> s <> []) -> max_length ss m ->
  (forall seg s x, fb_segment fb = Some seg -> In s ss -> In x s -> exists syms, seg (dt_text x) = Ok syms) ->
  shapes_of fb = Ok sh ->
  exists y, features (wrap_of fb) rate (batch ss) = Ok [(fb_name fb, y)] /\ array_ok fb sh ss m y.
Proof.
  intros Ne Nes Hm Hs E. destruct fb as [name|name init lines lc|name th lc|name init lines seg|name th seg|name th]; cbn [wrap_of fb_name array_ok feature_shapes] in *.
  - injection E as <-. exists (NList (map (fun s => NInt (zlen s)) ss)). split; auto. unfold wrap_sentence_level, batch.
    cbn [Model_Builder.features elements bind]. rewrite mapM_map.
    replace (mapM _ ss) with (Ok (map (fun s => [(name, NInt (zlen s))]) ss)).
    + cbn [bind]. rewrite <- (map_map (fun s => NInt (zlen s)) (fun v => [(name, v)]) ss). rewrite collect_single by (destruct ss; [congruence|discriminate]).
      cbn [map fst snd]. unfold pad_values. cbn [mapM fst snd pad_value]. unfold pad.
      assert (P : forall fuel l, pad_seq fuel (map (fun s : list dtoken => NInt (zlen s)) l) = Ok (NInt PADDING, map (fun s => NInt (zlen s)) l)).
      { intros fuel l. assert (G : forallb (fun x => negb (is_list x)) (map (fun s : list dtoken => NInt (zlen s)) l) = true) by (induction l; auto).
        destruct fuel; cbn [pad_seq]; rewrite G; reflexivity. }
      rewrite P. reflexivity.
    + symmetry. rewrite <- mapM_total. apply mapM_ext. intros s _. cbn [feature_values]. rewrite zlen_map. reflexivity.
  - apply bind_ok_iff in E. destruct E as ([[w2i [height size]] rows] & E & H). injection H as <-. cbn [fst snd].
    destruct (emb_ids 2 lines _ _ _ _ ltac:(lia) E) as [Hh Hi].
    destruct (number_feature (FBWords name init lines lc) rate ss m height Ne Nes Hm Hh) as (y & Ey & Sh & Wi).
    { intros x. eexists. cbn [feature_values fb_name]. rewrite E. cbn [bind fst]. split; [reflexivity|]. unfold word_id. apply Hi. }
    exists y. split; auto. split; auto. exists height, size. auto.
  - injection E as <-. pose proof (zlen_nonneg (build_trainable th ds)).
    destruct (number_feature (FBTrained name th lc) rate ss m (zlen (build_trainable th ds) + 2) Ne Nes Hm ltac:(lia)) as (y & Ey & Sh & Wi).
    { intros x. eexists. cbn [feature_values fb_name]. split; [reflexivity|]. apply trainable_spec. }
    exists y. split; auto. split; auto. eexists. split; [reflexivity|auto].
  - apply bind_ok_iff in E. destruct E as ([[w2i [height size]] rows] & E & H). injection H as <-. cbn [fst snd].
    destruct (emb_ids 4 lines _ _ _ _ ltac:(lia) E) as [Hh Hi].
    destruct (list_feature true (FBPretrained name init lines seg) rate ss m height (fun _ => True) Ne Nes Hm ltac:(lia)) as (y & w & Ey & Sh & _ & Wi).
    { intros s x Is Ix. destruct (Hs seg s x eq_refl Is Ix) as (syms & Es). destruct (subword_ids_ok seg w2i _ _ Es) as (ids & Ei). exists ids.
      cbn [feature_values fb_name]. rewrite E. cbn [bind fst]. rewrite Ei. cbn [bind]. split; [reflexivity|]. split; auto. eapply subwords_ids; eauto. }
    exists y. split; auto. split; [eauto|]. exists height, size. auto.
  - apply bind_ok_iff in E. destruct E as (v & E & H). injection H as <-. pose proof (zlen_nonneg v).
    assert (Hi : forall s, 0 <= sym_get v s < zlen v + 4).
    { unfold build_subwords in E. apply bind_ok_iff in E. destruct E as (segs & _ & E). injection E as <-. intros s.
      apply (sym_get_spec 4); [apply vocab_numbered|lia]. }
    destruct (list_feature true (FBSubwords name th seg) rate ss m (zlen v + 4) (fun _ => True) Ne Nes Hm ltac:(lia)) as (y & w & Ey & Sh & _ & Wi).
    { intros s x Is Ix. destruct (Hs seg s x eq_refl Is Ix) as (syms & Es). destruct (subword_ids_ok seg v _ _ Es) as (ids & Ei). exists ids.
      cbn [feature_values fb_name]. rewrite E. cbn [bind]. rewrite Ei. cbn [bind]. split; [reflexivity|]. split; auto. apply (subwords_ids seg v (dt_text x)); auto; lia. }
    exists y. split; auto. split; [eauto|]. eexists. split; [reflexivity|auto].
  - apply bind_ok_iff in E. destruct E as (rules & E & H). injection H as <-.
    destruct (list_feature false (FBApplicable name th) rate ss m 2 (fun n => Z.of_nat n = zlen (snd rules)) Ne Nes Hm ltac:(lia)) as (y & w & Ey & Sh & Hw & Wi).
    { intros s x Is Ix. destruct (mask_meaning lower th ds rules x E) as (mk & Em & Lm & _). cbn [feature_values fb_name]. rewrite E. cbn [bind]. rewrite Em. cbn [bind].
      exists (map (fun b : bool => if b then 1 else 0) mk). unfold mask_value. rewrite map_map. split; [reflexivity|]. split.
      - apply Forall_map, Forall_forall. intros [|] _; lia.
      - rewrite map_length. unfold zlen. congruence. }
    exists y. split; auto. exists (zlen (snd rules)). split; auto. rewrite <- Hw. auto.
Qed.
End Features.
