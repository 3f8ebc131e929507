(* Configurations: which configurations are set up, the shared part. *)
From Coq Require Import String Ascii ZArith NArith QArith Bool List Lia Permutation.
From Verif Require Import Base BaseFacts Proofs_Datamodel Model_Datamodel Spec_Datamodel Model_Vocab Model_Lemma Model_Features Model_Builder Spec_Builder
  Proofs_Features Proofs_Builder3 Model_Neural Spec_Neural Model_Network Spec_Network Proofs_Network2 Proofs_Network3 Proofs_Processors Model_Config Spec_Config
  Proofs_Config3 Proofs_Config4 Proofs_Config5 Proofs_Config6 Proofs_Config9 Proofs_Config12.
Import ListNotations.
Open Scope Z_scope.

(* ---- results ---- *)
Definition runs {A} (r : result A) : Prop := exists a, r = Ok a.
Lemma runs_ok {A} (a : A) : runs (Ok a). Proof. eexists; reflexivity. Qed.
Lemma runs_bind {A B} (r : result A) (f : A -> result B) : runs (bind r f) <-> exists a, r = Ok a /\ runs (f a).
Proof.
  split.
  - intros (b & H). apply bind_ok_iff in H. destruct H as (a & E & H). exists a. split; [exact E|exists b; exact H].
  - intros (a & E & b & H). exists b. apply bind_ok_iff. eauto.
Qed.
Lemma runs_raise b e : runs (raise_if b e) <-> b = false.
Proof. destruct b; cbn; split; try discriminate; [intros (a & H); discriminate|auto|intros; eexists; reflexivity]. Qed.
Lemma raise_ok b e (u : unit) : raise_if b e = Ok u <-> b = false.
Proof. destruct u, b; cbn; split; try discriminate; auto. Qed.
Lemma runs_option {A} e (o : option A) : runs (of_option e o) <-> o <> None.
Proof. destruct o; cbn; split; try congruence; [intros; eexists; reflexivity|intros (a & H); discriminate]. Qed.
Lemma foldM_runs {A B} (P : A -> Prop) (Q : B -> Prop) (f : A -> B -> result A) l :
  (forall s x, In x l -> P s -> (runs (f s x) <-> Q x)) -> (forall s x s', In x l -> P s -> f s x = Ok s' -> P s') ->
  forall s, P s -> (runs (foldM f s l) <-> forall x, In x l -> Q x).
Proof.
  induction l as [|x l IH]; intros H1 H2 s Ps; cbn [foldM].
  - split; [intros _ x []|intros _; apply runs_ok].
  - rewrite runs_bind. split.
    + intros (s' & E & R) y [<-|J]; [apply (H1 s); [left; auto|auto|eexists; exact E]|].
      revert y J. apply (IH (fun s x J => H1 s x (or_intror J)) (fun s x s' J => H2 s x s' (or_intror J)) s'); auto. eapply H2; eauto. left; auto.
    + intros H. destruct (proj2 (H1 s x (or_introl eq_refl) Ps) (H x (or_introl eq_refl))) as (s' & E). exists s'. split; auto.
      apply (IH (fun s x J => H1 s x (or_intror J)) (fun s x s' J => H2 s x s' (or_intror J)) s'); [eapply H2; eauto; left; auto|]. intros y J. apply H. right. exact J.
Qed.
Lemma given_In {A B} (o : option A) (f : A -> B) y : In y (given_part o f) <-> exists a, o = Some a /\ y = f a.
Proof. destruct o as [a|]; cbn [given_part In]; split; [intros [<-|[]]; eauto|intros (b & E & ->); injection E as <-; auto|intros []|intros (b & E & _); discriminate]. Qed.

Lemma dim_0 n l : dim (Some n :: l) 0 = Ok n.
Proof. reflexivity. Qed.
Lemma dim_1 a o : dim [a; o] 1 = of_option EType o.
Proof. destruct o; reflexivity. Qed.

Section Shared.
Variables (V : Type) (to_float : str -> result V) (zero : V) (lower : str -> str) (ds : list document).
Variables (fc : features_config) (tcs : list task_config) (shapes : dict shape).
Notation shapes_of := (feature_shapes V to_float zero lower).
Hypothesis Osh : dict_ok shapes.
Hypothesis Fsh : forall fb, In fb (all_features fc tcs) -> exists sh, shapes_of ds fb = Ok sh /\ incl sh shapes.

Lemma embedding_runs ids rows cols g : runs (embedding_layer ids rows cols g) <-> 0 < cols.
Proof.
  unfold embedding_layer. rewrite runs_bind. setoid_rewrite raise_ok. setoid_rewrite runs_bind. setoid_rewrite raise_ok. split.
  - intros (u & E1 & u' & E2 & _). apply Z.eqb_neq in E1. apply Z.ltb_ge in E2. lia.
  - intros H. exists tt. split; [apply Z.eqb_neq; lia|]. exists tt. split; [apply Z.ltb_ge; lia|apply runs_ok].
Qed.

Lemma shape_get (k : str) l : In (k, ShList l) shapes -> shape_list shapes k = Ok l.
Proof. intros H. unfold shape_list. rewrite (In_dict_get _ _ _ Osh H). reflexivity. Qed.

Variable inputs : dict tensor.
Hypothesis Inp : dict_keys inputs = map fb_name (shared_features fc).

Lemma input_get fb : In fb (shared_features fc) -> exists t, dict_get inputs (fb_name fb) = Some t.
Proof.
  intros J. destruct (dict_get inputs (fb_name fb)) as [t|] eqn:E; [eauto|]. apply dict_get_None in E. exfalso. apply E. rewrite Inp. apply in_map. exact J.
Qed.
Lemma in_shared fb : In fb (shared_features fc) -> In fb (all_features fc tcs).
Proof. intros J. unfold all_features. apply in_app_iff. auto. Qed.

Lemma words_runs lines lc g : fc_words fc = Some (lines, lc) -> (runs (words_step shapes inputs g) <-> vectors to_float zero 2 lines).
Proof.
  intros Ew. assert (J : In (FBWords n_words n_word_embeddings lines lc) (shared_features fc)).
  { unfold shared_features. rewrite Ew, !in_app_iff. right. left. left. reflexivity. }
  destruct (input_get _ J) as (t & Et). destruct (Fsh _ (in_shared _ J)) as (sh & Es & Inc). cbn [feature_shapes fb_name] in *.
  apply bind_ok_iff in Es. destruct Es as ([[w2i [n o]] rows] & Er & Es). cbn [fst snd] in Es. injection Es as <-.
  assert (Sl := shape_get _ _ (Inc _ (or_introl eq_refl))). unfold words_step. rewrite Et, Sl. cbn [of_option bind]. rewrite dim_0, dim_1. cbn [bind]. unfold vectors. split.
  - intros H. destruct o as [size|]; cbn [of_option bind] in H; [|destruct H as (? & H); discriminate]. apply runs_bind in H. destruct H as (ge & Ee & _).
    assert (0 < size) by (apply (embedding_runs t n size g); eexists; exact Ee). eauto 8.
  - intros (w & n' & size & rows' & E & Hs). rewrite Er in E. injection E as -> -> -> ->. cbn [of_option bind].
    destruct (proj2 (embedding_runs t n' size g) Hs) as (ge & ->). cbn [bind]. destruct (matrix_initializer _ _ _ _). apply runs_ok.
Qed.

Lemma trained_runs th lc size g : fc_trained fc = Some (th, lc, size) -> (runs (trained_step size shapes inputs g) <-> 0 < size).
Proof.
  intros Ew. assert (J : In (FBTrained n_trained_words th lc) (shared_features fc)).
  { unfold shared_features. rewrite Ew, !in_app_iff. right. right. left. left. reflexivity. }
  destruct (input_get _ J) as (t & Et). destruct (Fsh _ (in_shared _ J)) as (sh & Es & Inc). cbn [feature_shapes fb_name] in *. injection Es as <-.
  assert (Sl := shape_get _ _ (Inc _ (or_introl eq_refl))). unfold trained_step. rewrite Et, Sl. cbn [of_option bind]. rewrite dim_0. cbn [bind].
  rewrite runs_bind. split.
  - intros (ge & E & _). eapply embedding_runs. eexists; exact E.
  - intros Hs. destruct (proj2 (embedding_runs t (zlen (build_trainable th ds) + 2) size g) Hs) as (ge & E). exists ge. split; [exact E|apply runs_ok].
Qed.

Definition subwords_complete (c : subwords) : Prop :=
  match sw_source c with Learned _ => segments ds (sw_segment c) /\ 0 < sw_embed_size c | Pretrained lines => vectors to_float zero 4 lines end.

Lemma build_subwords_ok seg th : runs (build_subwords seg th ds) <-> segments ds seg.
Proof.
  unfold build_subwords, segments. rewrite runs_bind. split.
  - intros (l & E & _) x J. apply mapM_ok in E. destruct (In_nth_error _ _ J) as (i & Hi). destruct (Forall2_nth _ _ _ _ _ E Hi) as (y & _ & Hy). eauto.
  - intros H. assert (X : exists l, mapM (fun x => seg (dt_text x)) (dataset_tokens ds) = Ok l).
    { clear -H. induction (dataset_tokens ds) as [|x l IH]; [eexists; reflexivity|]. destruct (H x (or_introl eq_refl)) as (y & Ey).
      destruct IH as (l' & E); [intros z J; apply H; right; auto|]. cbn [mapM]. rewrite Ey. cbn [bind]. rewrite E. eexists; reflexivity. }
    destruct X as (l & E). exists l. split; [exact E|apply runs_ok].
Qed.

Lemma subwords_runs name c g : In (subwords_builder name c) (shared_features fc) -> (runs (subwords_step name c shapes inputs g) <-> subwords_complete c).
Proof.
  intros J. destruct (input_get _ J) as (t & Et). destruct (Fsh _ (in_shared _ J)) as (sh & Es & Inc). unfold subwords_builder, subwords_complete, subwords_step in *.
  destruct (sw_source c) as [th|lines]; cbn [feature_shapes fb_name] in *.
  - apply bind_ok_iff in Es. destruct Es as (v & Ev & Es). injection Es as <-. assert (Sl := shape_get _ _ (Inc _ (or_introl eq_refl))). rewrite Et, Sl. cbn [of_option bind]. rewrite dim_0. cbn [bind].
    rewrite runs_bind. split.
    + intros (ge & E & _). split; [apply (build_subwords_ok (sw_segment c) th); eexists; exact Ev|]. eapply embedding_runs. eexists; exact E.
    + intros [_ Hs]. destruct (proj2 (embedding_runs t (zlen v + 4) (sw_embed_size c) g) Hs) as (ge & E). exists ge. split; [exact E|apply runs_ok].
  - apply bind_ok_iff in Es. destruct Es as ([[w2i [n o]] rows] & Er & Es). cbn [fst snd] in Es. injection Es as <-.
    assert (Sl := shape_get _ _ (Inc _ (or_introl eq_refl))). rewrite Et, Sl. cbn [of_option bind]. rewrite dim_0, dim_1. cbn [bind]. unfold vectors. split.
    + intros H. destruct o as [size|]; cbn [of_option bind] in H; [|destruct H as (? & H); discriminate]. apply runs_bind in H. destruct H as (ge & Ee & _).
      assert (0 < size) by (apply (embedding_runs t n size g); eexists; exact Ee). eauto 8.
    + intros (w & n' & size & rows' & E & Hs). rewrite Er in E. injection E as -> -> -> ->. cbn [of_option bind].
      destruct (proj2 (embedding_runs t n' size g) Hs) as (ge & ->). cbn [bind]. destruct (matrix_initializer _ _ _ _). apply runs_ok.
Qed.

(* ---- all steps ---- *)
Definition step_names : list str :=
  given_part (fc_words fc) (fun _ => n_word_embedding) ++ given_part (fc_trained fc) (fun _ => n_trained_embedding)
  ++ given_part (fc_characters fc) (fun _ => n_characters) ++ given_part (fc_bpe fc) (fun _ => n_bpe) ++ given_part (fc_morfessor fc) (fun _ => n_morfessor).

Definition shared_all : Prop :=
  (forall lines lowercase, fc_words fc = Some (lines, lowercase) -> vectors to_float zero 2 lines) /\
  (forall threshold lowercase size, fc_trained fc = Some (threshold, lowercase, size) -> 0 < size) /\
  (forall c, fc_characters fc = Some c \/ fc_bpe fc = Some c \/ fc_morfessor fc = Some c -> subwords_complete c).

Lemma in_steps f : In f (shared_steps fc) ->
  (exists lines lc, fc_words fc = Some (lines, lc) /\ f = words_step) \/
  (exists th lc size, fc_trained fc = Some (th, lc, size) /\ f = trained_step size) \/
  exists name c, In (subwords_builder name c) (shared_features fc) /\ f = subwords_step name c /\ (fc_characters fc = Some c \/ fc_bpe fc = Some c \/ fc_morfessor fc = Some c).
Proof.
  unfold shared_steps. rewrite !in_app_iff, !given_In. unfold shared_features.
  intros [([lines lc] & E & ->)|[([[th lc] size] & E & ->)|[(c & E & ->)|[(c & E & ->)|(c & E & ->)]]]].
  - left. eauto.
  - right. left. exists th, lc, size. auto.
  - right. right. exists n_characters, c. rewrite !in_app_iff, !given_In. split; [|auto]. right. right. right. left. eauto.
  - right. right. exists n_bpe, c. rewrite !in_app_iff, !given_In. split; [|auto]. right. right. right. right. left. eauto.
  - right. right. exists n_morfessor, c. rewrite !in_app_iff, !given_In. split; [|auto]. right. right. right. right. right. eauto.
Qed.

Lemma steps_all g r is : runs (foldM (run_step shapes inputs) (g, r, is) (shared_steps fc)) <-> shared_all.
Proof.
  set (Q := fun f : step => exists g0, runs (f shapes inputs g0)).
  assert (Ind : forall f g1 g2, In f (shared_steps fc) -> runs (f shapes inputs g1) -> runs (f shapes inputs g2)).
  { intros f g1 g2 J. destruct (in_steps f J) as [(lines & lc & E & ->)|[(th & lc & size & E & ->)|(name & c & Jc & -> & E)]].
    - rewrite !(words_runs lines lc _ E). auto.
    - rewrite !(trained_runs th lc size _ E). auto.
    - rewrite !(subwords_runs name c _ Jc). auto. }
  rewrite (foldM_runs (fun _ => True) Q); auto.
  - split.
    + intros H. split; [|split].
      * intros lines lc E. destruct (H words_step) as (g0 & R); [unfold shared_steps; rewrite E, !in_app_iff; left; left; reflexivity|]. apply (words_runs lines lc g0 E). exact R.
      * intros th lc size E. destruct (H (trained_step size)) as (g0 & R); [unfold shared_steps; rewrite E, !in_app_iff; right; left; left; reflexivity|]. apply (trained_runs th lc size g0 E). exact R.
      * intros c Ec.
        assert (X : exists name, In (subwords_step name c) (shared_steps fc) /\ In (subwords_builder name c) (shared_features fc)).
        { unfold shared_steps, shared_features. destruct Ec as [E|[E|E]]; [exists n_characters|exists n_bpe|exists n_morfessor]; rewrite !in_app_iff, !given_In; split.
          - right. right. left. eauto.
          - right. right. right. left. eauto.
          - right. right. right. left. eauto.
          - right. right. right. right. left. eauto.
          - right. right. right. right. eauto.
          - right. right. right. right. right. eauto. }
        destruct X as (name & J1 & J2). destruct (H _ J1) as (g0 & R). apply (subwords_runs name c g0 J2). exact R.
    + intros (H1 & H2 & H3) f J. exists g. destruct (in_steps f J) as [(lines & lc & E & ->)|[(th & lc & size & E & ->)|(name & c & Jc & -> & E)]].
      * apply (words_runs lines lc g E). eauto.
      * apply (trained_runs th lc size g E). eauto.
      * apply (subwords_runs name c g Jc). eauto.
  - intros [[g1 r1] i1] f J _. unfold run_step. rewrite runs_bind. unfold Q. split.
    + intros (a & E & _). exists g1. eexists; exact E.
    + intros (g0 & R). destruct (Ind f g0 g1 J R) as ([[g' nt] i'] & E). exists (g', nt, i'). split; [exact E|apply runs_ok].
Qed.

(* the names of the results *)
Definition yields (f : step) (name : str) : Prop := forall g g' nt i, f shapes inputs g = Ok (g', nt, i) -> fst nt = name.
Lemma words_yields : yields words_step n_word_embedding.
Proof.
  intros g g' nt i E. unfold words_step in E. apply bind_ok_iff in E. destruct E as (ids & _ & E). apply bind_ok_iff in E. destruct E as (sh & _ & E).
  apply bind_ok_iff in E. destruct E as (rows & _ & E). apply bind_ok_iff in E. destruct E as (cols & _ & E). apply bind_ok_iff in E. destruct E as (ge & _ & E).
  unfold matrix_initializer, layer, placeholder in E. injection E as _ <- _. reflexivity.
Qed.
Lemma trained_yields size : yields (trained_step size) n_trained_embedding.
Proof.
  intros g g' nt i E. unfold trained_step in E. apply bind_ok_iff in E. destruct E as (sh & _ & E). apply bind_ok_iff in E. destruct E as (rows & _ & E).
  apply bind_ok_iff in E. destruct E as (ids & _ & E). apply bind_ok_iff in E. destruct E as (ge & _ & E). injection E as _ <- _. reflexivity.
Qed.
Lemma subwords_yields name c : yields (subwords_step name c) name.
Proof.
  intros g g' nt i H. unfold subwords_step in H. apply bind_ok_iff in H. destruct H as (ids & _ & H). apply bind_ok_iff in H. destruct H as (sh & _ & H). apply bind_ok_iff in H. destruct H as (rows & _ & H).
  destruct (sw_source c).
  - apply bind_ok_iff in H. destruct H as (ge & _ & H). unfold layer, placeholder in H. injection H as _ <- _. reflexivity.
  - apply bind_ok_iff in H. destruct H as (cols & _ & H). apply bind_ok_iff in H. destruct H as (ge & _ & H). unfold matrix_initializer, layer, placeholder in H. injection H as _ <- _. reflexivity.
Qed.
Lemma steps_yield : Forall2 yields (shared_steps fc) step_names.
Proof.
  assert (G : forall A (o : option A) (f : A -> step) n, (forall a, yields (f a) n) -> Forall2 yields (given_part o f) (given_part o (fun _ => n))).
  { intros A o f n H. destruct o; cbn [given_part]; constructor; auto. }
  unfold shared_steps, step_names. repeat apply Forall2_app; apply G; intros; auto using words_yields, trained_yields, subwords_yields.
Qed.
End Shared.
