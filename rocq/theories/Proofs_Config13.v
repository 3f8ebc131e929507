(* Configurations: initialization of what is set up, and configurations that cannot be set up. *)
From Coq Require Import String Ascii ZArith NArith QArith Bool List Lia Permutation.
From Verif Require Import Base BaseFacts Proofs_Datamodel Model_Datamodel Spec_Datamodel Model_Vocab Model_Lemma Model_Features Spec_Features Model_Builder Spec_Builder
  Proofs_Features Proofs_Features5 Proofs_Features6 Proofs_Builder3 Proofs_Builder5 Model_Neural Spec_Neural Spec_Gold Proofs_Gold Proofs_Gold2 Model_Network Spec_Network Proofs_Network Proofs_Network2 Proofs_Network3
  Model_Config Spec_Config Proofs_Config Proofs_Config2 Proofs_Config3 Proofs_Config4 Proofs_Config5 Proofs_Config6 Proofs_Config7 Proofs_Config8 Proofs_Config9 Proofs_Config10 Proofs_Config11 Proofs_Config12.
Import ListNotations.
Open Scope Z_scope.

Definition fb_first (fb : feature_builder) : Z := match fb with FBWords _ _ _ _ => 2 | _ => 4 end.

Lemma configured_builder fc tcs p first lines : configured_file fc tcs p first lines ->
  exists fb, In fb (all_features fc tcs) /\ fb_file fb = Some (p, lines) /\ fb_first fb = first.
Proof.
  unfold all_features, shared_features.
  intros [(-> & -> & lc & Ew)|[(-> & -> & c & Ec & Es)|[(-> & -> & c & Ec & Es)|[(-> & -> & c & Ec & Es)|(tc & It & Ek & -> & -> & c & Ec & Es)]]]].
  - exists (FBWords n_words n_word_embeddings lines lc). split; [|auto]. rewrite Ew, !in_app_iff. left. right. left. left. reflexivity.
  - exists (subwords_builder n_characters c). split; [|unfold subwords_builder; rewrite Es; auto]. rewrite Ec, !in_app_iff. left. right. right. right. left. left. reflexivity.
  - exists (subwords_builder n_bpe c). split; [|unfold subwords_builder; rewrite Es; auto]. rewrite Ec, !in_app_iff. left. right. right. right. right. left. left. reflexivity.
  - exists (subwords_builder n_morfessor c). split; [|unfold subwords_builder; rewrite Es; auto]. rewrite Ec, !in_app_iff. left. right. right. right. right. right. left. reflexivity.
  - exists (subwords_builder n_input c). split; [|unfold subwords_builder; rewrite Es; auto]. apply in_app_iff. right. apply in_flat_map. exists tc. split; auto.
    unfold task_features. rewrite Ek, Ec. left. reflexivity.
Qed.
Lemma builder_configured fc tcs fb p lines : In fb (all_features fc tcs) -> fb_file fb = Some (p, lines) -> configured_file fc tcs p (fb_first fb) lines.
Proof.
  assert (Sub : forall name c, fb_file (subwords_builder name c) = Some (p, lines) -> subwords_file p (Some c) name (fb_first (subwords_builder name c)) lines).
  { intros name c H. unfold subwords_builder in *. destruct (sw_source c) eqn:Es; cbn in H; [discriminate|]. injection H as <- <-. repeat split; eauto. }
  intros H Ef. unfold all_features, shared_features in H. rewrite !in_app_iff in H. destruct H as [[[<-|[]]|[H|[H|[H|[H|H]]]]]|H]; [discriminate| | | | | |].
  - destruct (fc_words fc) as [[l lc]|] eqn:E; cbn in H; [destruct H as [<-|[]]|destruct H]. cbn in Ef. injection Ef as <- <-. left. rewrite E. eauto.
  - destruct (fc_trained fc); cbn in H; [destruct H as [<-|[]]|destruct H]. discriminate.
  - destruct (fc_characters fc) eqn:E; cbn in H; [destruct H as [<-|[]]|destruct H]. right. left. rewrite E. apply Sub. exact Ef.
  - destruct (fc_bpe fc) eqn:E; cbn in H; [destruct H as [<-|[]]|destruct H]. right. right. left. rewrite E. apply Sub. exact Ef.
  - destruct (fc_morfessor fc) eqn:E; cbn in H; [destruct H as [<-|[]]|destruct H]. right. right. right. left. rewrite E. apply Sub. exact Ef.
  - apply in_flat_map in H. destruct H as (tc & It & J). unfold task_features in J. destruct (tc_kind tc) eqn:Ek; try destruct J.
    + destruct (tc_rules tc); cbn in J; [destruct J as [<-|[]]|destruct J]. discriminate.
    + destruct (tc_input tc) as [c|] eqn:Ei; cbn in J; [destruct J as [<-|[]]|destruct J]. right. right. right. right. exists tc. rewrite Ei. split; auto.
    + destruct (tc_rules tc); cbn in J; [destruct J as [<-|[]]|destruct J]. discriminate.
Qed.

(* files of one name are of one builder *)
Definition name_of_file (p : str) : str := if str_eqb p n_word_embeddings then n_words else p.
Lemma file_name fc tcs fb p lines : In fb (all_features fc tcs) -> fb_file fb = Some (p, lines) -> fb_name fb = name_of_file p.
Proof.
  intros I E. apply all_known in I. destruct fb; cbn [fb_file fb_known fb_name] in *; try discriminate; injection E as <- <-.
  - destruct I as [-> ->]. reflexivity.
  - destruct I as [-> I]. cbn [In] in I. destruct I as [<-|[<-|[<-|[<-|[]]]]]; reflexivity.
Qed.

Lemma written_ups (l : list (initializer tensor nat)) : map t_id (written (fun t : tensor => t) l) = ups l.
Proof. induction l as [|[op|p ix vs up] l IH]; [reflexivity|exact IH|]. cbn [written ups flat_map app map]. f_equal. exact IH. Qed.
Lemma ups_unique l p ix vs up p' ix' vs' up' : NoDup (ups l) -> In (IMatrix p ix vs up) l -> In (IMatrix p' ix' vs' up') l -> up = up' -> p = p'.
Proof.
  intros N J J' <-. assert (G : forall l q jx ws, In (IMatrix q jx ws up) l -> In (t_id up) (ups l)).
  { clear. intros l q jx ws J. unfold ups. apply in_flat_map. eexists. split; [exact J|]. left. reflexivity. }
  induction l as [|i l IH]; [destruct J|]. assert (N' : NoDup (ups l)) by (destruct i; [exact N|]; cbn [ups flat_map app] in N; inversion N; auto).
  destruct J as [J|J], J' as [J'|J']; auto.
  - rewrite J in J'. injection J' as <- _ _. reflexivity.
  - subst i. cbn [ups flat_map app] in N. inversion N as [|? ? N1 _]; subst. exfalso. apply N1. exact (G _ _ _ _ J').
  - subst i. cbn [ups flat_map app] in N. inversion N as [|? ? N1 _]; subst. exfalso. apply N1. exact (G _ _ _ _ J).
Qed.

Section SetUp.
Variables (V : Type) (to_float : str -> result V) (zero : V) (lower : str -> str) (stack_dict : result unit).
Notation train_set_up := (train_set_up V to_float zero lower stack_dict).
Notation build_file := (build_embeddings V to_float zero).
Notation inits_of := (feature_initials V to_float zero).

Lemma initials_ok fb d : inits_of fb = Ok d -> dict_ok d.
Proof.
  destruct fb; cbn [feature_initials]; intros H; try (injection H as <-; constructor).
  - apply bind_ok_iff in H. destruct H as (r & _ & H). apply bind_ok_iff in H. destruct H as (rows & _ & H). apply bind_ok_iff in H. destruct H as (l & _ & H). injection H as <-. apply dict_one.
  - apply bind_ok_iff in H. destruct H as (r & _ & H). apply bind_ok_iff in H. destruct H as (rows & _ & H). apply bind_ok_iff in H. destruct H as (l & _ & H). injection H as <-. apply dict_one.
Qed.

Variables (known : bool) (k : shared_kind) (fc : features_config) (tcs : list task_config) (ds : list document) (su : set_up).
Hypothesis Eset : train_set_up known k fc tcs ds = Ok su.
Hypothesis Fit : fitting_files to_float zero tcs.
Notation net := (su_network su).

Definition file_there (p : str) (up : tensor) (first : Z) (lines : list str) : Prop :=
  exists w2i h n rows, build_file first lines = Ok (w2i, (h, Some n), rows) /\ 0 < n /\ In (up, (h, n)) (g_updates (su_graph su)).

(* what an initializer writes *)
Lemma matrix_file p ix vs up : In (IMatrix p ix vs up) (n_initializers net) ->
  exists fb lines w2i h n rows, In fb (all_features fc tcs) /\ fb_file fb = Some (p, lines) /\
    build_file (fb_first fb) lines = Ok (w2i, (h, Some n), rows) /\ 0 < n /\ In (up, (h, n)) (g_updates (su_graph su)) /\ t_dims ix = [None] /\ t_dims vs = [None; Some n].
Proof.
  pose proof (set_up_facts _ _ _ _ _ _ _ _ _ _ _ Eset) as F. intros J. destruct (f_net _ _ _ _ _ _ _ _ _ _ _ F) as (op & inits & Ei & I). rewrite Ei in J.
  destruct J as [J|J]; [discriminate J|]. destruct (i_init _ _ _ _ _ _ _ I _ _ _ _ J) as (R & C & Ju & D1 & D2 & fb & lines & sh & If & Ef & Es & E0 & Pc & HC).
  destruct (f_fsh _ _ _ _ _ _ _ _ _ _ _ F fb If) as (shf & Eshf & Inc). pose proof (f_shapes _ _ _ _ _ _ _ _ _ _ _ F) as Osh.
  assert (X : exists w2i h size rows, build_file (fb_first fb) lines = Ok (w2i, (h, size), rows) /\ shf = [(p, ShList [Some h; size])]).
  { destruct fb; cbn [fb_file fb_first feature_shapes] in *; try discriminate; injection Ef as <- <-; apply bind_ok_iff in Eshf; destruct Eshf as ([[w2i [h size]] rows] & Eb & Eshf);
      injection Eshf as <-; eauto 10. }
  destruct X as (w2i & h & size & rows & Eb & ->). rewrite (shape_list_In _ _ [Some h; size]) in Es by (auto; apply Inc; left; auto). injection Es as <-.
  change (dim [Some h; size] 0) with (Ok h : result Z) in E0. injection E0 as ->. change (dim [Some R; size] 1) with (of_option EType size) in HC.
  assert (Esz : size = Some C).
  { destruct HC as [H|(-> & tc & c & It & Ek & Ec & Es & ->)]; [destruct size; cbn in H; congruence|].
    destruct (Fit tc c lines It Ek Ec Es) as (w' & n' & r' & E'). assert (fb_first fb = 4) as E4.
    { apply all_known in If. destruct fb; cbn [fb_file fb_known fb_first] in *; auto. destruct If as [_ H]. injection Ef as -> _. discriminate H. }
    rewrite E4, E' in Eb. injection Eb as _ _ <- _. reflexivity. }
  subst size. exists fb, lines, w2i, R, C, rows. auto 8.
Qed.

(* the file of a builder is written *)
Lemma builder_file fb p lines : In fb (all_features fc tcs) -> fb_file fb = Some (p, lines) ->
  exists ix vs up w2i h n rows, In (IMatrix p ix vs up) (n_initializers net) /\
    build_file (fb_first fb) lines = Ok (w2i, (h, Some n), rows) /\ 0 < n /\ In (up, (h, n)) (g_updates (su_graph su)) /\ t_dims ix = [None] /\ t_dims vs = [None; Some n].
Proof.
  pose proof (set_up_facts _ _ _ _ _ _ _ _ _ _ _ Eset) as F. intros If Ef.
  destruct (set_up_writes V to_float zero lower stack_dict _ _ _ _ _ _ _ _ _ Eset (builder_configured _ _ _ _ _ If Ef)) as (ix & vs & up & J).
  destruct (matrix_file _ _ _ _ J) as (fb' & lines' & w2i & h & n & rows & If' & Ef' & R).
  assert (fb' = fb). { apply (same_name fb_name _ _ _ (f_names _ _ _ _ _ _ _ _ _ _ _ F)); auto. rewrite (file_name _ _ _ _ _ If Ef), (file_name _ _ _ _ _ If' Ef'). reflexivity. }
  subst fb'. rewrite Ef in Ef'. injection Ef' as <-. exists ix, vs, up, w2i, h, n, rows. split; auto.
Qed.

Lemma first_two fb : 2 <= fb_first fb.
Proof. destruct fb; cbn; lia. Qed.

(* initial values of a builder *)
Lemma builder_values fb : In fb (all_features fc tcs) -> exists e, inits_of fb = Ok e /\
  match fb_file fb with
  | None => e = []
  | Some (p, lines) => exists ps, e = [(p, ps)] /\ forall w2i h n rows, build_file (fb_first fb) lines = Ok (w2i, (h, Some n), rows) -> (do r <- rows; numbered_rows V r) = Ok ps
  end.
Proof.
  intros If. destruct (fb_file fb) as [[p lines]|] eqn:Ef.
  - destruct (builder_file fb p lines If Ef) as (ix & vs & up & w2i & h & n & rows & _ & Eb & Pn & _).
    destruct (file_rows V to_float zero _ _ _ _ _ _ (first_two fb) Pn Eb) as (ps & Ep & _). exists [(p, ps)]. split.
    + apply bind_ok_iff in Ep. destruct Ep as (r & -> & Ep). destruct fb; cbn [fb_file fb_first feature_initials] in *; try discriminate; injection Ef as <- <-; rewrite Eb; cbn [bind snd]; rewrite Ep; reflexivity.
    + exists ps. split; auto. intros w' h' n' r' E'. rewrite Eb in E'. injection E' as <- <- <- <-. exact Ep.
  - exists []. split; auto. destruct fb; cbn in *; try discriminate; reflexivity.
Qed.

Lemma values : exists vals, set_up_values V to_float zero su = Ok vals /\ dict_ok vals /\
  (forall fb p lines, In fb (all_features fc tcs) -> fb_file fb = Some (p, lines) -> exists ps, dict_get vals p = Some ps /\
     forall w2i h n rows, build_file (fb_first fb) lines = Ok (w2i, (h, Some n), rows) -> (do r <- rows; numbered_rows V r) = Ok ps) /\
  (forall p ps, dict_get vals p = Some ps -> exists fb lines, In fb (all_features fc tcs) /\ fb_file fb = Some (p, lines)).
Proof.
  pose proof (set_up_facts _ _ _ _ _ _ _ _ _ _ _ Eset) as F. destruct (f_features _ _ _ _ _ _ _ _ _ _ _ F) as (bs & Nb & P & Em).
  assert (X : exists es, Forall2 (fun fb e => inits_of fb = Ok e /\
    match fb_file fb with None => e = [] | Some (p, lines) => exists ps, e = [(p, ps)] /\ forall w2i h n rows, build_file (fb_first fb) lines = Ok (w2i, (h, Some n), rows) -> (do r <- rows; numbered_rows V r) = Ok ps end) (all_features fc tcs) es).
  { assert (G : forall fb, In fb (all_features fc tcs) -> In fb (all_features fc tcs)) by auto. revert G. generalize (all_features fc tcs) at 1 3. intros l. induction l as [|fb l IH]; intros G; [exists []; constructor|].
    destruct (builder_values fb (G _ (or_introl eq_refl))) as (e & He). destruct IH as (es & Hes); [intros; apply G; right; auto|]. exists (e :: es). constructor; auto. }
  destruct X as (es & Fe).
  assert (Nk : NoDup (flat_map dict_keys es)).
  { apply (NoDup_map_inv name_of_file). pose proof (f_names _ _ _ _ _ _ _ _ _ _ _ F) as Nn. assert (Kn := fun fb p lines => file_name fc tcs fb p lines).
    revert Nn Kn Fe. generalize (all_features fc tcs). intros l Nn Kn Fe.
    assert (Y : forall q, In q (map name_of_file (flat_map dict_keys es)) -> In q (map fb_name l)).
    { clear Nn. induction Fe as [|fb e l es [_ He] _ IH]; [intros q []|]. cbn [flat_map]. intros q. rewrite map_app, in_app_iff. intros [J|J].
      - left. destruct (fb_file fb) as [[p lines]|] eqn:Ef; [|subst e; destruct J]. destruct He as (ps & -> & _). destruct J as [<-|[]]. eapply Kn; [left; reflexivity|exact Ef].
      - right. apply IH; auto. intros; eapply Kn; [right; eauto|eauto]. }
    clear Y. induction Fe as [|fb e l es [_ He] Fl IH]; [constructor|]. cbn [map] in Nn. inversion Nn as [|? ? N1 N2]; subst.
    cbn [flat_map]. rewrite map_app. apply NoDup_app_intro.
    - destruct (fb_file fb) as [[p lines]|] eqn:Ef; [|subst e; constructor]. destruct He as (ps & -> & _). repeat constructor. intros [].
    - apply IH; auto. intros; eapply Kn; [right; eauto|eauto].
    - intros q J1 J2. apply N1. destruct (fb_file fb) as [[p lines]|] eqn:Ef; [|subst e; destruct J1]. destruct He as (ps & -> & _). destruct J1 as [<-|[]].
      change (fst (p, ps)) with p in *. rewrite (Kn fb p lines (or_introl eq_refl) Ef). clear -J2 Fl Kn. induction Fl as [|fb' e' l' es' [_ He'] _ IH]; [destruct J2|].
      cbn [flat_map] in J2. rewrite map_app, in_app_iff in J2. destruct J2 as [J|J].
      + left. destruct (fb_file fb') as [[p' lines']|] eqn:Ef'; [|subst e'; destruct J]. destruct He' as (ps' & -> & _). destruct J as [<-|[]]. eapply Kn; [right; left; reflexivity|exact Ef'].
      + right. apply IH; auto. intros f' p' l'' [H|H] E; [eapply Kn; [left; exact H|exact E]|eapply Kn; [right; right; exact H|exact E]]. }
  destruct (parts_initial_total _ feature_class wrap_of _ inits_of bs (all_features fc tcs) (su_features su) es wrap_of_ok) as (d & Ed & Od & Pd); auto.
  - intros x. destruct x; reflexivity.
  - intros x e. apply initials_ok.
  - eapply Forall2_impl; [|exact Fe]. intros x e [H _]. exact H.
  - assert (Ev : set_up_values V to_float zero su = Ok d).
    { unfold set_up_values. rewrite Ed. cbn [bind]. rewrite merge_dicts_ok; cbn [concat]; rewrite ?app_nil_r; auto. repeat constructor; auto. }
    exists d. split; auto. split; auto. split.
    + intros fb p lines If Ef. destruct (In_nth_error _ _ If) as (i & Hi). destruct (Forall2_nth _ _ _ _ _ Fe Hi) as (e & He & _ & Hx). rewrite Ef in Hx. destruct Hx as (ps & -> & Hp). exists ps. split; auto.
      apply In_dict_get; auto. eapply Permutation_in; [symmetry; exact Pd|]. apply in_concat. exists [(p, ps)]. split; [eapply nth_error_In; eauto|left; reflexivity].
    + intros p ps Hg. apply dict_get_In in Hg. eapply Permutation_in in Hg; [|exact Pd]. apply in_concat in Hg. destruct Hg as (e & Ie & J). destruct (In_nth_error _ _ Ie) as (i & Hi).
      destruct (Forall2_nth_r _ _ _ _ _ Fe Hi) as (fb & Hf & _ & Hx). exists fb. destruct (fb_file fb) as [[p' lines]|] eqn:Ef; [|subst e; destruct J]. destruct Hx as (ps' & -> & _).
      destruct J as [J|[]]. injection J as -> _. exists lines. split; auto. eapply nth_error_In; eauto.
Qed.

Theorem initialized : exists vals, set_up_values V to_float zero su = Ok vals /\
  (forall p ix vs up, In (IMatrix p ix vs up) (n_initializers net) -> exists first lines R C rows, configured_file fc tcs p first lines /\
     In (up, (R, C)) (g_updates (su_graph su)) /\ t_dims ix = [None] /\ t_dims vs = [None; Some C] /\
     dict_get vals p = Some rows /\ rows <> [] /\ NoDup (map fst rows) /\ forall r vec, In (r, vec) rows -> 0 <= r < R /\ zlen vec = C) /\
  forall fresh st0, exists st, model_initialize tensor_eqb (fun t => t) fresh net vals st0 = Ok st /\
    forall p first lines, configured_file fc tcs p first lines -> exists ix vs up ids shape init, In (IMatrix p ix vs up) (n_initializers net) /\
      build_file first lines = Ok (ids, shape, init) /\
      (forall w vec, last_vector to_float lines w vec -> exists i, dict_get ids w = Some i /\ st up i = vec) /\
      (forall i, i <> 0 -> (forall w, dict_get ids w <> Some i) -> st up i = fresh up i).
Proof.
  destruct values as (vals & Ev & Ov & Hv & Hc). exists vals. split; auto.
  pose proof (set_up_facts _ _ _ _ _ _ _ _ _ _ _ Eset) as F. destruct (f_net _ _ _ _ _ _ _ _ _ _ _ F) as (op & inits & Ei & I).
  assert (Mat : forall p ix vs up, In (IMatrix p ix vs up) (n_initializers net) -> exists fb lines ids R C init rows, In fb (all_features fc tcs) /\ fb_file fb = Some (p, lines) /\
    build_file (fb_first fb) lines = Ok (ids, (R, Some C), init) /\ In (up, (R, C)) (g_updates (su_graph su)) /\ t_dims ix = [None] /\ t_dims vs = [None; Some C] /\
    dict_get vals p = Some rows /\ NoDup (map fst rows) /\ In (0, repeat zero (Z.to_nat C)) rows /\ (forall r v, In (r, v) rows -> 0 <= r < R /\ zlen v = C) /\
    (forall w vec, last_vector to_float lines w vec <-> exists i, dict_get ids w = Some i /\ In (i, vec) rows) /\
    (forall i vec, In (i, vec) rows -> i <> 0 -> exists w, dict_get ids w = Some i)).
  { intros p ix vs up J. destruct (matrix_file _ _ _ _ J) as (fb & lines & w2i & h & n & rows & If & Ef & Eb & Pn & Ju & D1 & D2).
    destruct (Hv fb p lines If Ef) as (ps & Gp & Hps). apply Hps in Eb as Ep.
    destruct (file_rows V to_float zero _ _ _ _ _ _ (first_two fb) Pn Eb) as (ps' & Ep' & A1 & A2 & A3 & A4 & A5). rewrite Ep in Ep'. injection Ep' as <-.
    exists fb, lines, w2i, h, n, rows, ps. do 11 (split; [assumption|]). assumption. }
  split.
  - intros p ix vs up J. destruct (Mat _ _ _ _ J) as (fb & lines & ids & R & C & init & rows & If & Ef & Eb & Ju & D1 & D2 & G & N & Z0 & W & _).
    exists (fb_first fb), lines, R, C, rows. split; [eapply builder_configured; eauto|]. do 4 (split; [assumption|]). split; [intros ->; destruct Z0|]. split; assumption.
  - intros fresh st0. destruct (init_calls_total vals (n_initializers net)) as (rs & Er).
    { intros p ix vs up J. destruct (Mat _ _ _ _ J) as (fb & lines & ids & R & C & init & rows & If & Ef & Eb & Ju & D1 & D2 & G & N & Z0 & _). exists rows. split; auto. intros ->; destruct Z0. }
    assert (Es : exists st, model_initialize tensor_eqb (fun t : tensor => t) fresh net vals st0 = Ok st) by (unfold model_initialize; rewrite Er; eauto).
    destruct Es as (st & Es). exists st. split; auto.
    destruct (initialize_store tensor_eqb tensor_eqb_ok (fun t : tensor => t) fresh net op inits vals st0 st) as (S1 & S2 & S3); auto.
    + apply (i_only _ _ _ _ _ _ _ I).
    + destruct (i_ups _ _ _ _ _ _ _ I) as [N _]. apply (NoDup_map_inv t_id). rewrite written_ups. exact N.
    + intros p ps G. destruct (Hc p ps G) as (fb & lines & If & Ef). destruct (builder_file fb p lines If Ef) as (ix & vs & up & w2i & h & n & rows & J & _).
      destruct (Mat _ _ _ _ J) as (fb' & lines' & ids & R & C & init & rows' & _ & _ & _ & _ & _ & _ & G' & N & _). rewrite G in G'. injection G' as <-. exact N.
    + intros p first lines Cf. destruct (configured_builder _ _ _ _ _ Cf) as (fb & If & Ef & <-). destruct (builder_file fb p lines If Ef) as (ix & vs & up & w2i & h & n & rows & J & Eb & _).
      destruct (Mat _ _ _ _ J) as (fb' & lines' & ids & R & C & init & rows' & If' & Ef' & Eb' & _ & _ & _ & G' & N & _ & W & L & K).
      assert (fb' = fb). { apply (same_name fb_name _ _ _ (f_names _ _ _ _ _ _ _ _ _ _ _ F)); auto. rewrite (file_name _ _ _ _ _ If Ef), (file_name _ _ _ _ _ If' Ef'). reflexivity. }
      subst fb'. rewrite Ef in Ef'. injection Ef' as <-. exists ix, vs, up, ids, (R, Some C), init. split; auto. split; auto.
      assert (J' : In (IMatrix p ix vs up) inits) by (rewrite Ei in J; destruct J as [J|J]; [discriminate J|exact J]).
      split.
      * intros w vec Lv. apply L in Lv. destruct Lv as (i & Hi & Hr). exists i. split; auto. eapply S1; eauto.
      * intros i Hi Hn. apply S2. intros p' ix' vs' up' ps' v J2 Eu G2 Hin.
        assert (p' = p). { destruct (i_ups _ _ _ _ _ _ _ I) as [Nu _]. eapply ups_unique; eauto. }
        subst p'. rewrite G' in G2. injection G2 as <-. destruct (K i v Hin Hi) as (w & Hw). exact (Hn w Hw).
Qed.
End SetUp.
