(* Models that are not deleted are there after the experiment *)
From Coq Require Import String Ascii ZArith NArith QArith Bool Lia List.
From Verif Require Import Base BaseFacts Proofs_Datamodel Proofs_Builder3 Model_UDEval Model_Harness Spec_Harness Proofs_Harness
  Model_Experiment Spec_Experiment Proofs_Experiment Proofs_Experiment2 Proofs_Experiment3 Proofs_Experiment4.
Import ListNotations.
Open Scope Z_scope.

Section Stay.
Context {M P : Type}.
Variables (c : settings M) (nt : training M) (dirs : files M -> str -> list str).
Hypothesis Keep : delete_after c = false.

Definition grows (a b : files M) : Prop := forall p, dict_get a p <> None -> dict_get b p <> None.
Lemma grows_set (a : files M) q v : grows a (dict_set a q v).
Proof. intros p HN. destruct (list_eq_dec N.eq_dec q p) as [->|NE]; [rewrite dict_get_set_same; discriminate|rewrite dict_get_set_other; auto]. Qed.
Lemma grows_refl fs : grows fs fs.
Proof. intros p; auto. Qed.
Lemma grows_trans a b d : grows a b -> grows b d -> grows a d.
Proof. intros A B p H. auto. Qed.
Lemma grows_save (fs : files M) k z e m : grows fs (dict_set fs (model_file c k z e) (Saved m)).
Proof. apply grows_set. Qed.
Lemma grows_write (fs : files M) (t : tester M) name text : (t = dev_set c \/ test_set c = Some t) -> t_results t <> [] ->
  grows fs (dict_set fs (based (t_results t) name) (Written text)).
Proof. intros _ _. apply grows_set. Qed.
Lemma grows_dispose (fs : files M) d : delete_after c = true -> candidate_path d -> grows fs (rmtree (path_join (model_dir c) d) fs).
Proof. congruence. Qed.

Lemma choose_saves k j z n : forall seen s fs fs' s',
  choose c (train_next c nt k j (params_name (Z.of_nat k)) z) (adapt nt k j) (params_name (Z.of_nat k)) z n seen s fs = (fs', (s', None)) -> good_sel s ->
  forall e, (length seen <= e < length seen + n)%nat -> dict_get fs' (model_file c k z e) <> None.
Proof.
  induction n as [|n IH]; intros seen s fs fs' s' H G e L; [lia|]. cbn [choose] in H.
  destruct (train_next c nt k j (params_name (Z.of_nat k)) z seen fs) as [[fs1 tagger]|x] eqn:E; [|discriminate].
  destruct (test_tagger _ _ _ fs1) as [fs2 r] eqn:T. pose proof (R_dev c grows grows_refl grows_write _ _ _ _ _ _ _ T) as R2.
  destruct (do sc <- r; _) as [[sc s1]|x] eqn:B in H; [|discriminate].
  apply bind_ok_iff in B. destruct B as (sc1 & -> & B). apply bind_ok_iff in B. destruct B as ([] & _ & B).
  apply bind_ok_iff in B. destruct B as ([] & _ & B). apply bind_ok_iff in B. destruct B as (s2 & CO & B). injection B as -> ->.
  destruct (R_consider c grows grows_refl grows_trans grows_dispose _ _ _ _ _ fs2 CO G (epoch_candidate k z (length seen))) as [G1 R3].
  destruct (Nat.eq_dec e (length seen)) as [->|NE].
  - assert (R4 : grows (dispose c s s1 fs2) fs').
    { eapply (R_choose c grows grows_refl grows_trans grows_write grows_dispose); [|exact H|exact G1].
      intros seen0 fs0 fs3 p H0. unfold train_next in H0. apply bind_ok_iff in H0. destruct H0 as (m & _ & H0). injection H0 as <- _. apply grows_set. }
    apply R4, R3, R2. unfold train_next in E. apply bind_ok_iff in E. destruct E as (m & _ & E). injection E as <- _. rewrite save_file, dict_get_set_same. discriminate.
  - eapply IH; [exact H|exact G1|]. rewrite app_length. cbn [length]. lia.
Qed.

Lemma run_saves k j z fs fs' d o : evaluate_run c nt dirs Neural k j (params_name (Z.of_nat k)) z fs = (fs', (d, Ok o)) ->
  forall e, (e < epochs nt k)%nat -> dict_get fs' (model_file c k z e) <> None.
Proof.
  unfold evaluate_run. destruct (train_and_choose c nt dirs Neural k j (params_name (Z.of_nat k)) z fs) as [fs1 [s x]] eqn:T.
  intros H e L. injection H as <- _ H. apply bind_ok_iff in H. destruct H as (u & Hx & _). destruct x; [discriminate|].
  unfold train_and_choose in T. destruct (set_up nt k j); [|discriminate]. eapply choose_saves; [exact T|exact I|cbn; lia].
Qed.

Notation frame_run := (R_run c nt dirs grows grows_refl grows_trans grows_save grows_write grows_dispose).
Notation frame_runs := (R_runs c nt dirs grows grows_refl grows_trans grows_save grows_write grows_dispose).

Lemma runs_saves k zs : forall j fs fs' d xs, evaluate_runs c nt dirs Neural k j (params_name (Z.of_nat k)) zs fs = (fs', (d, Ok xs)) ->
  forall z e, In z zs -> (e < epochs nt k)%nat -> dict_get fs' (model_file c k z e) <> None.
Proof.
  induction zs as [|z0 zs IH]; cbn [evaluate_runs]; intros j fs fs' d xs H z e I L; [destruct I|].
  destruct (evaluate_run c nt dirs Neural k j _ z0 fs) as [fs1 [d1 r]] eqn:E. cbn [fst snd] in H. destruct r as [x|]; [|discriminate].
  destruct (evaluate_runs c nt dirs Neural k (S j) _ zs fs1) as [fs2 [d2 r2]] eqn:E2. injection H as -> _ H.
  cbn [fst snd] in H. apply bind_ok_iff in H. destruct H as (ys & -> & H). destruct I as [<-|I]; [|eapply IH; eauto].
  apply (frame_runs _ _ _ _ _ _ _ E2). eapply run_saves; eauto.
Qed.

Lemma params_saves k fs fs' d ms : evaluate_params c nt dirs Neural k (params_name (Z.of_nat k)) fs = (fs', (d, Ok ms)) ->
  forall z e, In z (runs_of (random_seed c)) -> (e < epochs nt k)%nat -> dict_get fs' (model_file c k z e) <> None.
Proof.
  unfold evaluate_params. destruct (random_seed c) as [z0|zs]; cbn [runs_of].
  - destruct (evaluate_run c nt dirs Neural k 0 _ z0 fs) as [fs1 [d1 r]] eqn:E. cbn [fst snd]. intros H z e [<-|[]] L. injection H as <- _ H.
    apply bind_ok_iff in H. destruct H as (x & -> & _). eapply run_saves; eauto.
  - destruct (evaluate_runs c nt dirs Neural k 0 _ zs fs) as [fs1 [d1 r]] eqn:E. cbn [fst snd]. intros H z e I L. injection H as <- _ H.
    apply bind_ok_iff in H. destruct H as (x & -> & _). eapply runs_saves; eauto.
Qed.

Notation frame_search := (R_search c nt dirs grows grows_refl grows_trans grows_save grows_write grows_dispose).

Lemma search_saves (hyper : list P) : forall k s fs fs' s', search_params c nt dirs Neural k hyper s fs = (fs', (s', None)) -> good_sel s -> named_sel s ->
  forall i z e, (i < length hyper)%nat -> In z (runs_of (random_seed c)) -> (e < epochs nt (k + i))%nat -> dict_get fs' (model_file c (k + i) z e) <> None.
Proof.
  induction hyper as [|p hyper IH]; cbn [search_params length]; intros k s fs fs' s' H G N i z e Li Iz Le; [lia|].
  destruct (evaluate_params c nt dirs Neural k _ fs) as [fs1 [d r]] eqn:E. cbn [fst snd] in H.
  destruct (R_params c nt dirs grows grows_refl grows_trans grows_save grows_write grows_dispose _ _ _ _ _ _ E) as [_ NM].
  destruct (do ms <- r; _) as [s2|x] eqn:B in H; [|discriminate].
  apply bind_ok_iff in B. destruct B as (ms & -> & CO). specialize (NM _ eq_refl).
  destruct (R_consider c grows grows_refl grows_trans grows_dispose _ _ _ _ _ fs1 CO G (params_candidate k)) as [G1 R2].
  assert (N2 : named_sel s2).
  { unfold consider in CO. apply bind_ok_iff in CO. destruct CO as (b & _ & CO). injection CO as <-. destruct b; [exact NM|exact N]. }
  destruct i as [|i].
  - rewrite Nat.add_0_r in *. destruct (frame_search _ _ _ _ _ _ _ _ H G1 N2) as [R3 _]. apply R3, R2. eapply params_saves; eauto.
  - replace (k + S i)%nat with (S k + i)%nat in * by lia. eapply IH; eauto. lia.
Qed.

Lemma main_saves (hyper : list P) fs fs' rep : main c nt dirs (of_string "neural") hyper fs = (fs', Ok rep) ->
  forall k z e, (k < length hyper)%nat -> In z (runs_of (random_seed c)) -> (e < epochs nt k)%nat -> dict_get fs' (model_file c k z e) <> None.
Proof.
  unfold main. rewrite Keep. cbn [andb]. change (get_trainer (of_string "neural")) with (@Ok method Neural). cbv iota.
  destruct (search_params c nt dirs Neural 0 hyper (mkSel None []) fs) as [fs1 [s e0]] eqn:S. cbn [fst snd].
  destruct e0 as [x|]; [discriminate|]. destruct (print_metrics (printed c) (best_scores s)); [|discriminate].
  destruct (frame_search _ _ _ _ _ _ _ _ S I I) as [_ N].
  assert (T : forall fs2 tested,
    match test_set c with
    | None => (fs1, Ok None)
    | Some tt_ => match sel_best s with
        | None => (fs1, Err EType)
        | Some b => let (fs2, r) := tagger_func c tt_ (snd (fst (fst b))) fs1 in
                    (fs2, do sc <- r; do _ <- print_metrics (printed c) (Some sc); Ok (Some sc))
        end
    end = (fs2, tested) -> grows fs1 fs2).
  { intros fs2 tested. case_eq (test_set c); [intros t0 TS|intros _ H; injection H as <- _; apply grows_refl].
    unfold named_sel in N. destruct (sel_best s) as [[[pm sc] pa]|]; [|intros H; injection H as <- _; apply grows_refl]. cbn [fst snd] in *.
    destruct (tagger_func c t0 (snd pm) fs1) as [fs3 r0] eqn:TF. intros H. injection H as <- _.
    refine (R_tagger_func c grows grows_refl grows_trans grows_write _ _ _ _ _ _ N TF). auto. }
  destruct (match test_set c with Some _ => _ | None => _ end) as [fs2 tested]. specialize (T _ _ eq_refl).
  intros H k z e Lk Iz Le. destruct tested; [|discriminate]. injection H as <- _. apply T. eapply (search_saves hyper 0); eauto; exact I.
Qed.
End Stay.
