(* Experiments that succeed *)
From Coq Require Import String Ascii ZArith NArith QArith Bool Lia Permutation List.
From Verif Require Import Base BaseFacts Proofs_Datamodel Proofs_Conllu3 Model_UDEval Model_Harness Spec_Harness Proofs_Builder3 Proofs_Harness
  Proofs_Harness2 Proofs_Harness3 Proofs_Harness4 Proofs_Harness5 Model_Experiment Spec_Experiment Proofs_Experiment Proofs_Experiment2
  Proofs_Experiment3 Proofs_Experiment4.
Import ListNotations.
Open Scope Z_scope.

Section Success.
Context {M P : Type}.
Variables (c : settings M) (nt : training M) (dirs : files M -> str -> list str).
Notation seeds := (runs_of (random_seed c)).

Lemma test_saved t path m text sc name (fs : files M) : dict_get fs path = Some (Saved m) -> scored t m text sc ->
  exists fs', test_tagger t (Some path) name fs = (fs', Ok sc).
Proof. intros E [TP TS]. unfold test_tagger, load. rewrite E. cbn [bind]. rewrite TP, TS. eexists. reflexivity. Qed.

Lemma choose_run k j z run : forall seen s s' fs, learnt c nt k j seen run ->
  epochs_loop (printed c) (fields c) (compared c) (epoch_path (params_name (Z.of_nat k)) z) (Z.of_nat (length seen))
              (yielded c k z (length seen) run) s = (s', None) ->
  exists fs', choose c (train_next c nt k j (params_name (Z.of_nat k)) z) (adapt nt k j) (params_name (Z.of_nat k)) z (length run) seen s fs = (fs', (s', None)).
Proof.
  induction run as [|x run IH]; cbn [length choose yielded epochs_loop]; intros seen s s' fs LE EL.
  - injection EL as <-. eauto.
  - destruct (LE 0%nat x eq_refl) as (LN & SC & AD). cbn [firstn map] in LN, AD. rewrite app_nil_r in LN.
    unfold train_next at 1. rewrite LN. cbn [bind]. rewrite save_file.
    destruct (test_saved (dev_set c) (model_file c k z (length seen)) (ep_model x) (ep_text x) (ep_scores x)
       (dev_name (seed_path (params_name (Z.of_nat k)) z) (Z.of_nat (length seen))) _ (dict_get_set_same fs _ (Saved (ep_model x))) SC) as (fs2 & ->).
    cbn [bind]. rewrite AD. cbn [bind].
    destruct (print_metrics (printed c) (Some (ep_scores x))) as [[]|e]; [|discriminate]. cbn [bind] in *.
    destruct (consider _ _ _ _ _ s) as [s1|e]; [|discriminate]. cbn [bind].
    apply IH.
    + intros e y E. specialize (LE (S e) y E). cbn [firstn map] in LE. rewrite <- !app_assoc. exact LE.
    + rewrite app_length. cbn [length]. rewrite Nat.add_1_r.
      replace (Z.of_nat (S (length seen))) with (Z.of_nat (length seen) + 1) by lia. exact EL.
Qed.

Definition good_run (k j : nat) (run : list (epoch M)) : Prop :=
  trained c nt k j run /\ run <> [] /\ Forall (fun x => comparable c (ep_scores x)) run.

Lemma trained_learnt k j run : trained c nt k j run -> learnt c nt k j [] run.
Proof. intros (_ & _ & H). exact H. Qed.

Lemma run_ok k j z run fs : good_run k j run -> exists fs' d tg p (x : epoch M),
  evaluate_run c nt dirs Neural k j (params_name (Z.of_nat k)) z fs = (fs', (d, Ok (tg, p, Some (ep_scores x)))) /\ comparable c (ep_scores x).
Proof.
  intros (T & NE & F).
  assert (FQ : exists qs, Forall2 (fun y q => printable (printed c) (fst y) /\ worth (fields c) (compared c) (fst y) q) (yielded c k z 0 run) qs).
  { clear T NE. generalize 0%nat as i. induction F as [|x run (PR & (q & W) & _) F IH]; intros i; cbn [yielded].
    - exists []. constructor.
    - destruct (IH (S i)) as (qs & FQ). exists (q :: qs). constructor; auto. }
  destruct FQ as (qs & FQ).
  assert (YN : yielded c k z 0 run <> []) by (destruct run; [congruence|discriminate]).
  destruct (seed_best (printed c) (fields c) (compared c) (params_name (Z.of_nat k)) z (yielded c k z 0 run) qs) as (i & sc & tagger & d & E & _ & EI & _); auto.
  { rewrite <- params_dir_name. apply plain_slashless, params_slashless. }
  rewrite yielded_nth in EI. destruct (nth_error run i) as [x|] eqn:Ex; [|discriminate]. cbn [option_map] in EI. injection EI as <- <-.
  unfold evaluate_seed in E. cbn [fst snd] in E.
  destruct (epochs_loop _ _ _ _ 0 (yielded c k z 0 run) (mkSel None [])) as [s e] eqn:EL. injection E as ED E. destruct e as [e|]; [discriminate|].
  destruct (choose_run k j z run [] (mkSel None []) s fs (trained_learnt _ _ _ T) EL) as (fs' & CH).
  pose proof T as (SU & LR & _). exists fs'. unfold evaluate_run, train_and_choose. rewrite SU, <- LR, CH.
  cbn [bind] in E. rewrite E. do 3 eexists. exists x. split; [reflexivity|]. rewrite Forall_forall in F. apply F. eapply nth_error_In; eauto.
Qed.

Lemma runs_ok k zs : forall j fs, (forall i, (i < length zs)%nat -> exists run, good_run k (j + i) run) -> exists fs' d xs scs,
  evaluate_runs c nt dirs Neural k j (params_name (Z.of_nat k)) zs fs = (fs', (d, Ok xs)) /\ map snd xs = map Some scs /\
  length xs = length zs /\ Forall (comparable c) scs.
Proof.
  induction zs as [|z zs IH]; cbn [evaluate_runs]; intros j fs H.
  - exists fs, [], [], []. auto.
  - destruct (H 0%nat) as (run & G); [cbn; lia|]. rewrite Nat.add_0_r in G.
    destruct (run_ok k j z run fs G) as (fs1 & d & tg & p & x & -> & CX). cbn [fst snd].
    destruct (IH (S j) fs1) as (fs2 & d2 & xs & scs & -> & EM & L & F).
    + intros i Li. replace (S j + i)%nat with (j + S i)%nat by lia. apply H. cbn. lia.
    + cbn [fst snd bind]. do 3 eexists. exists (ep_scores x :: scs). split; [reflexivity|]. cbn [map snd length]. rewrite EM, L. auto.
Qed.

Definition candidate_ok (k : nat) (fs : files M) : Prop :=
  exists fs' d ms sc, evaluate_params c nt dirs Neural k (params_name (Z.of_nat k)) fs = (fs', (d, Ok (ms, Some sc))) /\
    exists q, worth (fields c) (compared c) sc q.

(* averages can be compared *)
Lemma average_comparable zs scs : random_seed c = ManySeeds zs -> scs <> [] -> Forall (comparable c) scs ->
  exists avg, average_scores (printed c) (map Some scs) = Ok avg /\ printable (printed c) avg /\ exists q, worth (fields c) (compared c) avg q.
Proof.
  intros RS NE F. assert (G : forall t m, In t scs -> In m (printed c) -> exists s q, dict_get t m = Some s /\ s_aligned s = Some q).
  { intros t m It Im. rewrite Forall_forall in F. destruct (F t It) as (_ & _ & H). rewrite RS in H. apply H. auto. }
  assert (IN : incl (fields c) (printed c)).
  { destruct scs as [|t scs]; [congruence|]. rewrite Forall_forall in F. destruct (F t (or_introl eq_refl)) as (_ & _ & H). rewrite RS in H. apply H. }
  destruct (averages (printed c) scs NE G) as (out & E & K & _ & MT). exists out. split; auto. split.
  - unfold printable. apply Forall_forall. intros m Im. apply K. auto.
  - assert (V : exists vs, Forall2 (fun f v => exists s, dict_get out f = Some s /\ attribute (compared c) s v) (fields c) vs).
    { revert IN. induction (fields c) as [|f fs IH]; intros IN; [exists []; constructor|].
      destruct IH as (vs & FV); [intros x Ix; apply IN; right; auto|].
      destruct (MT f (IN f (or_introl eq_refl))) as (ss & s & _ & D & _ & _ & _ & ws & q & _ & A & _).
      destruct (compared c); eexists (_ :: vs); constructor; eauto; exists s; split; auto; constructor; eauto. }
    destruct V as (vs & FV). exists (sumq vs), vs. split; auto. reflexivity.
Qed.

Lemma params_ok k fs : seeds <> [] -> (forall j, (j < length seeds)%nat -> exists run, good_run k j run) -> candidate_ok k fs.
Proof.
  intros NS H. unfold candidate_ok, evaluate_params. destruct (random_seed c) as [z|zs] eqn:RS; cbn [runs_of] in *.
  - destruct (H 0%nat) as (run & G); [cbn; lia|].
    destruct (run_ok k 0 z run fs G) as (fs1 & d & tg & p & x & -> & CX). cbn [fst snd bind].
    do 4 eexists. split; [reflexivity|]. destruct CX as (_ & W & _). exact W.
  - destruct (runs_ok k zs 0 fs) as (fs1 & d & xs & scs & -> & EM & L & F); [exact H|]. cbn [fst snd bind]. rewrite EM.
    destruct (average_comparable zs scs RS) as (avg & -> & PR & W); auto.
    + intros ->. apply (f_equal (@length _)) in EM. rewrite !map_length, L in EM. destruct zs; [congruence|discriminate].
    + cbn [bind]. apply printable_ok in PR. rewrite PR. cbn [bind]. do 4 eexists. split; [reflexivity|]. exact W.
Qed.

Lemma search_ok (hyper : list P) : seeds <> [] -> forall k s fs items inner i qs,
  (forall i j, (i < length hyper)%nat -> (j < length seeds)%nat -> exists run, good_run (k + i) j run) ->
  inv items inner s i -> best_at (fields c) (compared c) items i -> worths (fields c) (compared c) items qs ->
  exists fs' s', search_params c nt dirs Neural k hyper s fs = (fs', (s', None)).
Proof.
  intros NS. induction hyper as [|p hyper IH]; cbn [search_params]; intros k s fs items inner i qs H IV BA WO; [eauto|].
  destruct (params_ok k fs NS) as (fs1 & d & ms & sc & -> & q & W).
  { intros j Lj. destruct (H 0%nat j) as (run & G); [cbn; lia|auto|]. rewrite Nat.add_0_r in G. eauto. }
  cbn [fst snd bind]. pose proof (inv_inner _ _ d _ _ IV) as IV0.
  destruct (consider_worth (fields c) (compared c) items _ _ i (params_name (Z.of_nat k)) (p, ms) sc q qs IV0 WO W) as (s1 & CO). rewrite CO.
  destruct (consider_inv _ _ _ _ _ _ _ _ _ _ IV0 BA CO) as (i1 & IV1 & BA1).
  apply (IH (S k) s1 _ _ _ i1 (qs ++ [q])) with (2 := IV1); auto.
  - intros i' j Li Lj. replace (S k + i')%nat with (k + S i')%nat by lia. apply H; auto. cbn. lia.
  - unfold worths. apply Forall2_app; [exact WO|]. constructor; [|constructor]. exists sc. auto.
Qed.

Lemma test_all_ok t k (picks : list (Z * nat * epoch M)) : forall fs,
  (forall p, In p picks -> dict_get fs (model_file c k (fst (fst p)) (snd (fst p))) = Some (Saved (ep_model (snd p))) /\
     exists text sc, scored t (ep_model (snd p)) text sc /\ comparable c sc) ->
  exists fs' scs, test_all_of t (map (tagger_of c k) picks) fs = (fs', Ok scs) /\ length scs = length picks /\ Forall (comparable c) scs.
Proof.
  induction picks as [|[[z i] x] picks IH]; intros fs H; cbn [map test_all_of tagger_of fst snd].
  - exists fs, []. auto.
  - destruct (H _ (or_introl eq_refl)) as (E & text & sc & SC & CM). cbn [fst snd] in *.
    destruct (test_saved t _ _ text sc (path_join (seed_dir k z) (of_string "best-test.conll")) fs E SC) as (fs1 & TT). rewrite TT.
    apply test_tagger_ok in TT. destruct TT as (m1 & text1 & E1 & SC1 & ->).
    destruct (IH (write_predictions t (path_join (t_results t) (path_join (seed_dir k z) (of_string "best-test.conll"))) text1 fs)) as (fs2 & scs & EQ & L & F).
    + intros p Ip. destruct (H p (or_intror Ip)) as (E2 & X). split; auto. rewrite test_name_file.
      rewrite write_other by (apply model_prediction_neq, test_prediction). auto.
    + rewrite EQ. cbn [bind]. exists fs2, (sc :: scs). cbn [length]. auto.
Qed.

Lemma trained_unique k j r r' : trained c nt k j r -> trained c nt k j r' -> r = r'.
Proof.
  intros (_ & L & H) (_ & L' & H').
  assert (G : forall e, firstn e r = firstn e r').
  { induction e as [|e IH]; auto. destruct (nth_error r e) as [x|] eqn:E.
    - destruct (nth_error r' e) as [x'|] eqn:E'; [|apply nth_error_None in E'; assert (e < length r)%nat by (apply nth_error_Some; congruence); lia].
      destruct (H _ _ E) as (A1 & (A2 & A3) & _). destruct (H' _ _ E') as (B1 & (B2 & B3) & _). rewrite IH in A1. rewrite A1 in B1. injection B1 as B1.
      rewrite <- B1, A2 in B2. injection B2 as B2. rewrite <- B2, A3 in B3. injection B3 as B3.
      assert (X : x = x') by (destruct x, x'; cbn in *; subst; auto). subst x'.
      assert (SN : forall l : list (epoch M), nth_error l e = Some x -> firstn (S e) l = firstn e l ++ [x]).
      { clear. revert e. induction e as [|e IH]; intros [|y l] E; try discriminate; cbn [nth_error firstn app] in *; [congruence|]. rewrite <- IH; auto. }
      rewrite !SN by auto. congruence.
    - assert (E' : nth_error r' e = None) by (apply nth_error_None; apply nth_error_None in E; lia).
      apply nth_error_None in E. apply nth_error_None in E'. rewrite (firstn_all2 r), (firstn_all2 r') by lia.
      rewrite (firstn_all2 r), (firstn_all2 r') in IH by lia. auto. }
  specialize (G (length r)). rewrite firstn_all in G. rewrite G. apply firstn_all2. lia.
Qed.

Lemma success (hyper : list P) fs : hyper <> [] -> NoDup seeds -> seeds <> [] ->
  (delete_after c = true -> forall p, within (model_dir c) p -> dict_get fs p = None) ->
  (forall k j, (k < length hyper)%nat -> (j < length seeds)%nat -> exists run, good_run k j run) ->
  (forall t k j run x, test_set c = Some t -> trained c nt k j run -> In x run ->
     exists text sc, scored t (ep_model x) text sc /\ comparable c sc) ->
  exists fs' rep, main c nt dirs (of_string "neural") hyper fs = (fs', Ok rep).
Proof.
  intros NH ND NS HD HR HT.
  destruct (search_ok hyper NS 0 (mkSel None []) fs [] [] 0%nat [] HR (inv_start _)) as (fs1 & s & SP); [intros qs _; left; reflexivity|constructor|].
  unfold main. replace (delete_after c && is_filled (model_dir c) fs) with false.
  2:{ symmetry. destruct (delete_after c); auto. cbn [andb]. destruct (is_filled (model_dir c) fs) eqn:F; auto.
      apply is_filled_get in F. destruct F as (p & W & G). rewrite HD in G by auto. congruence. }
  change (get_trainer (of_string "neural")) with (@Ok method Neural). cbv iota. rewrite SP. cbn [fst snd].
  assert (NE : forall k, (k < length hyper)%nat -> epochs nt k <> 0%nat).
  { intros k Lk. destruct (HR k 0%nat Lk) as (run & (_ & L & _) & N & _); [destruct seeds; [congruence|cbn; lia]|]. rewrite <- L. destruct run; [congruence|discriminate]. }
  destruct (searched c nt dirs hyper fs fs1 s NH ND (or_intror NE) SP) as (cands & k & w & p & picks & LC & EV & Ew & _ & Eh & SB & PS & BW & TH & _).
  assert (Lk : (k < length hyper)%nat) by (apply nth_error_Some; congruence).
  destruct (EV _ _ Ew) as (LR & TR & CH & SU).
  assert (CB : Forall (fun x => comparable c (ep_scores x) /\ exists j run, trained c nt k j run /\ In x run) (c_best w)).
  { apply Forall_forall. intros x Ix. apply In_nth_error in Ix. destruct Ix as (j & Ej). destruct (Forall2_nth_r _ _ _ _ _ CH Ej) as (run & Er & i & Ei & _).
    assert (Lj : (j < length seeds)%nat) by (rewrite <- LR; apply nth_error_Some; congruence).
    destruct (HR k j Lk Lj) as (run' & T' & _ & F'). pose proof (TR _ _ Er) as T. rewrite (trained_unique _ _ _ _ T T') in *.
    split; [|exists j, run'; split; auto; eapply nth_error_In; eauto]. rewrite Forall_forall in F'. apply F'. eapply nth_error_In; eauto. }
  unfold best_scores. rewrite SB. cbn [option_map fst snd].
  assert (SUM : forall scs sc, length scs = length seeds -> Forall (comparable c) scs -> summary c scs sc -> printable (printed c) sc).
  { intros scs sc LS F. unfold summary. destruct (random_seed c) as [z|zs] eqn:RS.
    - intros ->. inversion F as [|? ? [PR _] _]. exact PR.
    - intros E. cbn [runs_of] in *. destruct (average_comparable zs scs RS) as (avg & E' & PR & _); auto.
      + intros ->. destruct zs; [congruence|discriminate].
      + rewrite E in E'. injection E' as <-. exact PR. }
  assert (LB : length (c_best w) = length seeds) by (rewrite BW, map_length, <- PS, map_length; auto).
  assert (PD : print_metrics (printed c) (Some (c_scores w)) = Ok tt).
  { apply printable_ok. apply (SUM (map ep_scores (c_best w))); auto; [rewrite map_length; auto|].
    apply Forall_forall. intros t It. apply in_map_iff in It. destruct It as (x & <- & Ix). rewrite Forall_forall in CB. apply (CB x Ix). }
  rewrite PD. destruct (test_set c) as [t|] eqn:TS; [|eauto].
  assert (HP : forall p, In p picks -> dict_get fs1 (model_file c k (fst (fst p)) (snd (fst p))) = Some (Saved (ep_model (snd p))) /\
     exists text sc, scored t (ep_model (snd p)) text sc /\ comparable c sc).
  { intros pk Ipk. split; auto. rewrite Forall_forall in CB. destruct (CB (snd pk)) as (_ & j & run & T & Ix); [rewrite BW; apply in_map; auto|].
    apply (HT t k j run); auto. }
  destruct (test_all_ok t k picks fs1 HP) as (fs2 & scs & TA & LS & FS).
  assert (LP : length picks = length seeds) by (rewrite <- PS, map_length; auto).
  assert (TF : exists fs2 sc, tagger_func c t (map (tagger_of c k) picks) fs1 = (fs2, Ok sc) /\ summary c scs sc).
  { unfold tagger_func, summary. destruct (random_seed c) as [z|zs] eqn:RS; cbn [runs_of] in *.
    - destruct picks as [|pk [|]]; try discriminate. cbn [map] in *. cbn [tagger_of test_all_of] in *. unfold tagger_of in *. cbn [test_all_of] in TA.
      destruct (test_tagger t _ _ fs1) as [fs3 [sc|e]]; [|discriminate]. cbn [bind] in TA. injection TA as <- <-. eauto.
    - rewrite TA. cbn [bind]. destruct (average_comparable zs scs RS) as (avg & E' & _); auto.
      + intros ->. cbn in LS. rewrite LP in LS. destruct zs; [congruence|discriminate].
      + rewrite E'. eauto. }
  destruct TF as (fs3 & sc & -> & SU2). assert (PT : print_metrics (printed c) (Some sc) = Ok tt).
  { apply printable_ok. apply (SUM scs); auto. congruence. }
  cbn [bind]. rewrite PT. cbn [bind]. eauto.
Qed.
End Success.
