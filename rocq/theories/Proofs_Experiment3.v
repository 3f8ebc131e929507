(* What is reported at the end of an experiment, and the predictions that are left *)
From Coq Require Import String Ascii ZArith NArith QArith Bool Lia Permutation List.
From Verif Require Import Base BaseFacts Proofs_Datamodel Proofs_Conllu3 Model_UDEval Model_Harness Spec_Harness Proofs_Builder3 Proofs_Harness
  Proofs_Harness2 Proofs_Harness3 Proofs_Harness4 Model_Experiment Spec_Experiment Proofs_Experiment Proofs_Experiment2.
Import ListNotations.
Open Scope Z_scope.

Lemma list_choice {A B} (R : nat -> A -> B -> Prop) (l : list A) : forall n,
  (forall i a, nth_error l i = Some a -> exists b, R (n + i)%nat a b) ->
  exists bs, length bs = length l /\ forall i a b, nth_error l i = Some a -> nth_error bs i = Some b -> R (n + i)%nat a b.
Proof.
  induction l as [|a l IH]; intros n H.
  - exists []. split; auto. intros [|i] a b E; discriminate.
  - destruct (H 0%nat a eq_refl) as (b & Hb). destruct (IH (S n)) as (bs & L & HB).
    + intros i a' E. replace (S n + i)%nat with (n + S i)%nat by lia. apply H. exact E.
    + exists (b :: bs). split; [cbn; auto|]. intros [|i] a' b' E E'; cbn [nth_error] in *.
      * injection E as <-. injection E' as <-. auto.
      * replace (n + S i)%nat with (S n + i)%nat by lia. eauto.
Qed.

Section Report.
Context {M P : Type}.
Variables (c : settings M) (nt : training M) (dirs : files M -> str -> list str).
Notation seeds := (runs_of (random_seed c)).
Notation pick := (Z * nat * epoch M)%type.

(* ---- the best epochs ---- *)

Lemma print_none : print_metrics (printed c) None = Ok tt -> printed c = [].
Proof. destruct (printed c); auto. discriminate. Qed.

Definition best_epoch (run : list (epoch M)) (i : nat) (x : epoch M) : Prop :=
  nth_error run i = Some x /\ forall qs, Forall2 (worth (fields c) (compared c)) (map ep_scores run) qs -> first_best qs i.

Lemma best_chosen run i x : best_epoch run i x -> chosen c run x.
Proof. intros H. exists i. exact H. Qed.

Lemma seed_picks k z run d tg p sc : run <> [] \/ printed c <> [] ->
  evaluate_seed (printed c) (fields c) (compared c) (params_name (Z.of_nat k)) z (yielded c k z 0 run, None) = (d, Ok (tg, p, sc)) ->
  exists i x, best_epoch run i x /\ tg = Some (model_file c k z i) /\ p = seed_dir k z /\ sc = Some (ep_scores x).
Proof.
  intros NE H. unfold evaluate_seed in H. cbn [fst snd] in H.
  destruct (epochs_loop _ _ _ _ 0 (yielded c k z 0 run) (mkSel None [])) as [s e] eqn:E. injection H as _ H.
  destruct e as [e|]; [discriminate|]. cbn [bind] in H. apply bind_ok_iff in H. destruct H as ([] & PR & H). injection H as <- <- <-.
  destruct (epochs_loop_inv _ _ _ _ _ 0 _ s None [] [] 0%nat E (inv_start _) ltac:(intros q _; left; reflexivity))
    as (m & i & L & N & I & B). cbn [app] in I, B.
  assert (m = length (yielded c k z 0 run)) by (apply N; auto). subst m. rewrite firstn_all in *.
  unfold inv in I. unfold best_scores in *. destruct (sel_best s) as [[[x sc] p]|].
  - destruct I as [NI _]. rewrite eitems_nth, yielded_nth in NI. destruct (nth_error run i) as [y|] eqn:Ei; [|discriminate].
    cbn [option_map fst snd Nat.add] in NI. injection NI as <- <- <-. exists i, y. cbn [option_map fst snd].
    split; [|split; [auto|split; [apply seed_dir_path|auto]]]. split; auto. intros qs F.
    destruct (B qs) as [E0|FB]; auto.
    + apply worths_eitems. clear - F. generalize 0%nat as n. remember (map ep_scores run) as l eqn:El. revert run El.
      induction F as [|t q ts qs W F IH]; intros [|y run] El n; try discriminate; cbn [yielded]; constructor.
      * cbn in El. injection El as -> _. exact W.
      * apply IH. cbn in El. injection El as _ El. auto.
    + exfalso. apply (f_equal (@length _)) in E0. rewrite eitems_length, yielded_length in E0. destruct run; [destruct i|]; discriminate.
  - exfalso. destruct I as [E0 _]. apply (f_equal (@length _)) in E0. rewrite eitems_length, yielded_length in E0.
    destruct NE as [NE|NE]; [destruct run; [congruence|discriminate]|]. apply print_none in PR. congruence.
Qed.

Definition tagger_of (k : nat) (p : pick) : option str * str := (Some (model_file c k (fst (fst p)) (snd (fst p))), seed_dir k (fst (fst p))).

Definition picked (runs : list (list (epoch M))) (picks : list pick) : Prop :=
  map (fun p => fst (fst p)) picks = seeds /\ Forall2 (fun run p => best_epoch run (snd (fst p)) (snd p)) runs picks.

Lemma candidate_picks k runs d models sc : length runs = length seeds -> (printed c <> [] \/ Forall (fun r => r <> []) runs) ->
  evaluate_candidate (printed c) (fields c) (compared c) (params_name (Z.of_nat k)) (seeding_of c k runs) = (d, Ok (models, sc)) ->
  exists picks dev, picked runs picks /\ models = map (tagger_of k) picks /\ sc = Some dev /\
    summary c (map (fun p => ep_scores (snd p)) picks) dev.
Proof.
  intros LR NE H. unfold seeding_of, picked, summary in *. destruct (random_seed c) as [z|zs]; cbn [runs_of evaluate_candidate] in *.
  - destruct runs as [|run [|]]; try discriminate. cbn [hd] in H.
    destruct (evaluate_seed _ _ _ _ z (yielded c k z 0 run, None)) as [d1 [[[tg p] sc1]|e]] eqn:E; [|discriminate].
    cbn [bind fst snd] in H. injection H as <- <- <-.
    assert (NE1 : run <> [] \/ printed c <> []) by (destruct NE as [NE|NE]; [right; auto|left; exact (Forall_inv NE)]).
    destruct (seed_picks _ _ _ _ _ _ _ NE1 E) as (i & x & B & -> & -> & ->).
    exists [(z, i, x)], (ep_scores x). cbn. split; [split; auto|]. auto.
  - unfold evaluate_average in H. destruct (evaluate_seeds _ _ _ _ (generators c k zs runs)) as [d0 r] eqn:E. injection H as <- H.
    apply bind_ok_iff in H. destruct H as (xs & -> & H). apply bind_ok_iff in H. destruct H as (avg & AV & H).
    apply bind_ok_iff in H. destruct H as ([] & _ & H). injection H as <- <-.
    assert (G : exists picks, map (fun p => fst (fst p)) picks = zs /\ Forall2 (fun run p => best_epoch run (snd (fst p)) (snd p)) runs picks /\
              xs = map (fun p => (tagger_of k p, Some (ep_scores (snd p)))) picks).
    { clear AV avg. revert runs d0 xs LR NE E. induction zs as [|z zs IH]; intros [|run runs] d0 xs LR NE E; try discriminate; cbn [generators evaluate_seeds] in E.
      - injection E as <- <-. exists []. cbn. auto.
      - destruct (evaluate_seed _ _ _ _ z (yielded c k z 0 run, None)) as [d1 [[[tg p] sc1]|e]] eqn:E1; [|discriminate].
        destruct (evaluate_seeds _ _ _ _ (generators c k zs runs)) as [d2 r2] eqn:E2. injection E as <- E.
        apply bind_ok_iff in E. destruct E as (ys & -> & E). injection E as <-.
        assert (NE1 : run <> [] \/ printed c <> []) by (destruct NE as [NE|NE]; [right; auto|left; exact (Forall_inv NE)]).
        assert (NE2 : printed c <> [] \/ Forall (fun r => r <> []) runs) by (destruct NE as [NE|NE]; [auto|right; exact (Forall_inv_tail NE)]).
        destruct (seed_picks _ _ _ _ _ _ _ NE1 E1) as (i & x & B & -> & -> & ->).
        destruct (IH runs d2 ys ltac:(cbn in LR; lia) NE2 E2) as (picks & <- & F & ->).
        exists ((z, i, x) :: picks). cbn [map fst snd]. split; auto. }
    destruct G as (picks & G1 & G2 & ->). exists picks, avg. split; auto. split; [rewrite map_map; reflexivity|]. split; auto.
    rewrite map_map in AV. rewrite map_map. exact AV.
Qed.

(* ---- the search ---- *)

Lemma outcomes_search (cands : list (P * seeding (Z * gen (table * str)))) :
  outcomes c 0 cands = map (fun ic => (fst (snd ic), evaluate_candidate (printed c) (fields c) (compared c) (params_name (fst ic)) (snd (snd ic)))) (enumerate cands).
Proof.
  assert (G : forall cands k i, nth_error (outcomes c k cands) i = option_map (fun pc : P * seeding (Z * gen (table * str)) => (fst pc,
            evaluate_candidate (printed c) (fields c) (compared c) (params_name (Z.of_nat (k + i))) (snd pc))) (nth_error cands i)).
  { clear. induction cands as [|pc cands IH]; intros k [|i]; cbn [outcomes nth_error option_map]; auto.
    - rewrite Nat.add_0_r. auto.
    - rewrite IH. replace (S k + i)%nat with (k + S i)%nat by lia. auto. }
  assert (N : forall i, nth_error (outcomes c 0 cands) i = nth_error (map (fun ic => (fst (snd ic), evaluate_candidate (printed c) (fields c) (compared c) (params_name (fst ic)) (snd (snd ic)))) (enumerate cands)) i).
  { intros i. rewrite G, nth_error_map, enumerate_nth. destruct (nth_error cands i); reflexivity. }
  revert N. generalize (outcomes c 0 cands) as l1. generalize (map (fun ic => (fst (snd ic), evaluate_candidate (printed c) (fields c) (compared c) (params_name (fst ic)) (snd (snd ic)))) (enumerate cands)) as l2.
  intros l2 l1. revert l2. induction l1 as [|x l1 IH]; intros [|y l2] N; auto.
  - specialize (N 0%nat). discriminate.
  - specialize (N 0%nat). discriminate.
  - f_equal; [specialize (N 0%nat); cbn in N; congruence|]. apply IH. intros i. exact (N (S i)).
Qed.

Lemma candidates_nth (hyper : list P) : forall all k i, length all = length hyper ->
  nth_error (candidates c k hyper all) i =
  match nth_error hyper i, nth_error all i with Some p, Some runs => Some (p, seeding_of c (k + i) runs) | _, _ => None end.
Proof.
  induction hyper as [|p hyper IH]; intros [|runs all] k [|i] L; try discriminate; cbn [candidates nth_error]; auto.
  - rewrite Nat.add_0_r. auto.
  - rewrite IH by (cbn in L; lia). replace (S k + i)%nat with (k + S i)%nat by lia. auto.
Qed.
Lemma candidates_length (hyper : list P) : forall all k, length all = length hyper -> length (candidates c k hyper all) = length hyper.
Proof. induction hyper as [|p hyper IH]; intros [|runs all] k L; try discriminate; cbn; auto. Qed.

Lemma all_records_in all : forall k i runs j z run e x, nth_error all i = Some runs -> nth_error seeds j = Some z ->
  nth_error runs j = Some run -> nth_error run e = Some x -> In ((k + i)%nat, z, e, x) (all_records c k all).
Proof.
  induction all as [|rs all IH]; intros k [|i] runs j z run e x E1 E2 E3 E4; try discriminate; cbn [nth_error all_records] in *; apply in_app_iff.
  - left. injection E1 as ->. rewrite Nat.add_0_r. clear - E2 E3 E4. revert runs j E2 E3.
    induction seeds as [|z' zs IH]; intros [|r runs] [|j] E2 E3; try discriminate; cbn [nth_error run_records] in *; apply in_app_iff.
    + left. injection E2 as ->. injection E3 as ->. apply records_in. rewrite Nat.sub_0_r. split; auto. split; auto. split; auto. lia.
    + right. eauto.
  - right. replace (k + S i)%nat with (S k + i)%nat by lia. eauto.
Qed.

(* ---- the tests ---- *)

Lemma test_all_files t k (picks : list pick) : forall fs fs' scs, NoDup (map (fun p => fst (fst p)) picks) ->
  (forall p, In p picks -> dict_get fs (model_file c k (fst (fst p)) (snd (fst p))) = Some (Saved (ep_model (snd p)))) ->
  test_all_of t (map (tagger_of k) picks) fs = (fs', Ok scs) ->
  Forall2 (fun p sc => exists text, scored t (ep_model (snd p)) text sc /\
    (t_results t <> [] -> dict_get fs' (test_file t k (fst (fst p))) = Some (Written text))) picks scs /\
  (forall q, (forall p, In p picks -> q <> test_file t k (fst (fst p))) -> dict_get fs' q = dict_get fs q).
Proof.
  induction picks as [|[[z i] x] picks IH]; intros fs fs' scs ND H E; cbn [map test_all_of tagger_of fst snd] in E.
  - injection E as <- <-. split; [constructor|auto].
  - destruct (test_tagger t (Some (model_file c k z i)) _ fs) as [fs1 r] eqn:TT. destruct r as [sc|e]; [|discriminate].
    destruct (test_all_of t (map (tagger_of k) picks) fs1) as [fs2 rs] eqn:TA. injection E as <- E.
    apply bind_ok_iff in E. destruct E as (scs' & -> & E). injection E as <-.
    apply test_tagger_ok in TT. destruct TT as (m & text & Em & SC & ->). pose proof (H _ (or_introl eq_refl)) as H0. cbn [fst snd] in H0.
    rewrite H0 in Em. injection Em as <-. rewrite test_name_file in TA. cbn [map fst] in ND. inversion ND as [|? ? NI ND']; subst.
    assert (H' : forall p, In p picks -> dict_get (write_predictions t (test_file t k z) text fs) (model_file c k (fst (fst p)) (snd (fst p))) =
              Some (Saved (ep_model (snd p)))).
    { intros p Ip. rewrite write_other by (apply model_prediction_neq, test_prediction). apply H. right. auto. }
    destruct (IH _ _ _ ND' H' TA) as [F G].
    split.
    + constructor; [|exact F]. cbn [fst snd]. exists text. split; auto. intros R. rewrite G.
      * apply write_same; auto.
      * intros p Ip E. apply test_file_inj in E. apply NI. destruct E as [_ E]. rewrite E. apply (in_map (fun p : pick => fst (fst p))). auto.
    + intros q Hq. rewrite G by (intros p Ip; apply Hq; right; auto). apply write_other. apply (Hq (z, i, x)). left. auto.
Qed.

Lemma tagger_func_files t k picks fs fs' sc : map (fun p => fst (fst p)) picks = seeds -> NoDup seeds ->
  (forall p, In p picks -> dict_get fs (model_file c k (fst (fst p)) (snd (fst p))) = Some (Saved (ep_model (snd p)))) ->
  tagger_func c t (map (tagger_of k) picks) fs = (fs', Ok sc) ->
  exists scs, summary c scs sc /\
  Forall2 (fun p sc => exists text, scored t (ep_model (snd p)) text sc /\
    (t_results t <> [] -> dict_get fs' (test_file t k (fst (fst p))) = Some (Written text))) picks scs /\
  (forall q, (forall p, In p picks -> q <> test_file t k (fst (fst p))) -> dict_get fs' q = dict_get fs q).
Proof.
  unfold tagger_func, summary. intros ES ND H E. rewrite <- ES in ND. destruct (random_seed c) as [z|zs]; cbn [runs_of] in *.
  - destruct picks as [|p [|]]; try discriminate. cbn [map tagger_of] in E. exists [sc]. split; auto.
    apply (test_all_files t k [p] fs fs' [sc] ND H). cbn [map test_all_of]. unfold tagger_of at 1. rewrite E. reflexivity.
  - destruct (test_all_of t (map (tagger_of k) picks) fs) as [fs1 r] eqn:TA. injection E as <- E. apply bind_ok_iff in E. destruct E as (scs & -> & E).
    exists scs. split; auto. apply test_all_files; auto.
Qed.

Lemma dev_not_test (t : tester M) k z e k' z' : dev_file c k z e <> test_file t k' z'.
Proof.
  unfold dev_file, test_file. destruct (based_prefix (t_results (dev_set c))) as (b & ->). destruct (based_prefix (t_results t)) as (b' & ->).
  change (of_string "-dev.conll") with (of_string "-de" ++ [118%N] ++ of_string ".conll").
  change (of_string "/best-test.conll") with (of_string "/best-tes" ++ [116%N] ++ of_string ".conll"). intros H.
  rewrite !app_assoc in H. apply app_inv_tail in H. apply app_last in H. discriminate.
Qed.

Lemma elsewhere_final t (fs : files M) name : elsewhere c t ->
  dict_get (if delete_after c then rmtree (model_dir c) fs else fs) (based (t_results t) name) = dict_get fs (based (t_results t) name).
Proof. intros [->|[N H]]; auto. destruct (delete_after c); auto. apply rmtree_within. apply H. Qed.

(* ---- all together ---- *)

Lemma searched (hyper : list P) fs fs1 s : hyper <> [] -> NoDup seeds -> (printed c <> [] \/ forall k, (k < length hyper)%nat -> epochs nt k <> 0%nat) ->
  search_params c nt dirs Neural 0 hyper (mkSel None []) fs = (fs1, (s, None)) ->
  exists cands k w p picks, length cands = length hyper /\ (forall i x, nth_error cands i = Some x -> evaluated c nt i x) /\
    nth_error cands k = Some w /\
    (forall qs, Forall2 (worth (fields c) (compared c)) (map c_scores cands) qs -> first_best qs k) /\
    nth_error hyper k = Some p /\ sel_best s = Some (p, map (tagger_of k) picks, Some (c_scores w), params_dir k) /\
    map (fun p => fst (fst p)) picks = seeds /\ c_best w = map snd picks /\
    (forall pk, In pk picks -> dict_get fs1 (model_file c k (fst (fst pk)) (snd (fst pk))) = Some (Saved (ep_model (snd pk)))) /\
    (forall i x j z run e y, nth_error cands i = Some x -> nth_error seeds j = Some z -> nth_error (c_runs x) j = Some run ->
       nth_error run e = Some y -> t_results (dev_set c) <> [] -> elsewhere c (dev_set c) ->
       dict_get fs1 (dev_file c i z e) = Some (Written (ep_text y))).
Proof.
  intros NH ND NE SP.
  destruct (search_sim c nt dirs hyper ND 0 _ fs fs1 s [] SP ltac:(intros k z e x []) I ltac:(intros k z e _ [])) as (all & LA & TA & SL & HF).
  cbn [app] in HF. change (Z.of_nat 0) with 0 in SL. set (cs := candidates c 0 hyper all) in *.
  assert (SE : search (printed c) (fields c) (compared c) cs = (s, None)).
  { unfold search, params_search. rewrite <- outcomes_search. exact SL. }
  assert (LC : length cs = length hyper) by (apply candidates_length; auto).
  assert (CNE : cs <> []) by (intros E; rewrite E in LC; destruct hyper; [congruence|discriminate]).
  assert (SEEDS : forall k runs, length runs = length seeds -> map fst (runs_of (seeding_of c k runs)) = seeds).
  { clear. intros k runs L. unfold seeding_of. destruct (random_seed c) as [z|zs]; cbn [runs_of] in *; [reflexivity|].
    revert runs L. induction zs as [|z zs IH]; intros [|r runs] L; try discriminate; cbn [generators map fst]; auto. f_equal. apply IH. cbn in L. lia. }
  assert (CN : forall i p runs, nth_error hyper i = Some p -> nth_error all i = Some runs -> nth_error cs i = Some (p, seeding_of c i runs)).
  { intros i p runs E1 E2. unfold cs. rewrite candidates_nth by auto. rewrite E1, E2. reflexivity. }
  assert (CI : forall i pc, nth_error cs i = Some pc -> exists p runs, nth_error hyper i = Some p /\ nth_error all i = Some runs /\ pc = (p, seeding_of c i runs)).
  { intros i pc E. unfold cs in E. rewrite candidates_nth in E by auto. destruct (nth_error hyper i), (nth_error all i); try discriminate.
    injection E as <-. eauto. }
  assert (NDs : Forall (fun pc => NoDup (map fst (runs_of (snd pc)))) cs).
  { apply Forall_forall. intros pc Ipc. apply In_nth_error in Ipc. destruct Ipc as (i & Ei). destruct (CI _ _ Ei) as (p & runs & _ & Ea & ->).
    cbn [snd]. rewrite SEEDS; auto. apply (TA _ _ Ea). }
  destruct (search_left (printed c) (fields c) (compared c) (model_dir c) cs s SE CNE NDs) as (k & params & runs' & models & scores & Ek & SB & LEFT & _).
  destruct (CI _ _ Ek) as (p & runs & Eh & Ea & EPC). injection EPC as -> ->.
  (* the outcomes of all candidates *)
  destruct (search_loop_inv _ _ _ 0 _ s None [] [] 0%nat SL (inv_start _) ltac:(intros q _; left; reflexivity))
    as (m & k' & d & _ & N & LI & _ & _ & I & B & _). cbn [app] in I, B.
  assert (m = length (outcomes c 0 cs)) by (apply N; auto). subst m. rewrite firstn_all in *.
  assert (ON : forall i, nth_error (outcomes c 0 cs) i = option_map (fun pc => (fst pc, evaluate_candidate (printed c) (fields c) (compared c) (params_name (Z.of_nat i)) (snd pc))) (nth_error cs i)).
  { intros i. rewrite outcomes_search, nth_error_map, enumerate_nth. destruct (nth_error cs i); reflexivity. }
  assert (LO : length (outcomes c 0 cs) = length hyper) by (rewrite outcomes_search, map_length, enumerate_len; auto).
  assert (IT : forall i runs, nth_error all i = Some runs -> exists p d models sc, nth_error hyper i = Some p /\
            nth_error (citems 0 (outcomes c 0 cs)) i = Some (params_name (Z.of_nat i), (p, models), sc) /\
            evaluate_candidate (printed c) (fields c) (compared c) (params_name (Z.of_nat i)) (seeding_of c i runs) = (d, Ok (models, sc))).
  { intros i rs Ei. assert (Li : (i < length hyper)%nat) by (rewrite <- LA; apply nth_error_Some; congruence).
    destruct (nth_error (citems 0 (outcomes c 0 cs)) i) as [it|] eqn:Ec; [|apply nth_error_None in Ec; lia].
    destruct (citems_nth _ _ _ _ Ec) as (p1 & d1 & m1 & sc1 & Eo & ->). rewrite ON in Eo.
    destruct (nth_error hyper i) as [p2|] eqn:Ep; [|apply nth_error_None in Ep; lia]. rewrite (CN _ _ _ Ep Ei) in Eo. cbn [option_map fst snd] in Eo.
    injection Eo as -> Eo. exists p1, d1, m1, sc1. auto. }
  destruct (list_choice (fun i rs (wp : candidate M * list pick) => evaluated c nt i (fst wp) /\ c_runs (fst wp) = rs /\ picked rs (snd wp) /\
      c_best (fst wp) = map snd (snd wp) /\ exists p, nth_error hyper i = Some p /\
      nth_error (citems 0 (outcomes c 0 cs)) i = Some (params_name (Z.of_nat i), (p, map (tagger_of i) (snd wp)), Some (c_scores (fst wp)))) all 0) as (wps & LW & HW).
  { intros i rs Ei. cbn [Nat.add]. destruct (IT _ _ Ei) as (p1 & d1 & m1 & sc1 & Ep & Ec & EV). destruct (TA _ _ Ei) as [LR TR]. cbn [Nat.add] in TR.
    destruct (candidate_picks i rs d1 m1 sc1 LR) as (picks & dev & PK & -> & -> & SU); auto.
    { destruct NE as [NE|NE]; [auto|right]. apply Forall_forall. intros r Ir. apply In_nth_error in Ir. destruct Ir as (j & Ej).
      destruct (TR _ _ Ej) as (_ & L & _). intros ->. apply (NE i); auto. rewrite <- LA. apply nth_error_Some. congruence. }
    exists (mkCandidate rs (map snd picks) dev, picks). cbn [fst snd c_runs c_best c_scores]. split; [|split; [auto|split; [auto|split; [auto|eauto]]]].
    split; [auto|]. split; [auto|]. split; [|unfold summary in *; cbn [c_best c_scores]; rewrite map_map; exact SU]. cbn [c_runs c_best]. destruct PK as [_ PK]. clear - PK.
    induction PK as [|r pk rs pks B F IH]; constructor; auto. eapply best_chosen; eauto. }
  cbn [Nat.add] in HW.
  destruct (nth_error wps k) as [[w picks]|] eqn:Ew.
  2:{ apply nth_error_None in Ew. assert (k < length all)%nat by (apply nth_error_Some; congruence). lia. }
  destruct (HW _ _ _ Ea Ew) as (EVw & Rw & [PS PB] & BW & p1 & Ep1 & Ec1). cbn [fst snd] in *. rewrite Eh in Ep1. injection Ep1 as <-.
  (* the winner of the search is that of the loop *)
  unfold inv in I. rewrite SB in I. destruct I as [NI _].
  destruct (citems_nth _ _ _ _ NI) as (p2 & d2 & m2 & sc2 & Eo & EE).
  assert (EP : params_dir k = params_dir k') by exact (f_equal (fun it => fst (fst it)) EE). clear EE Eo.
  apply params_dir_inj in EP. subst k'. pose proof (eq_trans (eq_sym Ec1) NI) as EQ.
  assert (EM : map (tagger_of k) picks = models) by (apply (f_equal (fun o => match o with Some it => snd (snd (fst it)) | None => [] end)) in EQ; exact EQ).
  assert (ES : Some (c_scores w) = scores) by (apply (f_equal (fun o => match o with Some it => snd it | None => None end)) in EQ; exact EQ).
  clear EQ NI. subst models scores.
  (* the picked models are there *)
  assert (LR : length runs = length seeds) by apply (TA _ _ Ea).
  assert (THERE : forall j pk, nth_error picks j = Some pk ->
            dict_get fs1 (model_file c k (fst (fst pk)) (snd (fst pk))) = Some (Saved (ep_model (snd pk)))).
  { intros j pk Ej. destruct (Forall2_nth_r _ _ _ _ _ PB Ej) as (run & Er & Bi & _).
    assert (Ez : nth_error seeds j = Some (fst (fst pk))) by (rewrite <- PS; apply (map_nth_error (fun p : pick => fst (fst p))); auto).
    apply (HF k (fst (fst pk)) (snd (fst pk)) (snd pk)).
    - apply (all_records_in all 0 k runs j _ run); auto.
    - intros _. assert (EG : exists g, nth_error (runs_of (seeding_of c k runs)) j = Some (fst (fst pk), (g, None)) /\ g = yielded c k (fst (fst pk)) 0 run).
      { clear - Ez Er LR. unfold seeding_of. destruct (random_seed c) as [z|zs]; cbn [runs_of] in *.
        - destruct j as [|[|]]; try discriminate. destruct runs as [|r [|]]; try discriminate. cbn in *. injection Ez as ->. injection Er as ->. eauto.
        - revert zs runs Ez Er LR. induction j as [|j IH]; intros [|z zs] [|r runs] Ez Er LR; try discriminate; cbn [generators nth_error] in *.
          + injection Ez as ->. injection Er as ->. eauto.
          + apply IH; auto. }
      destruct EG as (g & EG & ->). destruct (Forall2_nth _ _ _ _ _ LEFT EG) as (mo & Em & _ & ALT). cbn [fst snd] in ALT.
      rewrite nth_error_map, Ej in Em. cbn [option_map] in Em. injection Em as <-. cbn [tagger_of fst] in ALT.
      destruct ALT as [[_ ALT]|(i & sc & t & Ei & ET & ALT)]; [discriminate|]. injection ET as <-.
      rewrite yielded_nth in Ei. destruct (nth_error run i); [|discriminate]. cbn [option_map Nat.add] in Ei. injection Ei as _ Ei.
      apply model_file_inj in Ei. destruct Ei as (_ & _ & ->). intros GO.
      refine (proj1 (ALT (snd (fst pk)) _) GO eq_refl). rewrite yielded_length. apply nth_error_Some. congruence. }
  assert (BEST : forall qs, Forall2 (worth (fields c) (compared c)) (map c_scores (map fst wps)) qs -> first_best qs k).
  { intros qs F. destruct (B qs) as [E0|FB]; auto.
    - unfold worths. apply Forall2_of_nth.
      + etransitivity; [exact LI|]. rewrite LO, <- LA, <- LW. pose proof (Forall2_length' _ _ _ F) as L. rewrite !map_length in L. auto.
      + intros i it q Ei Eq. destruct (Forall2_nth_r _ _ _ _ _ F Eq) as (t & Et & W). rewrite !nth_error_map in Et.
        destruct (nth_error wps i) as [wp|] eqn:Ewp; [|discriminate]. cbn [option_map] in Et. injection Et as <-.
        assert (Li : (i < length all)%nat) by (rewrite <- LW; apply nth_error_Some; congruence).
        destruct (nth_error all i) as [rs|] eqn:Er; [|apply nth_error_None in Er; lia].
        destruct (HW _ _ _ Er Ewp) as (_ & _ & _ & _ & p3 & _ & Ec3). pose proof (eq_trans (eq_sym Ei) Ec3) as EQ. injection EQ as ->.
        exists (c_scores (fst wp)). auto.
    - exfalso. rewrite E0 in Ec1. destruct k; discriminate. }
  exists (map fst wps), k, w, p, picks.
  assert (EvAll : forall i x, nth_error (map fst wps) i = Some x -> evaluated c nt i x /\ nth_error all i = Some (c_runs x)).
  { intros i x Ei. rewrite nth_error_map in Ei. destruct (nth_error wps i) as [wp|] eqn:Ewp; [|discriminate]. injection Ei as <-.
    assert (Li : (i < length all)%nat) by (rewrite <- LW; apply nth_error_Some; congruence).
    destruct (nth_error all i) as [rs|] eqn:Er; [|apply nth_error_None in Er; lia].
    destruct (HW _ _ _ Er Ewp) as (H1 & H2 & _). rewrite H2. auto. }
  split; [rewrite map_length; congruence|]. split; [intros i x Ei; apply EvAll; auto|]. split; [rewrite nth_error_map, Ew; reflexivity|].
  split; [exact BEST|].
  split; [auto|]. split; [auto|]. split; [auto|]. split; [auto|]. split.
  - intros pk Ipk. apply In_nth_error in Ipk. destruct Ipk as (j & Ej). eauto.
  - intros i x j z run e y Ei Ez Er Ey R EW. destruct (EvAll _ _ Ei) as [_ EA].
    apply (HF i z e y); auto. apply (all_records_in all 0 i (c_runs x) j z run); auto.
Qed.

Lemma experiment (hyper : list P) fs fs' rep : hyper <> [] -> NoDup seeds -> (printed c <> [] \/ forall k, (k < length hyper)%nat -> epochs nt k <> 0%nat) ->
  main c nt dirs (of_string "neural") hyper fs = (fs', Ok rep) ->
  exists cands k w, length cands = length hyper /\ (forall i x, nth_error cands i = Some x -> evaluated c nt i x) /\
    nth_error cands k = Some w /\
    (forall qs, Forall2 (worth (fields c) (compared c)) (map c_scores cands) qs -> first_best qs k) /\
    r_params rep = nth_error hyper k /\ r_dev rep = Some (c_scores w) /\
    match test_set c with
    | None => r_test rep = None
    | Some t => exists scs sc, Forall2 (fun x sc => exists text, scored t (ep_model x) text sc) (c_best w) scs /\
                  summary c scs sc /\ r_test rep = Some sc
    end /\
    (forall i x j z run e y, nth_error cands i = Some x -> nth_error seeds j = Some z -> nth_error (c_runs x) j = Some run ->
       nth_error run e = Some y -> t_results (dev_set c) <> [] -> elsewhere c (dev_set c) ->
       dict_get fs' (dev_file c i z e) = Some (Written (ep_text y))) /\
    (forall t j z y, test_set c = Some t -> nth_error seeds j = Some z -> nth_error (c_best w) j = Some y ->
       t_results t <> [] -> elsewhere c t ->
       exists text, t_predict t (ep_model y) = Ok text /\ dict_get fs' (test_file t k z) = Some (Written text)).
Proof.
  intros NH ND NE H. unfold main in H. destruct (delete_after c && is_filled (model_dir c) fs); [discriminate|].
  change (get_trainer (of_string "neural")) with (@Ok method Neural) in H. cbv iota in H.
  destruct (search_params c nt dirs Neural 0 hyper (mkSel None []) fs) as [fs1 [s e]] eqn:SP. cbn [fst snd] in H.
  destruct e as [e|]; [discriminate|].
  destruct (searched hyper fs fs1 s NH ND NE SP) as (cands & k & w & p & picks & LC & EVA & Ew & BEST & Eh & SB & PS & BW & THERE & DEV).
  exists cands, k, w. split; [auto|]. split; [auto|]. split; [auto|]. split; [auto|].
  (* the end of main *)
  unfold best_scores in H. rewrite SB in H. cbn [option_map fst snd] in H.
  destruct (print_metrics (printed c) (Some (c_scores w))) as [[]|e] eqn:PR; [|discriminate].
  assert (TESTED : exists fs2 test, fs' = (if delete_after c then rmtree (model_dir c) fs2 else fs2) /\ rep = mkReport (Some p) (Some (c_scores w)) test /\
    match test_set c with
    | None => test = None
    | Some t => exists scs sc, summary c scs sc /\ test = Some sc /\ Forall2 (fun p sc => exists text, scored t (ep_model (snd p)) text sc /\
        (t_results t <> [] -> dict_get fs2 (test_file t k (fst (fst p))) = Some (Written text))) picks scs
    end /\
    forall q, (forall (t : tester M) z, q <> test_file t k z) -> dict_get fs2 q = dict_get fs1 q).
  { destruct (test_set c) as [t|].
    - destruct (tagger_func c t (map (tagger_of k) picks) fs1) as [fs2 r] eqn:TF.
      destruct (do sc <- r; do _ <- print_metrics (printed c) (Some sc); Ok (Some sc)) as [test|e] eqn:TE; [|discriminate].
      injection H as <- <-. apply bind_ok_iff in TE. destruct TE as (sc & -> & TE). apply bind_ok_iff in TE. destruct TE as (u & _ & TE). injection TE as <-.
      destruct (tagger_func_files t k picks fs1 fs2 sc PS ND) as (scs & SU & F & FR); auto.
      exists fs2, (Some sc). split; auto. split; auto. split; [exists scs, sc; auto|]. intros q Hq. apply FR. auto.
    - injection H as <- <-. exists fs1, None. auto. }
  destruct TESTED as (fs2 & test & -> & -> & TS & FRAME). cbn [r_params r_dev r_test].
  split; [auto|]. split; [auto|]. split; [|split].
  - destruct (test_set c) as [t|]; auto. destruct TS as (scs & sc & SU & -> & F). exists scs, sc. split; auto. rewrite BW. clear - F.
    induction F as [|pk s pks ss (text & SC & _) F IH]; constructor; eauto.
  - intros i x j z run e y Ei Ez Er Ey R EW.
    unfold dev_file. rewrite elsewhere_final by auto. rewrite FRAME by (intros t z'; apply dev_not_test).
    exact (DEV i x j z run e y Ei Ez Er Ey R EW).
  - intros t j z y Et Ez Ey R EW. rewrite Et in TS. destruct TS as (scs & sc & _ & _ & F).
    rewrite BW, nth_error_map in Ey. destruct (nth_error picks j) as [pk|] eqn:Ej; [|discriminate]. injection Ey as <-.
    assert (Ez' : nth_error seeds j = Some (fst (fst pk))) by (rewrite <- PS; apply (map_nth_error (fun p : pick => fst (fst p))); auto).
    rewrite Ez in Ez'. injection Ez' as ->. destruct (Forall2_nth _ _ _ _ _ F Ej) as (s0 & _ & text & [SC _] & W). exists text. split; auto.
    unfold test_file. rewrite elsewhere_final by auto. apply W; auto.
Qed.
End Report.
