(* An experiment runs the search of the model selection and keeps the files that are not disposed *)
From Coq Require Import String Ascii ZArith NArith QArith Bool Lia Permutation List.
From Verif Require Import Base BaseFacts Proofs_Datamodel Proofs_Conllu3 Model_UDEval Model_Harness Spec_Harness Proofs_Harness
  Proofs_Harness2 Proofs_Harness3 Proofs_Harness4 Model_Experiment Spec_Experiment Proofs_Experiment.
Import ListNotations.
Open Scope Z_scope.

Section Sim.
Context {M : Type}.
Variables (c : settings M) (nt : training M) (dirs : files M -> str -> list str).

Notation key := (nat * Z * nat)%type.
Notation record := (nat * Z * nat * epoch M)%type.

Definition held (L : list record) (D : list str) (fs : files M) : Prop :=
  forall k z e x, In (k, z, e, x) L ->
    ((delete_after c = true -> ~ gone (model_dir c) D (model_file c k z e)) ->
       dict_get fs (model_file c k z e) = Some (Saved (ep_model x))) /\
    (t_results (dev_set c) <> [] -> elsewhere c (dev_set c) -> dict_get fs (dev_file c k z e) = Some (Written (ep_text x))).

Definition write_predictions (t : tester M) (p text : str) (fs : files M) : files M :=
  match t_results t with [] => fs | _ => dict_set fs p (Written text) end.

Lemma write_other t p text (fs : files M) q : q <> p -> dict_get (write_predictions t p text fs) q = dict_get fs q.
Proof. intros N. unfold write_predictions. destruct (t_results t); auto. apply dict_get_set_other. auto. Qed.
Lemma write_same t p text (fs : files M) : t_results t <> [] -> dict_get (write_predictions t p text fs) p = Some (Written text).
Proof. intros N. unfold write_predictions. destruct (t_results t); [congruence|]. apply dict_get_set_same. Qed.

Lemma test_tagger_ok t path name (fs fs' : files M) sc : test_tagger t (Some path) name fs = (fs', Ok sc) ->
  exists m text, dict_get fs path = Some (Saved m) /\ scored t m text sc /\ fs' = write_predictions t (path_join (t_results t) name) text fs.
Proof.
  unfold test_tagger, load. destruct (dict_get fs path) as [[m|tx|tx]|]; cbn [bind]; try discriminate.
  destruct (t_predict t m) as [text|e] eqn:E; [|discriminate]. intros H. injection H as <- H. exists m, text.
  split; auto. split; [split; auto|]. unfold write_predictions. destruct (t_results t); reflexivity.
Qed.

Lemma model_prediction_neq k z e p : prediction p -> model_file c k z e <> p.
Proof. intros P E. rewrite <- E in P. exact (model_no_prediction _ _ _ _ P). Qed.

Lemma held_save L D fs k z e x : held L D fs -> ~ In (k, z, e) (map fst L) ->
  held (L ++ [(k, z, e, x)]) D
    (write_predictions (dev_set c) (dev_file c k z e) (ep_text x) (dict_set fs (model_file c k z e) (Saved (ep_model x)))).
Proof.
  intros H F k1 z1 e1 x1 I. apply in_app_iff in I. destruct I as [I|[I|[]]].
  - assert (N : (k1, z1, e1) <> (k, z, e)).
    { intros E. apply F. rewrite <- E. apply in_map_iff. exists (k1, z1, e1, x1). auto. }
    destruct (H _ _ _ _ I) as [H1 H2]. split; [intros G|intros R O].
    + rewrite write_other by (apply model_prediction_neq, dev_prediction). rewrite dict_get_set_other; auto.
      intros E. apply N. apply model_file_inj in E. destruct E as (-> & -> & ->). auto.
    + rewrite write_other. 2:{ intros E. apply N. apply dev_file_inj in E. destruct E as (-> & -> & ->). auto. }
      rewrite dict_get_set_other; auto. apply model_prediction_neq, dev_prediction.
  - injection I as <- <- <- <-. split; [intros G|intros R O].
    + rewrite write_other by (apply model_prediction_neq, dev_prediction). apply dict_get_set_same.
    + apply write_same; auto.
Qed.

Lemma based_below d p q : at_or_below (based (model_dir c) d) p -> model_dir c <> [] -> q = p -> within (model_dir c) q.
Proof.
  intros [->|(r & ->)] N ->; split; auto; right; [exists d; auto|]. exists (d ++ of_string "/" ++ r).
  destruct (based_prefix (model_dir c)) as (b & HB). rewrite !HB, <- !app_assoc. auto.
Qed.

Lemma held_dispose L D l fs : held L D fs -> Forall candidate_path l ->
  held L (D ++ l) (if delete_after c then fold_left (fun fs d => rmtree (path_join (model_dir c) d) fs) l fs else fs).
Proof.
  intros H F k z e x I. destruct (H _ _ _ _ I) as [H1 H2].
  assert (GA : forall p, gone (model_dir c) D p -> gone (model_dir c) (D ++ l) p).
  { intros p (d & Hd & B). exists d. split; auto. apply in_app_iff. auto. }
  destruct (delete_after c) eqn:E.
  - split; [intros G|intros R O].
    + rewrite dispose_list; [apply H1; intros _ Hg; exact (G eq_refl (GA _ Hg))|auto|].
      intros (d & Hd & B). apply (G eq_refl). exists d. split; auto. apply in_app_iff. auto.
    + rewrite dispose_list; [auto|auto|]. intros (d & Hd & B). destruct O as [O|[N O]]; [congruence|].
      refine (O _ (based_below d _ _ B N eq_refl)).
  - split; auto. intros _. apply H1. discriminate.
Qed.

(* ---- what is considered ---- *)

Definition good_sel {X} (s : selection X) : Prop := match sel_best s with None => True | Some (_, _, p) => candidate_path p end.

Lemma consider_good {X} p (x : X) sc s s' : consider (fields c) (compared c) p x sc s = Ok s' -> good_sel s -> candidate_path p ->
  good_sel s' /\ exists l, sel_disposed s' = sel_disposed s ++ l /\ Forall candidate_path l /\
    forall fs : files M, dispose c s s' fs = if delete_after c then fold_left (fun fs d => rmtree (path_join (model_dir c) d) fs) l fs else fs.
Proof.
  intros C G P. unfold consider in C. apply bind_ok_iff in C. destruct C as (b & _ & C). injection C as <-.
  assert (SK : forall l : list str, skipn (length (sel_disposed s)) (sel_disposed s ++ l) = l).
  { intros l. rewrite skipn_app, skipn_all, Nat.sub_diag. reflexivity. }
  unfold good_sel in *. destruct b; cbn [sel_best sel_disposed].
  - split; auto. eexists. split; [reflexivity|]. split; [|intros fs; unfold dispose; cbn [sel_disposed]; rewrite SK; reflexivity].
    destruct (sel_best s) as [[[x1 sc1] p1]|]; [repeat constructor; auto|constructor].
  - split; auto. eexists. split; [reflexivity|]. split; [repeat constructor; auto|].
    intros fs. unfold dispose; cbn [sel_disposed]. rewrite SK. reflexivity.
Qed.

(* ---- the epochs of a run ---- *)

Fixpoint yielded (k : nat) (z : Z) (i : nat) (run : list (epoch M)) : list (table * str) :=
  match run with [] => [] | x :: run' => (ep_scores x, model_file c k z i) :: yielded k z (S i) run' end.
Fixpoint records (k : nat) (z : Z) (i : nat) (run : list (epoch M)) : list record :=
  match run with [] => [] | x :: run' => (k, z, i, x) :: records k z (S i) run' end.

Lemma yielded_nth k z run : forall i e, nth_error (yielded k z i run) e =
  option_map (fun x => (ep_scores x, model_file c k z (i + e))) (nth_error run e).
Proof.
  induction run as [|x run IH]; intros i [|e]; cbn [yielded nth_error option_map]; auto.
  - rewrite Nat.add_0_r. auto.
  - rewrite IH. replace (S i + e)%nat with (i + S e)%nat by lia. auto.
Qed.
Lemma yielded_length k z run : forall i, length (yielded k z i run) = length run.
Proof. induction run; intros i; cbn; auto. Qed.
Lemma records_in k z run : forall i k' z' e x, In (k', z', e, x) (records k z i run) <->
  k' = k /\ z' = z /\ (i <= e)%nat /\ nth_error run (e - i) = Some x.
Proof.
  induction run as [|y run IH]; intros i k' z' e x; cbn [records In].
  - split; [tauto|]. intros (_ & _ & _ & H). destruct (e - i)%nat; discriminate.
  - rewrite IH. split.
    + intros [H|(-> & -> & L & H)].
      * injection H as <- <- <- <-. rewrite Nat.sub_diag. auto.
      * split; auto. split; auto. split; [lia|]. replace (e - i)%nat with (S (e - S i)) by lia. exact H.
    + intros (-> & -> & L & H). destruct (Nat.eq_dec e i) as [->|N].
      * left. rewrite Nat.sub_diag in H. cbn in H. injection H as <-. auto.
      * right. split; auto. split; auto. split; [lia|]. replace (e - i)%nat with (S (e - S i)) in H by lia. exact H.
Qed.

Definition learnt (k j : nat) (seen : list table) (run : list (epoch M)) : Prop :=
  forall e x, nth_error run e = Some x ->
    learn nt k j (seen ++ map ep_scores (firstn e run)) = Ok (ep_model x) /\
    scored (dev_set c) (ep_model x) (ep_text x) (ep_scores x) /\
    adapt nt k j (seen ++ map ep_scores (firstn (S e) run)) = Ok tt.

Lemma epoch_candidate k z e : candidate_path (epoch_path (params_name (Z.of_nat k)) z (Z.of_nat e)).
Proof.
  exists k. right. exists z, e. rewrite <- params_dir_name. apply epoch_path_dir. apply plain_slashless, params_slashless.
Qed.

Lemma choose_sim k j z n : forall seen s fs fs' s' L D,
  choose c (train_next c nt k j (params_name (Z.of_nat k)) z) (adapt nt k j) (params_name (Z.of_nat k)) z n seen s fs = (fs', (s', None)) ->
  held L (D ++ sel_disposed s) fs -> good_sel s -> (forall e, (length seen <= e)%nat -> ~ In (k, z, e) (map fst L)) ->
  exists run, length run = n /\ learnt k j seen run /\
    epochs_loop (printed c) (fields c) (compared c) (epoch_path (params_name (Z.of_nat k)) z) (Z.of_nat (length seen))
                (yielded k z (length seen) run) s = (s', None) /\
    held (L ++ records k z (length seen) run) (D ++ sel_disposed s') fs'.
Proof.
  induction n as [|n IH]; cbn [choose]; intros seen s fs fs' s' L D H HH G FR.
  - injection H as <- <-. exists []. split; auto. split; [intros [|e] x E; discriminate|]. split; auto. cbn [records]. rewrite app_nil_r. auto.
  - unfold train_next at 1 in H. destruct (learn nt k j seen) as [m|e0] eqn:LN; [|discriminate]. cbn [bind] in H.
    rewrite save_file in H. rewrite seed_dir_path in H.
    destruct (test_tagger (dev_set c) (Some (model_file c k z (length seen))) (dev_name (seed_dir k z) (Z.of_nat (length seen)))
                (dict_set fs (model_file c k z (length seen)) (Saved m))) as [fs2 r] eqn:TT.
    destruct (do sc <- r; _) as [[sc s1]|x] eqn:B in H; [|discriminate].
    apply bind_ok_iff in B. destruct B as (sc1 & -> & B). apply bind_ok_iff in B. destruct B as ([] & AD & B).
    apply bind_ok_iff in B. destruct B as ([] & PR & B). apply bind_ok_iff in B. destruct B as (s2 & CO & B). injection B as -> ->.
    apply test_tagger_ok in TT. destruct TT as (m1 & text & E & SC & ->). rewrite dict_get_set_same in E. injection E as <-.
    rewrite dev_name_file in H.
    pose proof (held_save L _ fs k z (length seen) (mkEpoch m text sc) HH (FR _ (le_n _))) as H1. cbn [ep_text ep_model] in H1.
    destruct (consider_good _ _ _ _ _ CO G (epoch_candidate k z (length seen))) as (G1 & l & ED & FL & DI).
    rewrite DI in H.
    pose proof (held_dispose _ _ l _ H1 FL) as H2. rewrite <- app_assoc, <- ED in H2.
    assert (FR' : forall e, (length (seen ++ [sc]) <= e)%nat -> ~ In (k, z, e) (map fst (L ++ [(k, z, length seen, mkEpoch m text sc)]))).
    { intros e Le HI. rewrite app_length in Le. cbn [length] in Le. rewrite map_app in HI. apply in_app_iff in HI. destruct HI as [HI|[HI|[]]].
      - revert HI. apply FR. lia.
      - cbn [fst] in HI. injection HI as HI. lia. }
    destruct (IH _ _ _ _ _ _ _ H H2 G1 FR') as (run & LR & LE & EL & HF).
    exists (mkEpoch m text sc :: run). rewrite app_length in EL, HF. cbn [length] in EL, HF. rewrite Nat.add_1_r in EL, HF.
    split; [cbn; auto|]. split; [|split].
    + intros [|e] x E.
      * cbn in E. injection E as <-. cbn [firstn map ep_scores ep_model ep_text]. rewrite app_nil_r. auto.
      * cbn [nth_error] in E. destruct (LE e x E) as (A1 & A2 & A3). rewrite <- app_assoc in A1, A3. auto.
    + cbn [yielded epochs_loop ep_scores]. rewrite PR. cbn [bind]. rewrite CO.
      replace (Z.of_nat (length seen) + 1) with (Z.of_nat (S (length seen))) by lia. auto.
    + cbn [records]. rewrite <- app_assoc in HF. auto.
Qed.

Lemma run_sim k j z fs fs' d o L D :
  evaluate_run c nt dirs Neural k j (params_name (Z.of_nat k)) z fs = (fs', (d, Ok o)) ->
  held L D fs -> (forall e, ~ In (k, z, e) (map fst L)) ->
  exists run, trained c nt k j run /\
    evaluate_seed (printed c) (fields c) (compared c) (params_name (Z.of_nat k)) z (yielded k z 0 run, None) = (d, Ok o) /\
    held (L ++ records k z 0 run) (D ++ d) fs'.
Proof.
  intros H HH FR. unfold evaluate_run in H. destruct (train_and_choose c nt dirs Neural k j (params_name (Z.of_nat k)) z fs) as [fs1 [s e]] eqn:T.
  injection H as <- <- H. apply bind_ok_iff in H. destruct H as (u & E & H). destruct e as [e|]; [discriminate|].
  unfold train_and_choose in T. destruct (set_up nt k j) as [[]|e] eqn:SU; [|discriminate].
  destruct (choose_sim k j z (epochs nt k) [] (mkSel None []) fs fs1 s L D T) as (run & LR & LE & EL & HF); auto.
  - cbn [sel_disposed]. rewrite app_nil_r. auto.
  - exact I.
  - exists run. split; [split; [auto|split; [auto|exact LE]]|]. split; [|exact HF].
    unfold evaluate_seed. cbn [fst snd]. cbn [length] in EL. change (Z.of_nat 0) with 0 in EL. rewrite EL. cbn [bind]. rewrite H. auto.
Qed.

(* ---- the runs of a candidate ---- *)

Fixpoint generators (k : nat) (zs : list Z) (runs : list (list (epoch M))) : list (Z * gen (table * str)) :=
  match zs, runs with z :: zs', run :: runs' => (z, (yielded k z 0 run, None)) :: generators k zs' runs' | _, _ => [] end.
Fixpoint run_records (k : nat) (zs : list Z) (runs : list (list (epoch M))) : list record :=
  match zs, runs with z :: zs', run :: runs' => records k z 0 run ++ run_records k zs' runs' | _, _ => [] end.

Lemma records_keys k z run : forall i k' z' e, In (k', z', e) (map fst (records k z i run)) -> k' = k /\ z' = z.
Proof.
  intros i k' z' e H. apply in_map_iff in H. destruct H as ([[[k1 z1] e1] x] & E & H). cbn [fst] in E. injection E as -> -> ->.
  apply records_in in H. tauto.
Qed.
Lemma run_records_keys k zs : forall runs k' z' e, In (k', z', e) (map fst (run_records k zs runs)) -> k' = k /\ In z' zs.
Proof.
  induction zs as [|z zs IH]; intros [|run runs] k' z' e H; try destruct H. cbn [run_records] in H. rewrite map_app in H. apply in_app_iff in H.
  destruct H as [H|H]; [apply records_keys in H; destruct H as [-> ->]; split; auto; left; auto|]. apply IH in H. destruct H as [-> H]. split; auto. right; auto.
Qed.

Lemma runs_sim k zs : forall j fs fs' d xs L D,
  evaluate_runs c nt dirs Neural k j (params_name (Z.of_nat k)) zs fs = (fs', (d, Ok xs)) ->
  held L D fs -> NoDup zs -> (forall z e, In z zs -> ~ In (k, z, e) (map fst L)) ->
  exists runs, length runs = length zs /\ (forall i run, nth_error runs i = Some run -> trained c nt k (j + i) run) /\
    evaluate_seeds (printed c) (fields c) (compared c) (params_name (Z.of_nat k)) (generators k zs runs) = (d, Ok xs) /\
    held (L ++ run_records k zs runs) (D ++ d) fs'.
Proof.
  induction zs as [|z zs IH]; cbn [evaluate_runs]; intros j fs fs' d xs L D H HH ND FR.
  - injection H as <- <- <-. exists []. split; auto. split; [intros [|i] run E; discriminate|]. split; auto. cbn. rewrite !app_nil_r. auto.
  - destruct (evaluate_run c nt dirs Neural k j (params_name (Z.of_nat k)) z fs) as [fs1 [d1 r1]] eqn:E1. cbn [fst snd] in H.
    destruct r1 as [x|e]; [|discriminate].
    destruct (evaluate_runs c nt dirs Neural k (S j) (params_name (Z.of_nat k)) zs fs1) as [fs2 [d2 r2]] eqn:E2. cbn [fst snd] in H.
    injection H as <- <- H. apply bind_ok_iff in H. destruct H as (ys & -> & H). injection H as <-.
    inversion ND as [|? ? NI ND']; subst.
    destruct (run_sim _ _ _ _ _ _ _ _ _ E1 HH (fun e => FR z e (or_introl eq_refl))) as (run & T1 & ES & H1).
    assert (FR' : forall z' e, In z' zs -> ~ In (k, z', e) (map fst (L ++ records k z 0 run))).
    { intros z' e Iz HI. rewrite map_app in HI. apply in_app_iff in HI. destruct HI as [HI|HI].
      - exact (FR z' e (or_intror Iz) HI).
      - apply records_keys in HI. destruct HI as [_ ->]. contradiction. }
    destruct (IH _ _ _ _ _ _ _ E2 H1 ND' FR') as (runs & LR & TR & EV & H2).
    exists (run :: runs). split; [cbn; auto|]. split; [|split].
    + intros [|i] r E; cbn [nth_error] in E; [injection E as <-; rewrite Nat.add_0_r; auto|].
      replace (j + S i)%nat with (S j + i)%nat by lia. auto.
    + cbn [generators evaluate_seeds]. rewrite ES, EV. reflexivity.
    + cbn [run_records]. rewrite !app_assoc. auto.
Qed.

Definition seeding_of (k : nat) (runs : list (list (epoch M))) : seeding (Z * gen (table * str)) :=
  match random_seed c with
  | OneSeed z => OneSeed (z, (yielded k z 0 (hd [] runs), None))
  | ManySeeds zs => ManySeeds (generators k zs runs)
  end.

Lemma params_sim k fs fs' d o L D :
  evaluate_params c nt dirs Neural k (params_name (Z.of_nat k)) fs = (fs', (d, Ok o)) ->
  held L D fs -> NoDup (runs_of (random_seed c)) -> (forall z e, In z (runs_of (random_seed c)) -> ~ In (k, z, e) (map fst L)) ->
  exists runs, length runs = length (runs_of (random_seed c)) /\ (forall j run, nth_error runs j = Some run -> trained c nt k j run) /\
    evaluate_candidate (printed c) (fields c) (compared c) (params_name (Z.of_nat k)) (seeding_of k runs) = (d, Ok o) /\
    held (L ++ run_records k (runs_of (random_seed c)) runs) (D ++ d) fs'.
Proof.
  intros H HH ND FR. unfold evaluate_params, seeding_of in *. destruct (random_seed c) as [z|zs] eqn:RS; cbn [runs_of] in *.
  - destruct (evaluate_run c nt dirs Neural k 0 (params_name (Z.of_nat k)) z fs) as [fs1 [d1 r1]] eqn:E1. cbn [fst snd] in H.
    injection H as <- <- H. apply bind_ok_iff in H. destruct H as (x & -> & H). injection H as <-.
    destruct (run_sim _ _ _ _ _ _ _ _ _ E1 HH (fun e => FR z e (or_introl eq_refl))) as (run & T1 & ES & H1).
    exists [run]. split; auto. split; [intros [|[|j]] r E; try discriminate; injection E as <-; auto|]. cbn [hd]. split.
    + cbn [evaluate_candidate]. rewrite ES. reflexivity.
    + cbn [run_records]. rewrite app_nil_r. auto.
  - destruct (evaluate_runs c nt dirs Neural k 0 (params_name (Z.of_nat k)) zs fs) as [fs1 [d1 r1]] eqn:E1. cbn [fst snd] in H.
    injection H as <- <- H. apply bind_ok_iff in H. destruct H as (xs & -> & H).
    destruct (runs_sim _ _ _ _ _ _ _ _ _ E1 HH ND FR) as (runs & LR & TR & EV & H1).
    exists runs. split; auto. split; auto. split; auto.
    cbn [evaluate_candidate]. unfold evaluate_average. rewrite EV. cbn [bind]. rewrite H. auto.
Qed.

(* ---- the search ---- *)

Context {P : Type}.

Fixpoint candidates (k : nat) (hyper : list P) (all : list (list (list (epoch M)))) : list (P * seeding (Z * gen (table * str))) :=
  match hyper, all with p :: hyper', runs :: all' => (p, seeding_of k runs) :: candidates (S k) hyper' all' | _, _ => [] end.
Fixpoint outcomes (k : nat) (cands : list (P * seeding (Z * gen (table * str)))) : list (P * (list str * result (list (option str * str) * option table))) :=
  match cands with
  | [] => []
  | pc :: rest => (fst pc, evaluate_candidate (printed c) (fields c) (compared c) (params_name (Z.of_nat k)) (snd pc)) :: outcomes (S k) rest
  end.
Fixpoint all_records (k : nat) (all : list (list (list (epoch M)))) : list record :=
  match all with [] => [] | runs :: all' => run_records k (runs_of (random_seed c)) runs ++ all_records (S k) all' end.

Definition all_trained (k : nat) (all : list (list (list (epoch M)))) : Prop :=
  forall i runs, nth_error all i = Some runs -> length runs = length (runs_of (random_seed c)) /\
    forall j run, nth_error runs j = Some run -> trained c nt (k + i) j run.

Lemma params_candidate k : candidate_path (params_name (Z.of_nat k)).
Proof. exists k. left. apply params_dir_name. Qed.

Lemma search_sim (hyper : list P) : NoDup (runs_of (random_seed c)) -> forall k s fs fs' s' L,
  search_params c nt dirs Neural k hyper s fs = (fs', (s', None)) ->
  held L (sel_disposed s) fs -> good_sel s -> (forall k' z e, (k <= k')%nat -> ~ In (k', z, e) (map fst L)) ->
  exists all, length all = length hyper /\ all_trained k all /\
    search_loop (fields c) (compared c) (Z.of_nat k) (outcomes k (candidates k hyper all)) s = (s', None) /\
    held (L ++ all_records k all) (sel_disposed s') fs'.
Proof.
  intros ND. induction hyper as [|p hyper IH]; cbn [search_params]; intros k s fs fs' s' L H HH G FR.
  - injection H as <- <-. exists []. split; auto. split; [intros [|i] runs E; discriminate|]. split; auto. cbn [all_records]. rewrite app_nil_r. auto.
  - destruct (evaluate_params c nt dirs Neural k (params_name (Z.of_nat k)) fs) as [fs1 [d r]] eqn:EP. cbn [fst snd] in H.
    destruct (do ms <- r; _) as [s2|x] eqn:B in H; [|discriminate].
    apply bind_ok_iff in B. destruct B as (ms & -> & CO).
    destruct (params_sim _ _ _ _ _ _ _ EP HH ND (fun z e _ => FR k z e (le_n _))) as (runs & LR & TR & EV & H1).
    destruct (consider_good _ _ _ _ _ CO G (params_candidate k)) as (G1 & l & ED & FL & DI). rewrite DI in H.
    cbn [sel_disposed] in ED.
    pose proof (held_dispose _ _ l _ H1 FL) as H2. rewrite <- ED in H2.
    assert (FR' : forall k' z e, (S k <= k')%nat -> ~ In (k', z, e) (map fst (L ++ run_records k (runs_of (random_seed c)) runs))).
    { intros k' z e Le HI. rewrite map_app in HI. apply in_app_iff in HI. destruct HI as [HI|HI].
      - revert HI. apply FR. lia.
      - apply run_records_keys in HI. lia. }
    destruct (IH _ _ _ _ _ _ H H2 G1 FR') as (all & LA & TA & SL & HF).
    exists (runs :: all). split; [cbn; auto|]. split; [|split].
    + intros [|i] rs E; cbn [nth_error] in E.
      * injection E as <-. split; auto. intros j run E. rewrite Nat.add_0_r. auto.
      * replace (k + S i)%nat with (S k + i)%nat by lia. auto.
    + cbn [candidates outcomes search_loop fst snd]. rewrite EV. cbn [bind].
      rewrite CO. replace (Z.of_nat k + 1) with (Z.of_nat (S k)) by lia. auto.
    + cbn [all_records]. rewrite app_assoc. auto.
Qed.
End Sim.
