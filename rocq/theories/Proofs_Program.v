(* The programs from the command line to the files. *)
From Coq Require Import String ZArith NArith QArith Bool Lia List.
From Verif Require Import Base BaseFacts Proofs_Datamodel Model_Datamodel Model_UDEval Model_Harness Spec_Harness Model_Training Model_Grid Model_Experiment Spec_Experiment
  Proofs_Experiment4 Proofs_Experiment6 Model_Search Spec_Search Proofs_Search3 Proofs_Search4 Model_Cli Spec_Cli Proofs_Cli Proofs_Cli2 Model_Program.
Import ListNotations.
Open Scope Z_scope.

Lemma checked_started {A} (r : result A) a : checked r = Started a -> r = Ok a.
Proof. destruct r; [|discriminate]. intro E. now injection E as <-. Qed.

Section Program.
Context {M R : Type}.
Variable parse_json : str -> result parsed.
Variables (predict : str -> M -> result str) (score : str -> str -> result table) (data : str -> result (list document)).
Variables (seed_of : Z -> R) (below : R -> Z -> Z * R) (clock : Z) (l : learner M) (dirs : files M -> str -> list str).

Notation run_evaluation := (evaluation_program parse_json predict score data seed_of below clock l dirs).
Notation run_grid := (grid_program parse_json predict score data seed_of below clock l dirs).

(* what the arguments are when a program starts *)
Lemma arguments_inv p files gss chunks a : p = evaluation_parser \/ p = grid_parser -> Forall2 (says p files) gss chunks -> places_of (concat gss) = [] ->
  parse_arguments parse_json p files (concat chunks) = Started a ->
  load_json parse_json files (value_of (of_string "settings") (concat gss)) = Ok (a_settings a) /\
  load_json parse_json files (value_of (of_string "hypers") (concat gss)) = Ok (a_hyperparams a) /\
  a_method a = value_of (of_string "method") (concat gss) /\ a_delete_after a = negb (Nat.eqb (times (of_string "delete_after") (concat gss)) 0).
Proof.
  intros O F L E. destruct (understood p files gss chunks) as (ns & P & H); [destruct O as [-> | ->]; unfold ours; auto | exact F | rewrite L; destruct O as [-> | ->]; reflexivity |].
  unfold parse_arguments in E. rewrite P in E. cbn [then_] in E. apply checked_started in E.
  pose proof (switched_mem (concat gss) ns (of_string "delete_after") H) as Mm. destruct H as (_ & H2 & _). rewrite !H2 in E.
  destruct (load_json parse_json files (value_of (of_string "settings") (concat gss))); [|discriminate]. cbn [bind] in E.
  destruct (load_json parse_json files (value_of (of_string "hypers") (concat gss))); [|discriminate]. cbn [bind] in E. injection E as <-.
  cbn [a_settings a_method a_hyperparams a_delete_after]. auto.
Qed.

Lemma evaluation_inv gss chunks fs fs' r : Forall2 (says evaluation_parser (texts fs)) gss chunks -> places_of (concat gss) = [] ->
  run_evaluation (concat chunks) fs = Started (fs', r) ->
  exists s h name, load_json parse_json (texts fs) (value_of (of_string "settings") (concat gss)) = Ok (PDict s) /\
    evaluation predict score data seed_of below clock l dirs (negb (Nat.eqb (times (of_string "delete_after") (concat gss)) 0)) name s h fs = (fs', r).
Proof.
  intros F L E. apply then_started in E. destruct E as (a & E & S). eapply arguments_inv in E; eauto. destruct E as (E1 & E2 & _ & E4). rewrite E4 in S.
  destruct (a_settings a) as [s| |]; try discriminate. destruct (a_hyperparams a) as [h|h|]; try discriminate; injection S as S; exists s; eauto.
Qed.

Lemma main_grows name s h vs fs fs' r : evaluation_main predict score data seed_of below clock l dirs false name s h vs fs = (fs', r) -> grows fs fs'.
Proof.
  unfold evaluation_main. destruct (read_settings predict score data seed_of below clock false name s fs) as [(c & ds)|e] eqn:Rd; [|intro H; injection H as <- _; apply grows_refl].
  destruct (read_inv _ _ _ _ _ _ _ _ _ _ _ _ Rd) as ((_ & _ & _ & _ & _ & _ & _ & De & _) & _).
  destruct (read_test predict score s) as [t|e].
  - intro H. eapply (kept (with_test c t)) in H; [|exact De]. exact (proj1 H).
  - destruct (get_trainer name) as [t|e']; [|intro H; injection H as <- _; apply grows_refl].
    destruct (search_params c _ dirs t 0 vs (mkSel None []) fs) as (fs1 & (se & x)) eqn:S. intro H. injection H as <- _.
    apply (R_search c _ dirs grows grows_refl grows_trans (grows_save c) (grows_write c) (grows_dispose c De) _ _ _ _ _ _ _ _ S I I).
Qed.

Lemma evaluation_kept gss chunks fs fs' r : Forall2 (says evaluation_parser (texts fs)) gss chunks -> places_of (concat gss) = [] ->
  times (of_string "delete_after") (concat gss) = 0%nat -> run_evaluation (concat chunks) fs = Started (fs', r) ->
  forall p, dict_get fs p <> None -> dict_get fs' p <> None.
Proof.
  intros F L T E. apply (evaluation_inv gss) in E; auto. destruct E as (s & h & name & _ & E). rewrite T in E. cbn [Nat.eqb negb] in E.
  unfold evaluation in E. destruct (load_list h []) as (vs & hp). destruct (evaluation_main _ _ _ _ _ _ _ _ _ _ _ _ _ _) as (fs1 & rep) eqn:X.
  injection E as -> _. apply main_grows in X. exact X.
Qed.

Lemma evaluation_stays gss chunks fs fs' x s d zs z k e : Forall2 (says evaluation_parser (texts fs)) gss chunks -> places_of (concat gss) = [] ->
  times (of_string "delete_after") (concat gss) = 0%nat -> value_of (of_string "method") (concat gss) = Some (of_string "neural") ->
  run_evaluation (concat chunks) fs = Started (fs', Ok x) ->
  load_json parse_json (texts fs) (value_of (of_string "settings") (concat gss)) = Ok (PDict s) -> at_keys ["model_dir"]%string s = Some (JLeaf (LStr d)) ->
  seeds_are s zs -> In z zs ->
  (k = 0%nat /\ (exists j, load_json parse_json (texts fs) (value_of (of_string "hypers") (concat gss)) = Ok (PDict j)) \/
   exists hs, load_json parse_json (texts fs) (value_of (of_string "hypers") (concat gss)) = Ok (PList hs) /\ (k < length hs)%nat) ->
  (forall h v, (e < l_epochs l h v)%nat) ->
  dict_get fs' (based d (epoch_dir (params_dir k) z e)) <> None.
Proof.
  intros F L T Me E Es D Sd Iz Hk He. apply then_started in E. destruct E as (a & E & S). eapply arguments_inv in E; eauto. destruct E as (E1 & E2 & E3 & E4). rewrite E4, T in S. cbn [Nat.eqb negb] in S.
  assert (Nm : method_of a = of_string "neural") by (unfold method_of; rewrite E3, Me; reflexivity). rewrite Nm in S.
  assert (As : a_settings a = PDict s) by congruence. rewrite As in S.
  assert (G : exists hs, (k < length hs)%nat /\ evaluation predict score data seed_of below clock l dirs false (of_string "neural") s hs fs = (fs', Ok x)).
  { destruct Hk as [[-> [j Hj]] | (hs & Hj & Lk)].
    - assert (a_hyperparams a = PDict j) as X by congruence. rewrite X in S. injection S as S. exists [j]. split; [cbn; lia | exact S].
    - assert (a_hyperparams a = PList hs) as X by congruence. rewrite X in S. injection S as S. exists hs. split; [exact Lk | exact S]. }
  clear S. destruct G as (hs & Lk & S). unfold evaluation in S. destruct (loaded hs) as (vs & hp & Ld & St). rewrite Ld in S.
  destruct (evaluation_main _ _ _ _ _ _ _ _ _ _ _ _ _ _) as (fs1 & [rep|y]) eqn:X; [|discriminate].
  injection S as -> _. apply main_read in X. destruct X as (c & ds & t & Rd & _ & Mn).
  destruct (read_inv _ _ _ _ _ _ _ _ _ _ _ _ Rd) as (((j & A & B) & _ & _ & _ & _ & _ & _ & De & _) & _).
  rewrite D in A. injection A as <-. cbn in B. injection B as ->.
  pose proof (read_seeds _ _ _ _ _ _ _ _ _ _ _ _ _ Sd Rd) as Sz.
  assert (Lv : (k < length vs)%nat) by (rewrite (Forall2_length' _ _ _ St); exact Lk).
  pose proof (main_saves (with_test c t) _ dirs De vs fs fs' rep Mn k z e Lv) as Q. cbn [with_test random_seed] in Q. rewrite Sz in Q. specialize (Q Iz).
  unfold model_file in Q. cbn [with_test model_dir] in Q. apply Q. cbn [training_of epochs].
  destruct (nth_error vs k) eqn:Nv; [apply He|]. apply nth_error_None in Nv. lia.
Qed.

Lemma evaluation_deleted gss chunks fs fs' x s d : Forall2 (says evaluation_parser (texts fs)) gss chunks -> places_of (concat gss) = [] ->
  times (of_string "delete_after") (concat gss) <> 0%nat -> run_evaluation (concat chunks) fs = Started (fs', Ok x) ->
  load_json parse_json (texts fs) (value_of (of_string "settings") (concat gss)) = Ok (PDict s) -> at_keys ["model_dir"]%string s = Some (JLeaf (LStr d)) -> d <> [] ->
  (forall p, within d p -> dict_get fs' p = None) /\ forall p, no_result s p -> dict_get fs' p = dict_get fs p.
Proof.
  intros F L T E Es D N. apply (evaluation_inv gss) in E; auto. destruct E as (s' & h & name & Es' & E). assert (s' = s) as -> by congruence.
  destruct (Nat.eqb_spec (times (of_string "delete_after") (concat gss)) 0); [contradiction|]. cbn [negb] in E.
  unfold evaluation in E. destruct (load_list h []) as (vs & hp). destruct (evaluation_main _ _ _ _ _ _ _ _ _ _ _ _ _ _) as (fs1 & [rep|e]) eqn:X; [|discriminate].
  injection E as -> _. eapply main_files; eauto.
Qed.

Lemma grid_deleted gss chunks fs fs' x s d : Forall2 (says grid_parser (texts fs)) gss chunks -> places_of (concat gss) = [] ->
  run_grid (concat chunks) fs = Started (fs', Ok x) ->
  load_json parse_json (texts fs) (value_of (of_string "settings") (concat gss)) = Ok (PDict s) -> at_keys ["model_dir"]%string s = Some (JLeaf (LStr d)) -> d <> [] ->
  (forall p, within d p -> dict_get fs' p = None) /\ forall p, no_result s p -> dict_get fs' p = dict_get fs p.
Proof.
  intros F L E Es D N. apply then_started in E. destruct E as ((a & g) & E & S). apply then_started in E. destruct E as (ns & _ & E).
  apply then_started in E. destruct E as (g' & _ & E). apply then_started in E. destruct E as (a' & E & Ea). injection Ea as -> ->.
  eapply arguments_inv in E; eauto. destruct E as (E1 & _). cbn [fst snd] in S. assert (a_settings a = PDict s) as X by congruence. rewrite X in S.
  destruct (a_hyperparams a) as [h| |]; try discriminate. destruct g as [| |g]; try discriminate. injection S as S.
  unfold grid_evaluation in S. destruct (grid_main h g) as [((vs & params) & hp)|]; [|discriminate].
  destruct (evaluation_main _ _ _ _ _ _ _ _ _ _ _ _ _ _) as (fs1 & [rep|e]) eqn:Y; [|discriminate]. injection S as -> _. eapply main_files; eauto.
Qed.

(* only the values matter for the grid *)
Lemma grid_values gss chunks gss' chunks' fs : Forall2 (says grid_parser (texts fs)) gss chunks -> Forall2 (says grid_parser (texts fs)) gss' chunks' ->
  places_of (concat gss) = [] -> places_of (concat gss') = [] -> (forall d, value_of d (concat gss) = value_of d (concat gss')) ->
  run_grid (concat chunks) fs = run_grid (concat chunks') fs.
Proof.
  intros F F' L L' V. destruct (understood grid_parser (texts fs) gss chunks) as (ns & P & (_ & H2 & _)); [unfold ours; auto | exact F | now rewrite L |].
  destruct (understood grid_parser (texts fs) gss' chunks') as (ns' & P' & (_ & H2' & _)); [unfold ours; auto | exact F' | now rewrite L' |].
  unfold grid_program, grid_arguments, parse_arguments. rewrite P, P'. cbn [then_]. rewrite !H2, !H2', !V.
  destruct (checked (load_json parse_json (texts fs) (value_of (of_string "grid") (concat gss')))); cbn [then_]; auto.
  destruct (load_json parse_json (texts fs) (value_of (of_string "settings") (concat gss'))); cbn [bind checked then_]; auto.
  destruct (load_json parse_json (texts fs) (value_of (of_string "hypers") (concat gss'))); cbn [bind checked then_]; auto.
Qed.
End Program.
