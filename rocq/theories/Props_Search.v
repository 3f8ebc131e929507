(* Properties of experiments from their files, evaluation.py and grid_eval.py: C112 - C115.

   predict and score are what the testers do with a file, data what is in a file, seed_of and below python's generator, clock the
   time, l what a training does, dirs the listing of a directory. *)
From Coq Require Import String Ascii ZArith NArith QArith Bool Lia List.
From Verif Require Import Base BaseFacts Model_Datamodel Model_UDEval Model_Harness Spec_Harness Model_Training Model_Grid Spec_Grid Proofs_Datamodel Proofs_Harness Proofs_Grid5
  Model_Experiment Spec_Experiment Model_Search Spec_Search Proofs_Search3 Proofs_Search4.
Import ListNotations.
Open Scope Z_scope.

(* ---------------- an example ---------------- *)

(* a training with hyperparameters whose first value is n: two passes over the documents, then one epoch.  1 always gives a model
   of quality 5; others give quality 9 if the last pass began with document "a" and 1 if not *)
Definition ex_number (h : jheap leaf) (v : jval leaf) : Z :=
  match v with
  | VLeaf (LInt z) => z
  | VLeaf _ => 0
  | VRef a => match nth_error h a with Some ((_, VLeaf (LInt z)) :: _) => z | _ => 0 end
  end.
Definition ex_doc (s : string) : document := mkDoc (of_string s) [] [].
Definition ex_learner : learner Z :=
  mkLearner (fun _ _ => 2%nat) (fun _ _ _ _ => Ok tt) (fun _ _ => 1%nat)
    (fun h v _ ds _ => Ok (if Z.eqb (ex_number h v) 1 then 5
                           else match last ds [] with d :: _ => if str_eqb (dtext d) (of_string "a") then 9 else 1 | [] => 0 end))
    (fun _ _ _ _ => Ok tt).
Definition ex_predict (path : str) (m : Z) : result str := Ok [Z.to_N m].
Definition ex_score (path text : str) : result table :=
  let q := inject_Z (Z.of_N (hd 0%N text)) in Ok [(of_string "UPOS", mkScore q q q (Some q))].
Definition ex_data (path : str) : result (list document) := Ok [ex_doc "a"; ex_doc "b"].
(* a generator that counts *)
Definition ex_below (r : Z) (n : Z) : Z * Z := (r mod n, r + 1).
Definition ex_dirs (fs : files Z) (d : str) : list str := [].

Definition js (s : string) : json leaf := JLeaf (LStr (of_string s)).
Definition ex_train (shuffler : option (json leaf)) : json leaf :=
  JDict ((of_string "path", js "train.conll") :: match shuffler with Some j => [(of_string "shuffler", j)] | None => [] end).
Definition ex_settings (shuffler : option (json leaf)) (more : list (str * json leaf)) : json leaf :=
  JDict ([(of_string "model_dir", js "models");
          (of_string "metric_printer", JDict [(of_string "fields", JLeaf (LList [LStr (of_string "UPOS")]))]);
          (of_string "cmp_metric", JDict [(of_string "fields", JLeaf (LList [LStr (of_string "UPOS")])); (of_string "metric", js "f1")]);
          (of_string "train_set", ex_train shuffler);
          (of_string "dev_set", JDict [(of_string "path", js "dev.conll"); (of_string "results_path", js "out")]);
          (of_string "random_seed", JLeaf (LList [LInt 1]))] ++ more).
Definition ex_seeded : option (json leaf) := Some (JDict [(of_string "seed", JLeaf (LInt 0))]).
Definition ex_hyper (n : Z) : json leaf := JDict [(of_string "lr", JLeaf (LInt n)); (of_string "dim", JLeaf (LInt 50))].
Definition ex_grid : grid leaf := [(of_string "learning rate", [JDict [(of_string "lr", JLeaf (LInt 1))]; JDict [(of_string "lr", JLeaf (LInt 3))]])].
Definition ex_eval clock := evaluation ex_predict ex_score ex_data (fun z => z) ex_below clock ex_learner ex_dirs.
Definition ex_grid_eval clock := grid_evaluation ex_predict ex_score ex_data (fun z => z) ex_below clock ex_learner ex_dirs.
Definition ex_f1 (t : option table) : option (list Q) := option_map (map (fun e => s_f1 (snd e))) t.

Lemma ex_faithful : faithful ex_learner.
Proof.
  assert (N : forall h h' v v' r, stands h v r -> stands h' v' r -> ex_number h v = ex_number h' v').
  { intros h h' v v' [x|[|(k & j) d]] S S'.
    - cbn [stands] in *. subst. reflexivity.
    - destruct S as (a & o & -> & E & ->). destruct S' as (a' & o' & -> & E' & ->). cbn [ex_number]. rewrite E, E'. reflexivity.
    - destruct S as (a & o & -> & E & w & o1 & -> & W & _). destruct S' as (a' & o' & -> & E' & w' & o1' & -> & W' & _). cbn [ex_number]. rewrite E, E'.
      destruct j as [x|e]; cbn [stands] in W, W'; [subst; reflexivity|]. destruct W as (b & ? & -> & _). destruct W' as (b' & ? & -> & _). reflexivity. }
  intros h h' v v' r S S'. unfold ex_learner. cbn [l_passes l_setup l_epochs l_learn l_adapt]. rewrite (N h h' v v' r S S'). auto.
Qed.

(* ---------------- C112 ---------------- *)

(* When a grid search ends without an error, the hyperparameters it reports are the base with one alternative of each key of the grid,
   with every method.  The grid passed its check and its alternatives have dictionaries where the base has them. *)
Theorem C112_combination : forall (M R : Type) predict score data (seed_of : Z -> R) below clock (l : learner M) dirs name s e g fs fs' h rep,
  json_ok (JDict e) -> fitting e g ->
  grid_evaluation predict score data seed_of below clock l dirs name s (JDict e) g fs = (fs', Ok (h, rep)) ->
  exists v r, r_params rep = Some v /\ stands h v r /\ combination (JDict e) g r.
Proof.
  intros * O F H. destruct (grid_sets e g O F) as (vs & params & h0 & E & N & I & _). unfold grid_evaluation in H. rewrite E in H.
  destruct (evaluation_main _ _ _ _ _ _ _ _ _ _ _ _ _ _) as (fs1 & [rep0|x]) eqn:X; [|discriminate]. cbn [bind] in H.
  assert (h0 = h /\ rep0 = rep) as (-> & ->) by (split; congruence).
  destruct (main_read _ _ _ _ _ _ _ _ _ _ _ _ _ _ _ _ X) as (c & ds & t & _ & _ & Mn). destruct (reported _ _ _ _ _ _ _ _ N Mn) as (v & V & Iv).
  destruct (I v Iv) as (r & S & C). eauto.
Qed.
Print Assumptions C112_combination.

(* And no model is left: nothing is below the directory of models, and all files but results of the testers are as before. *)
Theorem C112_files : forall (M R : Type) predict score data (seed_of : Z -> R) below clock (l : learner M) dirs name s base g fs fs' x d,
  grid_evaluation predict score data seed_of below clock l dirs name s base g fs = (fs', Ok x) ->
  at_keys ["model_dir"]%string s = Some (JLeaf (LStr d)) -> d <> [] ->
  (forall p, within d p -> dict_get fs' p = None) /\ forall p, no_result s p -> dict_get fs' p = dict_get fs p.
Proof.
  intros * H D N. unfold grid_evaluation in H. destruct (grid_main base g) as [((vs & params) & h)|]; [|discriminate].
  destruct (evaluation_main _ _ _ _ _ _ _ _ _ _ _ _ _ _) as (fs1 & [rep|e]) eqn:X; [|discriminate].
  assert (fs1 = fs') as -> by congruence. eapply main_files; eauto.
Qed.
Print Assumptions C112_files.

(* two alternatives; the second is reported and only predictions stay *)
Example C112_case : fitting [(of_string "lr", JLeaf (LInt 0)); (of_string "dim", JLeaf (LInt 50))] ex_grid /\
  exists fs' h rep v, ex_grid_eval 0 (of_string "neural") (ex_settings None []) (ex_hyper 0) ex_grid [] = (fs', Ok (h, rep)) /\
    r_params rep = Some v /\ stands h v (ex_hyper 3) /\ ex_f1 (r_dev rep) = Some [9%Q] /\
    map fst fs' = map of_string ["out/params-0/1/epoch-0-dev.conll"; "out/params-1/1/epoch-0-dev.conll"]%string.
Proof.
  split; [split; [vm_compute; reflexivity|]|].
  - repeat (constructor; [|]); try constructor; try (cbn; repeat constructor; cbn; intuition discriminate);
      apply fits_intro; repeat constructor; eexists; (split; [reflexivity|apply fits_leaf]).
  - do 4 eexists. split; [vm_compute; reflexivity|]. split; [reflexivity|]. split; [|split; vm_compute; reflexivity].
    do 2 eexists. split; [reflexivity|]. split; [reflexivity|]. do 2 eexists. split; [reflexivity|]. split; [reflexivity|].
    do 2 eexists. split; [reflexivity|]. split; [reflexivity|]. reflexivity.
Qed.

(* ---------------- C113 ---------------- *)

(* In full: hyperparameters get the same scores in an experiment of their own as in a search among others, so the reported ones
   are at least as good as each of the others would be alone.

   It is false with a shuffler, even with a seed: dataset.py:28 keeps one generator, evaluation.py:292 builds one data set for all
   trainings, and so a training gets the documents in an order that depends on how many passes were made before it.  The reported
   hyperparameters may have other scores alone. *)
Theorem C113_scores_refuted :
  exists (M R : Type) predict score data (seed_of : Z -> R) below clock (l : learner M) dirs s zs hs r fs1 h rep v fs2 h' rep',
    faithful l /\ timeless s /\ prints s /\ seeds_are s zs /\ NoDup zs /\ In r hs /\
    evaluation predict score data seed_of below clock l dirs true (of_string "neural") s hs [] = (fs1, Ok (h, rep)) /\
    evaluation predict score data seed_of below clock l dirs true (of_string "neural") s [r] [] = (fs2, Ok (h', rep')) /\
    r_params rep = Some v /\ stands h v r /\ ~ same_scores rep rep'.
Proof.
  exists Z, Z, ex_predict, ex_score, ex_data, (fun z => z), ex_below, 0, ex_learner, ex_dirs,
    (ex_settings (Some (JDict [(of_string "seed", JLeaf (LInt 1))])) []), [1], [ex_hyper 1; ex_hyper 2], (ex_hyper 2).
  do 7 eexists. split; [exact ex_faithful|]. split; [right; eexists; reflexivity|]. split; [do 2 eexists; reflexivity|]. split; [right; reflexivity|].
  split; [repeat constructor; intros []|]. split; [right; left; reflexivity|]. split; [vm_compute; reflexivity|]. split; [vm_compute; reflexivity|].
  split; [reflexivity|]. split; [|intros (E & _); discriminate].
  do 2 eexists. split; [reflexivity|]. split; [reflexivity|]. do 2 eexists. split; [reflexivity|]. split; [reflexivity|].
  do 2 eexists. split; [reflexivity|]. split; [reflexivity|]. reflexivity.
Qed.
Print Assumptions C113_scores_refuted.

(* And others may be better alone than the reported ones. *)
Theorem C113_choice_refuted :
  exists (M R : Type) predict score data (seed_of : Z -> R) below clock (l : learner M) dirs s zs hs r fs1 h rep fs2 h' rep' sc sc' q q',
    faithful l /\ timeless s /\ prints s /\ seeds_are s zs /\ NoDup zs /\ In r hs /\
    evaluation predict score data seed_of below clock l dirs true (of_string "neural") s hs [] = (fs1, Ok (h, rep)) /\
    evaluation predict score data seed_of below clock l dirs true (of_string "neural") s [r] [] = (fs2, Ok (h', rep')) /\
    r_dev rep = Some sc /\ r_dev rep' = Some sc' /\ judged s sc q /\ judged s sc' q' /\ (q < q')%Q.
Proof.
  exists Z, Z, ex_predict, ex_score, ex_data, (fun z => z), ex_below, 0, ex_learner, ex_dirs, (ex_settings ex_seeded []), [1], [ex_hyper 1; ex_hyper 2], (ex_hyper 2).
  do 8 eexists. exists 5%Q, 9%Q. split; [exact ex_faithful|]. split; [right; eexists; reflexivity|]. split; [do 2 eexists; reflexivity|]. split; [right; reflexivity|].
  split; [repeat constructor; intros []|]. split; [right; left; reflexivity|]. split; [vm_compute; reflexivity|]. split; [vm_compute; reflexivity|].
  split; [reflexivity|]. split; [reflexivity|].
  split; [|split; [|reflexivity]].
  - exists [of_string "UPOS"], AF1. split; [reflexivity|]. split; [reflexivity|]. apply sum_worth. vm_compute. reflexivity.
  - exists [of_string "UPOS"], AF1. split; [reflexivity|]. split; [reflexivity|]. apply sum_worth. vm_compute. reflexivity.
Qed.
Print Assumptions C113_choice_refuted.

(* It is true without a shuffler, if the trainer only looks at what is in the dictionaries, something is printed and no seed is given
   twice: the reported hyperparameters get the same dev and test scores alone, with other files, at another time, whether or not
   models are deleted; and all others get no better dev scores alone. *)
Theorem C113_unshuffled_partial :
  forall (M R : Type) predict score data (seed_of : Z -> R) below clock clock' (l : learner M) dirs delete delete' s zs hs r fs fs1 fs2 fs3 h rep h' rep',
    faithful l -> unshuffled s -> prints s -> seeds_are s zs -> NoDup zs -> In r hs ->
    evaluation predict score data seed_of below clock l dirs delete (of_string "neural") s hs fs = (fs1, Ok (h, rep)) ->
    evaluation predict score data seed_of below clock' l dirs delete' (of_string "neural") s [r] fs2 = (fs3, Ok (h', rep')) ->
    at_least s rep rep' /\ forall v, r_params rep = Some v -> stands h v r -> same_scores rep rep'.
Proof.
  intros * F U P Sd ND I H H'. unfold evaluation in H, H'.
  destruct (loaded hs) as (vs & h0 & E & L). destruct (loaded [r]) as (vs' & h0' & E' & L'). rewrite E in H. rewrite E' in H'.
  inversion L' as [|v' ? ? ? S' L0]; subst. inversion L0; subst.
  destruct (evaluation_main _ _ _ _ _ _ _ _ _ _ _ _ vs _) as (fs1' & [rep0|x]) eqn:X; [|discriminate]. cbn [bind] in H.
  destruct (evaluation_main _ _ _ _ _ _ _ _ _ _ _ _ [v'] _) as (fs3' & [rep0'|x]) eqn:X'; [|discriminate]. cbn [bind] in H'.
  assert (h0 = h /\ rep0 = rep) as (-> & ->) by (split; congruence). assert (h0' = h' /\ rep0' = rep') as (-> & ->) by (split; congruence).
  apply In_nth_error in I. destruct I as (i & I). destruct (Forall2_nth_r _ _ _ _ _ L I) as (v & V & S).
  assert (Nv : vs <> []) by (intros ->; destruct i; discriminate).
  destruct (main_alone _ _ _ _ _ _ _ _ _ _ _ _ _ _ _ _ _ _ _ _ _ _ _ _ F U P Sd ND Nv S' X X') as (A & B).
  split; [eapply A; eauto|exact B].
Qed.
Print Assumptions C113_unshuffled_partial.

(* And the same of a grid search and all combinations of its grid. *)
Theorem C113_grid_partial :
  forall (M R : Type) predict score data (seed_of : Z -> R) below clock clock' (l : learner M) dirs delete s zs e g r fs fs1 fs2 fs3 h rep h' rep',
    faithful l -> unshuffled s -> prints s -> seeds_are s zs -> NoDup zs -> json_ok (JDict e) -> fitting e g -> combination (JDict e) g r ->
    grid_evaluation predict score data seed_of below clock l dirs (of_string "neural") s (JDict e) g fs = (fs1, Ok (h, rep)) ->
    evaluation predict score data seed_of below clock' l dirs delete (of_string "neural") s [r] fs2 = (fs3, Ok (h', rep')) ->
    at_least s rep rep' /\ forall v, r_params rep = Some v -> stands h v r -> same_scores rep rep'.
Proof.
  intros * F U P Sd ND O Fg C H H'. unfold grid_evaluation in H. unfold evaluation in H'.
  destruct (grid_sets e g O Fg) as (vs & params & h0 & E & N & _ & I). destruct (loaded [r]) as (vs' & h0' & E' & L'). rewrite E in H. rewrite E' in H'.
  inversion L' as [|v' ? ? ? S' L0]; subst. inversion L0; subst.
  destruct (evaluation_main _ _ _ _ _ _ _ _ _ _ _ _ vs _) as (fs1' & [rep0|x]) eqn:X; [|discriminate]. cbn [bind] in H.
  destruct (evaluation_main _ _ _ _ _ _ _ _ _ _ _ _ [v'] _) as (fs3' & [rep0'|x]) eqn:X'; [|discriminate]. cbn [bind] in H'.
  assert (h0 = h /\ rep0 = rep) as (-> & ->) by (split; congruence). assert (h0' = h' /\ rep0' = rep') as (-> & ->) by (split; congruence).
  destruct (I r C) as (i & v & V & S).
  destruct (main_alone _ _ _ _ _ _ _ _ _ _ _ _ _ _ _ _ _ _ _ _ _ _ _ _ F U P Sd ND N S' X X') as (A & B).
  split; [eapply A; eauto|exact B].
Qed.
Print Assumptions C113_grid_partial.

(* without a shuffler: alone and among two *)
Example C113_case : unshuffled (ex_settings None []) /\ prints (ex_settings None []) /\ seeds_are (ex_settings None []) [1] /\
  (exists fs' h rep v, ex_eval 0 true (of_string "neural") (ex_settings None []) [ex_hyper 1; ex_hyper 2] [] = (fs', Ok (h, rep)) /\
     r_params rep = Some v /\ ex_number h v = 2 /\ ex_f1 (r_dev rep) = Some [9%Q]) /\
  (exists fs' h rep, ex_eval 7 false (of_string "neural") (ex_settings None []) [ex_hyper 2] [(of_string "x", Other [])] = (fs', Ok (h, rep)) /\
     ex_f1 (r_dev rep) = Some [9%Q]) /\
  (exists fs' h rep, ex_eval 7 false (of_string "neural") (ex_settings None []) [ex_hyper 1] [(of_string "x", Other [])] = (fs', Ok (h, rep)) /\
     ex_f1 (r_dev rep) = Some [5%Q]).
Proof.
  split; [reflexivity|]. split; [do 2 eexists; reflexivity|]. split; [right; reflexivity|].
  split; [do 4 eexists; split; [vm_compute; reflexivity|]; split; [reflexivity|]; split; vm_compute; reflexivity|].
  split; do 3 eexists; (split; [vm_compute; reflexivity|]); vm_compute; reflexivity.
Qed.

(* ---------------- C114 ---------------- *)

(* In full: when something is missing in the settings, an experiment ends before anything is trained.

   It is false of the test set, for all experiments: evaluation.py:276-277 look at it after the search.  If an experiment without a
   test set succeeds, the same one with a test set that has no path trains and writes the same and then ends with a KeyError. *)
Theorem C114_test_set_refuted :
  forall (M R : Type) predict score data (seed_of : Z -> R) below clock (l : learner M) dirs name d hs fs fs' x,
    dict_get d (of_string "test_set") = None ->
    evaluation predict score data seed_of below clock l dirs false name (JDict d) hs fs = (fs', Ok x) ->
    evaluation predict score data seed_of below clock l dirs false name (JDict (d ++ [(of_string "test_set", JDict [])])) hs fs = (fs', Err EKey).
Proof. intros. eapply late_test_set; eauto. Qed.
Print Assumptions C114_test_set_refuted.

(* It is true of everything else that is needed: the directory of models, the printed and compared metrics, the files for training and
   dev and the seeds.  Nothing was changed then. *)
Theorem C114_missing_partial :
  forall (M R : Type) predict score data (seed_of : Z -> R) below clock (l : learner M) dirs delete name s keys hs base g fs,
    In keys required -> at_keys keys s = None ->
    (exists e, evaluation predict score data seed_of below clock l dirs delete name s hs fs = (fs, Err e)) /\
    (exists e, grid_evaluation predict score data seed_of below clock l dirs name s base g fs = (fs, Err e)).
Proof.
  intros * I N. split.
  - unfold evaluation. destruct (load_list hs []) as (vs & h). unfold evaluation_main.
    destruct (read_missing predict score data seed_of below clock delete name s fs keys I N) as (e & ->). cbn [bind]. eauto.
  - unfold grid_evaluation. destruct (grid_main base g) as [((vs & params) & h)|e]; [|eauto]. unfold evaluation_main.
    destruct (read_missing predict score data seed_of below clock true name s fs keys I N) as (e & ->). cbn [bind]. eauto.
Qed.
Print Assumptions C114_missing_partial.

(* a test set without a path, and settings without seeds *)
Example C114_case :
  (exists fs' x, ex_eval 0 false (of_string "neural") (ex_settings None []) [ex_hyper 1] [] = (fs', Ok x) /\
     map fst fs' = map of_string ["models/params-0/1/epoch-0"; "out/params-0/1/epoch-0-dev.conll"]%string /\
     ex_eval 0 false (of_string "neural") (ex_settings None [(of_string "test_set", JDict [])]) [ex_hyper 1] [] = (fs', Err EKey)) /\
  match ex_settings None [] with
  | JDict d => at_keys ["random_seed"]%string (JDict (removelast d)) = None /\
      ex_eval 0 false (of_string "neural") (JDict (removelast d)) [ex_hyper 1] [] = ([], Err EKey)
  | JLeaf _ => False
  end.
Proof.
  split; [do 2 eexists; split; [vm_compute; reflexivity|]; split; vm_compute; reflexivity|]. vm_compute. split; reflexivity.
Qed.

(* ---------------- C115 ---------------- *)

(* In full: repeating an experiment with the same settings, hyperparameters and data gives the same report.

   It is false with a shuffler without a seed: dataset.py:24-27 take the time. *)
Theorem C115_time_refuted :
  exists (M R : Type) predict score data (seed_of : Z -> R) below clock clock' (l : learner M) dirs s zs hs fs1 h rep fs2 h' rep',
    faithful l /\ prints s /\ seeds_are s zs /\ NoDup zs /\
    evaluation predict score data seed_of below clock l dirs true (of_string "neural") s hs [] = (fs1, Ok (h, rep)) /\
    evaluation predict score data seed_of below clock' l dirs true (of_string "neural") s hs [] = (fs2, Ok (h', rep')) /\
    r_params rep <> r_params rep' /\ r_dev rep <> r_dev rep'.
Proof.
  exists Z, Z, ex_predict, ex_score, ex_data, (fun z => z), ex_below, 0, 1, ex_learner, ex_dirs, (ex_settings (Some (JDict [])) []), [1], [ex_hyper 1; ex_hyper 2].
  do 6 eexists. split; [exact ex_faithful|]. split; [do 2 eexists; reflexivity|]. split; [right; reflexivity|].
  split; [repeat constructor; intros []|]. split; [vm_compute; reflexivity|]. split; [vm_compute; reflexivity|]. split; discriminate.
Qed.
Print Assumptions C115_time_refuted.

(* It is true if there is no shuffler or it has a seed, something is printed, and no seed is given twice: at another time, with other
   files, and whether or not models are deleted. *)
Theorem C115_timeless_partial :
  forall (M R : Type) predict score data (seed_of : Z -> R) below clock clock' (l : learner M) dirs delete delete' s zs hs fs fs1 fs2 fs3 h rep h' rep',
    timeless s -> prints s -> seeds_are s zs -> NoDup zs -> hs <> [] ->
    evaluation predict score data seed_of below clock l dirs delete (of_string "neural") s hs fs = (fs1, Ok (h, rep)) ->
    evaluation predict score data seed_of below clock' l dirs delete' (of_string "neural") s hs fs2 = (fs3, Ok (h', rep')) ->
    h = h' /\ rep = rep'.
Proof.
  intros * U P Sd ND N H H'. unfold evaluation in H, H'. destruct (loaded hs) as (vs & h0 & E & L). rewrite E in H, H'.
  assert (Nv : vs <> []) by (intros ->; inversion L; subst; congruence).
  destruct (evaluation_main _ _ _ _ _ _ _ _ _ _ _ _ vs fs) as (fs1' & [rep0|x]) eqn:X; [|discriminate]. cbn [bind] in H.
  destruct (evaluation_main _ _ _ _ _ _ _ _ _ _ _ _ vs fs2) as (fs3' & [rep0'|x]) eqn:X'; [|discriminate]. cbn [bind] in H'.
  assert (h0 = h /\ rep0 = rep) as (-> & ->) by (split; congruence). assert (h = h' /\ rep0' = rep') as (-> & ->) by (split; congruence).
  split; auto. eapply main_repeated; eauto.
Qed.
Print Assumptions C115_timeless_partial.

(* the same search at two times *)
Example C115_case : timeless (ex_settings ex_seeded []) /\
  exists fs1 fs2 x, ex_eval 0 true (of_string "neural") (ex_settings ex_seeded []) [ex_hyper 1; ex_hyper 2; ex_hyper 3] [] = (fs1, Ok x) /\
    ex_eval 3 false (of_string "neural") (ex_settings ex_seeded []) [ex_hyper 1; ex_hyper 2; ex_hyper 3] [(of_string "x", Other [])] = (fs2, Ok x) /\
    ex_f1 (r_dev (snd x)) = Some [9%Q] /\ option_map (ex_number (fst x)) (r_params (snd x)) = Some 3.
Proof.
  split; [right; eexists; reflexivity|]. do 3 eexists. split; [vm_compute; reflexivity|]. split; [vm_compute; reflexivity|]. split; vm_compute; reflexivity.
Qed.
