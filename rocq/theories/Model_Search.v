(* Model of experiments from their files: main, __build_estimator, __build_tester and __build_dataset of
   babylondigger/evaluation/evaluation.py:253-324 with the settings as read from a json file, and the whole of main of
   babylondigger/evaluation/grid_eval.py:62-70.  Definitions only.

   The search itself is that of Model_Experiment, the grid that of Model_Grid, shuffling that of Model_Training.

   Simplifications: lists in json files contain no dictionaries.  A value of a wrong type in the settings raises a TypeError
   where it is read, and a compared metric that is no attribute of scores raises where it is read; the program notices some of
   them only when they are used.  What a training does depends on the hyperparameters, the seed, the documents in the order in
   which it gets them and the dev scores; the number of times it goes through the documents before the first epoch depends on
   the hyperparameters.  Neither experiments nor their files change the data sets. *)
From Coq Require Import String Ascii ZArith NArith QArith Bool List.
From Verif Require Import Base Model_Datamodel Model_UDEval Model_Harness Model_Training Model_Grid Model_Experiment.
Import ListNotations.
Open Scope Z_scope.

(* what is in a json file besides dictionaries *)
Inductive leaf := LNull | LBool (b : bool) | LInt (z : Z) | LFloat (q : Q) | LStr (s : str) | LList (l : list leaf).

(* settings[key] *)
Definition item (j : json leaf) (key : str) : result (json leaf) :=
  match j with JDict d => of_option EKey (dict_get d key) | JLeaf _ => Err EType end.
Definition string_of (j : json leaf) : result str := match j with JLeaf (LStr s) => Ok s | _ => Err EType end.
Definition int_of (j : json leaf) : result Z := match j with JLeaf (LInt z) => Ok z | _ => Err EType end.
Definition strings_of (j : json leaf) : result (list str) :=
  match j with JLeaf (LList l) => mapM (fun x => string_of (JLeaf x)) l | _ => Err EType end.
(* getattr(score, metric), evaluation.py:291 *)
Definition attr_of (s : str) : result attr :=
  if str_eqb s (of_string "precision") then Ok APrecision
  else if str_eqb s (of_string "recall") then Ok ARecall
  else if str_eqb s (of_string "f1") then Ok AF1
  else if str_eqb s (of_string "aligned_accuracy") then Ok AAligned
  else Err EAttr.
(* lines 301-307 *)
Definition seeding_from (j : json leaf) : result (seeding Z) :=
  match j with
  | JLeaf (LList l) => do zs <- mapM (fun x => int_of (JLeaf x)) l; Ok (ManySeeds zs)
  | _ => do z <- int_of j; Ok (OneSeed z)
  end.
Definition seeds_of (s : seeding Z) : list Z := match s with OneSeed z => [z] | ManySeeds zs => zs end.

(* the arguments of ShuffledDataset, evaluation.py:320-323, dataset.py:20-28: seed and batch size.  Other names are a TypeError;
   without a seed the time is taken *)
Definition shuffler_of (clock : Z) (j : json leaf) : result (Z * Z) :=
  match j with
  | JLeaf _ => Err EType
  | JDict d =>
      do _ <- raise_if (negb (forallb (fun k => str_eqb k (of_string "seed") || str_eqb k (of_string "max_batch_size")) (dict_keys d))) EType;
      do seed <- (match dict_get d (of_string "seed") with None => Ok clock | Some (JLeaf LNull) => Ok clock | Some j => int_of j end);
      do size <- (match dict_get d (of_string "max_batch_size") with None => Ok 50 | Some j => int_of j end);
      Ok (seed, size)
  end.

(* NeuralTaggerTrainer.train, neural_tagger.py:92-138, for hyperparameters that are an object on a heap: how often it goes
   through the documents before the first epoch, building and initializing, the number of epochs, the model after an epoch and
   what is computed from the dev scores.  Documents are those of all passes of this training so far. *)
Record learner (M : Type) := mkLearner {
  l_passes : jheap leaf -> jval leaf -> nat;
  l_setup : jheap leaf -> jval leaf -> Z -> list (list document) -> result unit;
  l_epochs : jheap leaf -> jval leaf -> nat;
  l_learn : jheap leaf -> jval leaf -> Z -> list (list document) -> list table -> result M;
  l_adapt : jheap leaf -> jval leaf -> Z -> list table -> result unit
}.
Arguments mkLearner {M}.
Arguments l_passes {M}.
Arguments l_setup {M}.
Arguments l_epochs {M}.
Arguments l_learn {M}.
Arguments l_adapt {M}.

Section Search.
Variables (M R : Type).
(* FileTaggerTester for a file: the predictions of a model for its sentences and the scores of predictions *)
Variables (predict : str -> M -> result str) (score : str -> str -> result table).
(* the documents of a file *)
Variable data : str -> result (list document).
(* random.Random and time.time *)
Variables (seed_of : Z -> R) (below : R -> Z -> Z * R) (clock : Z).
Variable l : learner M.
Variable directories : files M -> str -> list str.

(* __build_tester, evaluation.py:312-315; no path for results is an empty one (line 43) *)
Definition build_tester (j : json leaf) : result (tester M) :=
  do p <- item j (of_string "path");
  do path <- string_of p;
  do results <- (match item j (of_string "results_path") with
                 | Err _ => Ok []
                 | Ok (JLeaf LNull) => Ok []
                 | Ok r => string_of r
                 end);
  Ok (mkTester results (predict path) (score path)).

(* __build_dataset, evaluation.py:318-324: the file and how it is shuffled *)
Definition build_dataset (j : json leaf) : result (str * option (Z * Z)) :=
  do p <- item j (of_string "path");
  do path <- string_of p;
  match item j (of_string "shuffler") with
  | Err _ => Ok (path, None)
  | Ok s => do sh <- shuffler_of clock s; Ok (path, Some sh)
  end.

(* the n-th pass over the data set, from 0.  There is one data set for all trainings: each pass of a shuffled one draws from the
   same generator (dataset.py:28,33) *)
Definition nth_pass (ds : str * option (Z * Z)) (n : nat) : result (list document) :=
  do docs <- data (fst ds);
  match snd ds with
  | None => Ok docs
  | Some (seed, size) => snd (shuffled_pass seed_of below size (Nat.iter n (fun r => snd (below r 1000000)) (seed_of seed)) docs)
  end.

(* how many passes a training makes *)
Definition passes_of (h : jheap leaf) (v : jval leaf) : nat := (l_passes l h v + l_epochs l h v)%nat.
(* how many passes were made before the training with the k-th hyperparameters and the j-th of n seeds *)
Definition passes_before (h : jheap leaf) (vs : list (jval leaf)) (n k j : nat) : nat :=
  (list_sum (map (fun v => n * passes_of h v) (firstn k vs)) + match nth_error vs k with Some v => j * passes_of h v | None => 0 end)%nat.

(* all trainings of an experiment, for Model_Experiment *)
Definition training_of (pass : nat -> result (list document)) (h : jheap leaf) (vs : list (jval leaf)) (zs : list Z) : training M :=
  mkTraining
    (fun k j => do v <- of_option EStop (nth_error vs k); do z <- of_option EStop (nth_error zs j);
                do ds <- mapM pass (seq (passes_before h vs (length zs) k j) (l_passes l h v)); l_setup l h v z ds)
    (fun k => match nth_error vs k with Some v => l_epochs l h v | None => O end)
    (fun k j seen => do v <- of_option EStop (nth_error vs k); do z <- of_option EStop (nth_error zs j);
                     do ds <- mapM pass (seq (passes_before h vs (length zs) k j) (l_passes l h v + S (length seen))); l_learn l h v z ds seen)
    (fun k j seen => do v <- of_option EStop (nth_error vs k); do z <- of_option EStop (nth_error zs j); l_adapt l h v z seen).

(* the beginning of main and __build_estimator, evaluation.py:253-309, up to the search: what is read, in this order *)
Definition read_settings (delete : bool) (method_name : str) (s : json leaf) (fs : files M)
  : result (settings M * (str * option (Z * Z))) :=
  do _ <- (if delete
           then do j <- item s (of_string "model_dir"); do d <- string_of j; raise_if (is_filled d fs) EValue
           else Ok tt);
  do j <- item s (of_string "metric_printer"); do j <- item j (of_string "fields"); do printed <- strings_of j;
  do _ <- get_trainer method_name;
  do cmp <- item s (of_string "cmp_metric");
  do j <- item cmp (of_string "fields"); do fields <- strings_of j;
  do j <- item cmp (of_string "metric"); do m <- string_of j; do compared <- attr_of m;
  do j <- item s (of_string "train_set"); do ds <- build_dataset j;
  do j <- item s (of_string "dev_set"); do dev <- build_tester j;
  do j <- item s (of_string "model_dir"); do model_dir <- string_of j;
  do j <- item s (of_string "random_seed"); do seeds <- seeding_from j;
  Ok (mkSettings model_dir delete printed fields compared seeds (nth_pass ds 0) dev None, ds).

(* evaluation.py:276-277: whether there is a test set, and its tester *)
Definition read_test (s : json leaf) : result (option (tester M)) :=
  match item s (of_string "test_set") with Err _ => Ok None | Ok j => do t <- build_tester j; Ok (Some t) end.

Definition with_test (c : settings M) (t : option (tester M)) : settings M :=
  mkSettings (model_dir c) (delete_after c) (printed c) (fields c) (compared c) (random_seed c) (train_set c) (dev_set c) t.

(* main, evaluation.py:253-284, for hyperparameters on a heap.  The test set is looked at after the search. *)
Definition evaluation_main (delete : bool) (method_name : str) (s : json leaf) (h : jheap leaf) (vs : list (jval leaf)) (fs : files M)
  : files M * result (report (jval leaf)) :=
  match read_settings delete method_name s fs with
  | Err e => (fs, Err e)
  | Ok (c, ds) =>
      let nt := training_of (nth_pass ds) h vs (seeds_of (random_seed c)) in
      match read_test s with
      | Ok t => main (with_test c t) nt directories method_name vs fs
      | Err e =>
          match get_trainer method_name with
          | Err e' => (fs, Err e')
          | Ok t =>
              let (fs1, se) := search_params c nt directories t 0 vs (mkSel None []) fs in
              (fs1, Err (match snd se with
                         | Some x => x
                         | None => match print_metrics (printed c) (best_scores (fst se)) with Err x => x | Ok _ => e end
                         end))
          end
      end
  end.

(* evaluation.py with a file of hyperparameters, lines 264-266 and 346-357: a list of dictionaries; a file with a single
   dictionary is the list of it.  With the heap on which the reported hyperparameters are. *)
Definition evaluation (delete : bool) (method_name : str) (s : json leaf) (hyperparams : list (json leaf)) (fs : files M)
  : files M * result (jheap leaf * report (jval leaf)) :=
  let (vs, h) := load_list hyperparams [] in
  let (fs', r) := evaluation_main delete method_name s h vs fs in
  (fs', do rep <- r; Ok (h, rep)).

(* grid_eval.py:62-70; models are always deleted *)
Definition grid_evaluation (method_name : str) (s : json leaf) (base : json leaf) (g : grid leaf) (fs : files M)
  : files M * result (jheap leaf * report (jval leaf)) :=
  match grid_main base g with
  | Err e => (fs, Err e)
  | Ok (vs, _, h) =>
      let (fs', r) := evaluation_main true method_name s h vs fs in
      (fs', do rep <- r; Ok (h, rep))
  end.
End Search.
Arguments build_tester {M}.
Arguments nth_pass {R}.
Arguments passes_of {M}.
Arguments passes_before {M}.
Arguments training_of {M}.
Arguments read_settings {M R}.
Arguments read_test {M}.
Arguments with_test {M}.
Arguments evaluation_main {M R}.
Arguments evaluation {M R}.
Arguments grid_evaluation {M R}.
