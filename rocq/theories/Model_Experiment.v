(* Model of a whole experiment: main of babylondigger/evaluation/evaluation.py:253-284 with __build_estimator (287-309), the evaluators
   (99-201) and testers (37-52) as they use the file system, get_trainer of babylondigger/evaluation/trainers.py:13-16, and the trainers
   of babylondigger/tagger.py:38-42 and babylondigger/neural/tagger/neural_tagger.py:42-138 as they save and load models.
   Definitions only.  Comparing, averaging and printing scores and the names of paths are those of Model_Harness.

   Simplifications: a file system maps names to contents, a saved model is one entry; a directory is there if something is in it;
   different names are different files (no links, no `.` and `..`).  Making directories, writing and opening the data sets do not fail.
   Missing entries of the settings are not modelled.  rmtree is only applied to directories.  FileNotFoundError is EExc. *)
From Coq Require Import String Ascii ZArith NArith QArith Bool List.
From Verif Require Import Base Model_Datamodel Model_Processors Model_UDEval Model_Harness.
Import ListNotations.
Open Scope Z_scope.

Section Experiment.
Variables (P M : Type).

Inductive content := Saved (m : M) | Written (text : str) | Other (text : str).
Definition files := dict content.

(* p is d or in the directory d *)
Definition in_tree (d p : str) : bool := str_eqb p d || startswith p (path_join d []).
(* shutil.rmtree(d, ignore_errors=True): there is no directory '' *)
Definition rmtree (d : str) (fs : files) : files :=
  match d with [] => fs | _ => filter (fun e => negb (in_tree d (fst e))) fs end.
(* os.path.exists(d) and os.listdir(d) *)
Definition is_filled (d : str) (fs : files) : bool :=
  match d with [] => false | _ => existsb (fun e => in_tree d (fst e)) fs end.

(* NeuralTagger.load, neural_tagger.py:42-47 *)
Definition load (path : str) (fs : files) : result M :=
  match dict_get fs path with Some (Saved m) => Ok m | _ => Err EExc end.

(* FileTaggerTester: results path (empty: none), the text of the predictions of a model and the scores of a text *)
Record tester := mkTester { t_results : str; t_predict : M -> result str; t_score : str -> result table }.

(* TaggerTester.test, evaluation.py:37-52, with a LazyNeuralTagger, which is a path and is loaded when it is used
   (neural_tagger.py:68-71); None has no attribute tag *)
Definition test_tagger (t : tester) (tagger : option str) (name : str) (fs : files) : files * result table :=
  match tagger with
  | None => (fs, Err EAttr)
  | Some path =>
      match (do m <- load path fs; t_predict t m) with
      | Err e => (fs, Err e)
      | Ok text =>
          (match t_results t with [] => fs | r => dict_set fs (path_join r name) (Written text) end, t_score t text)
      end
  end.

(* training with the k-th hyperparameters and the j-th seed.  learn: the model after an epoch, given the dev scores of the epochs
   before; adapt: what is computed from the dev scores before they are yielded (neural_tagger.py:127-134) *)
Record training := mkTraining {
  set_up : nat -> nat -> result unit;
  epochs : nat -> nat;
  learn : nat -> nat -> list table -> result M;
  adapt : nat -> nat -> list table -> result unit
}.

(* trainers.py:7-16 *)
Inductive method := Stub | Neural | Pretrained.
Definition get_trainer (name : str) : result method :=
  if str_eqb name (of_string "stub") then Ok Stub
  else if str_eqb name (of_string "neural") then Ok Neural
  else if str_eqb name (of_string "neural_pretrained") then Ok Pretrained
  else Err ENotImpl.

Record settings := mkSettings {
  model_dir : str;
  delete_after : bool;
  printed : list str;               (* metric_printer.fields *)
  fields : list str;                (* cmp_metric.fields *)
  compared : attr;                  (* cmp_metric.metric *)
  random_seed : seeding Z;
  train_set : result (list document);
  dev_set : tester;
  test_set : option tester
}.

Variable c : settings.
Variable nt : training.
(* the names of all directories below a directory, sorted (neural_tagger.py:80) *)
Variable directories : files -> str -> list str.

(* disposable_callback, evaluation.py:294-297, on the paths that a step of the selection disposed *)
Definition dispose {X} (before after : selection X) (fs : files) : files :=
  if delete_after c
  then fold_left (fun fs p => rmtree (path_join (model_dir c) p) fs) (skipn (length (sel_disposed before)) (sel_disposed after)) fs
  else fs.

(* evaluation.py:122 *)
Definition dev_name (seed_dir : str) (e : Z) : str := path_join seed_dir (epoch_name e ++ of_string "-dev.conll").

(* the loop of SingleSeedEvaluator.evaluate, evaluation.py:124-141, together with the generator it runs: `produce` gives the next tagger
   (its path), `n` is how many there are, `seen` are the scores of those before *)
Fixpoint choose (produce : list table -> files -> result (files * str)) (ready : list table -> result unit)
         (candidate_dir : str) (seed : Z) (n : nat) (seen : list table) (s : selection str) (fs : files)
  : files * (selection str * option exn) :=
  match n with
  | O => (fs, (s, None))
  | S n' =>
      match produce seen fs with
      | Err e => (fs, (s, Some e))
      | Ok (fs1, tagger) =>
          let e := Z.of_nat (length seen) in
          let (fs2, r) := test_tagger (dev_set c) (Some tagger) (dev_name (seed_path candidate_dir seed) e) fs1 in
          match (do sc <- r;
                 do _ <- ready (seen ++ [sc]);
                 do _ <- print_metrics (printed c) (Some sc);
                 do s' <- consider (fields c) (compared c) (epoch_path candidate_dir seed e) tagger (Some sc) s;
                 Ok (sc, s')) with
          | Err x => (fs2, (s, Some x))
          | Ok (sc, s') => choose produce ready candidate_dir seed n' (seen ++ [sc]) s' (dispose s s' fs2)
          end
      end
  end.

(* NeuralTaggerTrainer.train: an epoch is trained and saved, neural_tagger.py:110-123 *)
Definition train_next (k j : nat) (candidate_dir : str) (seed : Z) (seen : list table) (fs : files) : result (files * str) :=
  do m <- learn nt k j seen;
  let path := save_path (model_dir c) candidate_dir seed (Z.of_nat (length seen)) in
  Ok (dict_set fs path (Saved m), path).

(* the trainers, each with the loop over what it yields.  StubTaggerTrainer.train returns a list of taggers, of which the loop wants
   pairs: TypeError *)
Definition train_and_choose (t : method) (k j : nat) (candidate_dir : str) (seed : Z) (fs : files) : files * (selection str * option exn) :=
  let start := mkSel None [] in
  match t with
  | Stub => (fs, (start, Some (match (do ds <- train_set c; stub_train ds) with Err e => e | Ok _ => EType end)))
  | Neural =>
      match set_up nt k j with
      | Err e => (fs, (start, Some e))
      | Ok _ => choose (train_next k j candidate_dir seed) (adapt nt k j) candidate_dir seed (epochs nt k) [] start fs
      end
  | Pretrained =>
      let models := directories fs (path_join (model_dir c) (seed_path candidate_dir seed)) in
      choose (fun seen fs => do p <- of_option EStop (nth_error models (length seen)); Ok (fs, p)) (fun _ => Ok tt)
             candidate_dir seed (length models) [] start fs
  end.

(* SingleSeedEvaluator.evaluate, evaluation.py:116-150: the disposed paths, and the best tagger with the path of the run and its scores *)
Definition evaluate_run (t : method) (k j : nat) (candidate_dir : str) (seed : Z) (fs : files)
  : files * (list str * result (option str * str * option table)) :=
  let (fs', se) := train_and_choose t k j candidate_dir seed fs in
  let (s, e) := se in
  (fs', (sel_disposed s,
         do _ <- (match e with Some e => Err e | None => Ok tt end);
         do _ <- print_metrics (printed c) (best_scores s);
         Ok (option_map (fun b => fst (fst b)) (sel_best s), seed_path candidate_dir seed, best_scores s))).

(* AverageEvaluator.evaluate, evaluation.py:159-176 *)
Fixpoint evaluate_runs (t : method) (k j : nat) (candidate_dir : str) (seeds : list Z) (fs : files)
  : files * (list str * result (list (option str * str * option table))) :=
  match seeds with
  | [] => (fs, ([], Ok []))
  | seed :: seeds' =>
      let (fs1, dr) := evaluate_run t k j candidate_dir seed fs in
      match snd dr with
      | Err e => (fs1, (fst dr, Err e))
      | Ok x => let (fs2, dr') := evaluate_runs t k (S j) candidate_dir seeds' fs1 in
                (fs2, (fst dr ++ fst dr', do xs <- snd dr'; Ok (x :: xs)))
      end
  end.

Definition evaluate_params (t : method) (k : nat) (candidate_dir : str) (fs : files)
  : files * (list str * result (list (option str * str) * option table)) :=
  match random_seed c with
  | OneSeed seed =>
      let (fs', dr) := evaluate_run t k 0 candidate_dir seed fs in
      (fs', (fst dr, do x <- snd dr; Ok ([fst x], snd x)))
  | ManySeeds seeds =>
      let (fs', dr) := evaluate_runs t k 0 candidate_dir seeds fs in
      (fs', (fst dr,
             do xs <- snd dr;
             do avg <- average_scores (printed c) (map snd xs);
             do _ <- print_metrics (printed c) (Some avg);
             Ok (map fst xs, Some avg)))
  end.

(* ParametersEstimator.params_search, evaluation.py:188-201, from the k-th candidate on *)
Fixpoint search_params (t : method) (k : nat) (hyperparams : list P) (s : selection (P * list (option str * str))) (fs : files)
  : files * (selection (P * list (option str * str)) * option exn) :=
  match hyperparams with
  | [] => (fs, (s, None))
  | p :: ps =>
      let name := params_name (Z.of_nat k) in
      let (fs1, dr) := evaluate_params t k name fs in
      let s1 := mkSel (sel_best s) (sel_disposed s ++ fst dr) in
      match (do ms <- snd dr; consider (fields c) (compared c) name (p, fst ms) (snd ms) s1) with
      | Err e => (fs1, (s1, Some e))
      | Ok s2 => search_params t (S k) ps s2 (dispose s1 s2 fs1)
      end
  end.

(* the functions returned at evaluation.py:149-150 and 175-176: test the best taggers *)
Fixpoint test_all_of (t : tester) (taggers : list (option str * str)) (fs : files) : files * result (list table) :=
  match taggers with
  | [] => (fs, Ok [])
  | (tagger, dir) :: rest =>
      let (fs1, r) := test_tagger t tagger (path_join dir (of_string "best-test.conll")) fs in
      match r with
      | Err e => (fs1, Err e)
      | Ok sc => let (fs2, rs) := test_all_of t rest fs1 in (fs2, do scs <- rs; Ok (sc :: scs))
      end
  end.
Definition tagger_func (t : tester) (taggers : list (option str * str)) (fs : files) : files * result table :=
  match random_seed c, taggers with
  | OneSeed _, (tagger, dir) :: _ => test_tagger t tagger (path_join dir (of_string "best-test.conll")) fs
  | OneSeed _, [] => (fs, Err EType)
  | ManySeeds _, _ => let (fs', r) := test_all_of t taggers fs in
                      (fs', do scs <- r; average_scores (printed c) (map Some scs))
  end.

(* what is printed at the end: hyperparameters, dev scores, test scores *)
Record report := mkReport { r_params : option P; r_dev : option table; r_test : option table }.

(* main, evaluation.py:253-284 *)
Definition main (method_name : str) (hyperparams : list P) (fs : files) : files * result report :=
  if delete_after c && is_filled (model_dir c) fs then (fs, Err EValue)
  else
    match get_trainer method_name with
    | Err e => (fs, Err e)
    | Ok t =>
        let (fs1, se) := search_params t 0 hyperparams (mkSel None []) fs in
        match snd se with
        | Some e => (fs1, Err e)
        | None =>
            let best := sel_best (fst se) in
            let params := option_map (fun b => fst (fst (fst b))) best in
            let dev := best_scores (fst se) in
            match print_metrics (printed c) dev with
            | Err e => (fs1, Err e)
            | Ok _ =>
                let (fs2, tested) :=
                  match test_set c with
                  | None => (fs1, Ok None)
                  | Some tt_ =>
                      match best with
                      | None => (fs1, Err EType)                 (* tagger_func is None *)
                      | Some b => let (fs2, r) := tagger_func tt_ (snd (fst (fst b))) fs1 in
                                  (fs2, do sc <- r; do _ <- print_metrics (printed c) (Some sc); Ok (Some sc))
                      end
                  end in
                match tested with
                | Err e => (fs2, Err e)
                | Ok test => (if delete_after c then rmtree (model_dir c) fs2 else fs2, Ok (mkReport params dev test))
                end
            end
        end
    end.
End Experiment.
Arguments Saved {M}.
Arguments Written {M}.
Arguments Other {M}.
Arguments mkTester {M}.
Arguments t_results {M}.
Arguments t_predict {M}.
Arguments t_score {M}.
Arguments mkTraining {M}.
Arguments set_up {M}.
Arguments epochs {M}.
Arguments learn {M}.
Arguments adapt {M}.
Arguments mkSettings {M}.
Arguments model_dir {M}.
Arguments delete_after {M}.
Arguments printed {M}.
Arguments fields {M}.
Arguments compared {M}.
Arguments random_seed {M}.
Arguments train_set {M}.
Arguments dev_set {M}.
Arguments test_set {M}.
Arguments rmtree {M}.
Arguments is_filled {M}.
Arguments load {M}.
Arguments test_tagger {M}.
Arguments dispose {M} c {X}.
Arguments choose {M}.
Arguments train_next {M}.
Arguments train_and_choose {M}.
Arguments evaluate_run {M}.
Arguments evaluate_runs {M}.
Arguments evaluate_params {M}.
Arguments search_params {P M}.
Arguments test_all_of {M}.
Arguments tagger_func {M}.
Arguments mkReport {P}.
Arguments r_params {P}.
Arguments r_dev {P}.
Arguments r_test {P}.
Arguments main {P M}.
