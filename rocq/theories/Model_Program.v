(* Model of the programs babylondigger/evaluation/evaluation.py (lines 355-356) and babylondigger/evaluation/grid_eval.py (lines
   62-74) from the command line and the files to the report and the files.  Definitions only.

   The command line is that of Model_Cli, the experiment that of Model_Search.

   Simplifications: a file that is read as json has the shape in which it is used, a dictionary as settings, a dictionary or a
   list of dictionaries as hyperparameters, lists of dictionaries by names as a grid; other shapes are Unmodelled.  Opening a
   saved model as text is a FileNotFoundError. *)
From Coq Require Import String ZArith NArith QArith Bool List.
From Verif Require Import Base Model_Datamodel Model_UDEval Model_Harness Model_Training Model_Grid Model_Experiment Model_Search Model_Cli.
Import ListNotations.
Open Scope Z_scope.

(* what json.load returns *)
Inductive parsed := PDict (j : json leaf) | PList (js : list (json leaf)) | PGrid (g : grid leaf).

(* the files that can be read as text *)
Definition texts {M} (fs : files M) : dict str :=
  flat_map (fun f => match snd f with Saved _ => [] | Written t | Other t => [(fst f, t)] end) fs.

(* no --method is None, which is no name of a method (trainers.py:14); neither is the empty string *)
Definition method_of {J} (a : arguments (J := J)) : str := match a_method a with Some m => m | None => [] end.

Section Program.
Variables (M R : Type).
Variable parse_json : str -> result parsed.
(* as in Model_Search *)
Variables (predict : str -> M -> result str) (score : str -> str -> result table) (data : str -> result (list document)).
Variables (seed_of : Z -> R) (below : R -> Z -> Z * R) (clock : Z) (l : learner M) (directories : files M -> str -> list str).

(* evaluation.py:355-356 *)
Definition evaluation_program (args : list str) (fs : files M) : started (files M * result (jheap leaf * report (jval leaf))) :=
  then_ (evaluation_arguments parse_json (texts fs) args) (fun a =>
    match a_settings a, a_hyperparams a with
    | PDict s, PDict h => Started (evaluation predict score data seed_of below clock l directories (a_delete_after a) (method_of a) s [h] fs)
    | PDict s, PList hs => Started (evaluation predict score data seed_of below clock l directories (a_delete_after a) (method_of a) s hs fs)
    | _, _ => Unmodelled
    end).

(* grid_eval.py:62-70; args.delete_after is not used (line 70) *)
Definition grid_program (args : list str) (fs : files M) : started (files M * result (jheap leaf * report (jval leaf))) :=
  then_ (grid_arguments parse_json (texts fs) args) (fun ag =>
    match a_settings (fst ag), a_hyperparams (fst ag), snd ag with
    | PDict s, PDict h, PGrid g => Started (grid_evaluation predict score data seed_of below clock l directories (method_of (fst ag)) s h g fs)
    | _, _, _ => Unmodelled
    end).
End Program.
Arguments evaluation_program {M R}.
Arguments grid_program {M R}.
