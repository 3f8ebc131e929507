(* Specification vocabulary for whole experiments. *)
From Coq Require Import String ZArith NArith QArith Bool List.
From Verif Require Import Base Model_UDEval Model_Harness Spec_Harness Model_Experiment.
Import ListNotations.

Section Spec.
Context {M : Type}.
Variables (c : settings M) (nt : training M).

(* the tester gets these predictions from the model and gives them this score *)
Definition scored (t : tester M) (m : M) (text : str) (sc : table) : Prop := t_predict t m = Ok text /\ t_score t text = Ok sc.

(* an epoch: the model after it, what it predicts for the dev set and its score *)
Record epoch := mkEpoch { ep_model : M; ep_text : str; ep_scores : table }.

(* the epochs of the training with the k-th hyperparameters and the j-th seed: each is learnt from the scores of those before *)
Definition trained (k j : nat) (run : list epoch) : Prop :=
  set_up nt k j = Ok tt /\ length run = epochs nt k /\
  forall e x, nth_error run e = Some x ->
    learn nt k j (map ep_scores (firstn e run)) = Ok (ep_model x) /\
    scored (dev_set c) (ep_model x) (ep_text x) (ep_scores x) /\
    adapt nt k j (map ep_scores (firstn (S e) run)) = Ok tt.

(* x is the first of the best epochs *)
Definition chosen (run : list epoch) (x : epoch) : Prop :=
  exists i, nth_error run i = Some x /\
    forall qs, Forall2 (worth (fields c) (compared c)) (map ep_scores run) qs -> first_best qs i.

(* the score of a list of taggers, one per seed: with a list of seeds the average (see C56) *)
Definition summary (scs : list table) (sc : table) : Prop :=
  match random_seed c with
  | OneSeed _ => scs = [sc]
  | ManySeeds _ => average_scores (printed c) (map Some scs) = Ok sc
  end.

(* what the k-th hyperparameters amount to: the runs, the epoch chosen from each, and the score *)
Record candidate := mkCandidate { c_runs : list (list epoch); c_best : list epoch; c_scores : table }.
Definition evaluated (k : nat) (x : candidate) : Prop :=
  length (c_runs x) = length (runs_of (random_seed c)) /\
  (forall j run, nth_error (c_runs x) j = Some run -> trained k j run) /\
  Forall2 chosen (c_runs x) (c_best x) /\
  summary (map ep_scores (c_best x)) (c_scores x).

(* files *)
Definition model_file (k : nat) (seed : Z) (e : nat) : str := based (model_dir c) (epoch_dir (params_dir k) seed e).
Definition seed_dir (k : nat) (seed : Z) : str := params_dir k ++ of_string "/" ++ print_Z seed.
Definition dev_file (k : nat) (seed : Z) (e : nat) : str :=
  based (t_results (dev_set c)) (seed_dir k seed ++ of_string "/epoch-" ++ print_Z (Z.of_nat e) ++ of_string "-dev.conll").
Definition test_file (t : tester M) (k : nat) (seed : Z) : str :=
  based (t_results t) (seed_dir k seed ++ of_string "/best-test.conll").

(* p is the directory d or in it; the empty name is no directory *)
Definition within (d p : str) : Prop := d <> [] /\ (p = d \/ exists r, p = based d r).

(* what the tester writes is not removed together with models *)
Definition elsewhere (t : tester M) : Prop :=
  delete_after c = false \/ (model_dir c <> [] /\ forall name, ~ within (model_dir c) (based (t_results t) name)).

(* the name of a file in which a tester may write predictions *)
Definition results_file (p : str) : Prop :=
  exists t name, (t = dev_set c \/ test_set c = Some t) /\ t_results t <> [] /\ p = based (t_results t) name.

(* scores that can be printed, compared and, with a list of seeds, averaged *)
Definition comparable (sc : table) : Prop :=
  printable (printed c) sc /\ (exists q, worth (fields c) (compared c) sc q) /\
  match random_seed c with
  | OneSeed _ => True
  | ManySeeds _ => incl (fields c) (printed c) /\ forall m, In m (printed c) -> exists s q, dict_get sc m = Some s /\ s_aligned s = Some q
  end.
End Spec.
Arguments epoch : clear implicits.
Arguments candidate : clear implicits.
