(* Specification vocabulary for model selection (evaluation.py) *)
From Coq Require Import String ZArith NArith QArith Bool Permutation List.
From Verif Require Import Base Model_UDEval Model_Harness.
Import ListNotations.
Open Scope Z_scope.

(* ---- scores ---- *)

(* the value of an attribute of a score, where it has one *)
Inductive attribute : attr -> score -> Q -> Prop :=
| at_precision s : attribute APrecision s (s_precision s)
| at_recall s : attribute ARecall s (s_recall s)
| at_f1 s : attribute AF1 s (s_f1 s)
| at_aligned s q : s_aligned s = Some q -> attribute AAligned s q.

Fixpoint sumq (l : list Q) : Q := match l with [] => 0 | q :: l' => q + sumq l' end%Q.

(* the score tables that can be compared: q is the sum of the compared values *)
Definition worth (fields : list str) (a : attr) (t : table) (q : Q) : Prop :=
  exists vs, Forall2 (fun f v => exists s, dict_get t f = Some s /\ attribute a s v) fields vs /\ q == sumq vs.

(* i is the first position of the largest number *)
Definition first_best (qs : list Q) (i : nat) : Prop :=
  exists q, nth_error qs i = Some q /\
    (forall j r, nth_error qs j = Some r -> r <= q)%Q /\
    (forall j r, (j < i)%nat -> nth_error qs j = Some r -> r < q)%Q.

(* the table has all metrics that are printed *)
Definition printable (metrics : list str) (t : table) : Prop := Forall (fun m => In m (map fst t)) metrics.

(* ---- paths ---- *)

Definition params_dir (i : nat) : str := of_string "params-" ++ print_Z (Z.of_nat i).
(* below a directory; the empty name is the current directory *)
Definition inside (dir name : str) : str := match dir with [] => name | _ => dir ++ of_string "/" ++ name end.
Definition epoch_dir (dir : str) (seed : Z) (e : nat) : str :=
  inside (inside dir (print_Z seed)) (of_string "epoch-" ++ print_Z (Z.of_nat e)).
(* a relative path without a slash at its ends, or the empty path *)
Definition plain (dir : str) : Prop := forall d, dir <> of_string "/" ++ d /\ dir <> d ++ of_string "/".

(* the directory of the models of a candidate: base ++ name, with a slash between them where there is none *)
Definition based (base path : str) : str :=
  match rev base with
  | [] => path
  | c :: _ => if (c =? 47)%N then base ++ path else base ++ of_string "/" ++ path
  end.

(* p is d or lies below d *)
Definition at_or_below (d p : str) : Prop := p = d \/ exists r, p = d ++ of_string "/" ++ r.

(* how often a path was disposed *)
Definition times (p : str) (l : list str) : nat := count_occ (list_eq_dec N.eq_dec) l p.

(* the directory p does not exist any more after the paths l, taken relative to base, were removed *)
Definition gone (base : str) (l : list str) (p : str) : Prop := exists d, In d l /\ at_or_below (based base d) p.

(* ---- averages ---- *)

Definition meanq (l : list Q) : Q := (sumq l / inject_Z (Z.of_nat (length l)))%Q.

(* s is the mean of the scores ss *)
Definition mean_score (ss : list score) (s : score) : Prop :=
  s_precision s == meanq (map s_precision ss) /\
  s_recall s == meanq (map s_recall ss) /\
  s_f1 s == meanq (map s_f1 ss) /\
  exists vs q, map s_aligned ss = map Some vs /\ s_aligned s = Some q /\ q == meanq vs.

(* s is k times the mean of the scores ss *)
Definition mean_times (k : nat) (ss : list score) (s : score) : Prop :=
  s_precision s == inject_Z (Z.of_nat k) * meanq (map s_precision ss) /\
  s_recall s == inject_Z (Z.of_nat k) * meanq (map s_recall ss) /\
  s_f1 s == inject_Z (Z.of_nat k) * meanq (map s_f1 ss) /\
  exists vs q, map s_aligned ss = map Some vs /\ s_aligned s = Some q /\ q == inject_Z (Z.of_nat k) * meanq vs.

(* the rows of the tables for a metric *)
Definition scores_for (m : str) (ts : list table) (ss : list score) : Prop :=
  Forall2 (fun t s => dict_get t m = Some s) ts ss.

(* a table the evaluation script reports *)
Definition reported (t : table) : Prop :=
  exists lower gold system weights scores, evaluate lower gold system weights = Ok scores /\ t = table_of scores.

(* ---- candidates ---- *)

Definition runs_of {R} (s : seeding R) : list R := match s with OneSeed r => [r] | ManySeeds l => l end.
