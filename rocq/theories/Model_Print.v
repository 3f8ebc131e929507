(* Model of the printed tables of scores: get_metrics_printer of babylondigger/evaluation/evaluation.py:215-228, and the numbers in
   the table of babylondigger/evaluation/conll17_ud_eval.py:500-516, whose lines are Model_Script.
   Definitions only.  Simplifications: as in Model_Float (exponents not bounded, no nan, -0.0 is 0); what is printed is a list of
   lines; metrics are names, not arbitrary objects. *)
From Coq Require Import String Ascii ZArith NArith QArith Qabs Bool List.
From Verif Require Import Base Model_UDEval Model_Harness Model_Float Model_Script.
Import ListNotations.
Open Scope Z_scope.

(* "{:.2f}".format(q) for a float q: the exact value of q is rounded to hundredths, of two the even one; the sign is kept *)
Definition fixed2 (q : Q) : str :=
  let k := nearest_int (100 * Qabs q) in
  (if Qle_bool 0 q then [] else of_string "-") ++
  print_Z (k / 100) ++ of_string "." ++ print_Z ((k / 10) mod 10) ++ print_Z (k mod 10).

(* 100 * x for a float x, evaluation.py:222-225 and conll17_ud_eval.py:501, 512-515 *)
Definition percent (x : Q) : Q := value (num_mul (Int 100) (Float x)).

(* "{:10.2f}".format(100 * x) *)
Definition percent_cell (x : Q) : str := pad_left 10 (fixed2 (percent x)).

(* the function of Model_Script that prints a number, "{:.2f}".format(100 * x), conll17_ud_eval.py:501, 512-515: its argument is the
   exact product, which the program rounds *)
Definition shown_number (q : Q) : str := fixed2 (to_double q).

(* evaluation.py:220-226 *)
Definition score_line (name : str) (sc : score) : str :=
  pad_right 11 name ++ of_string "|" ++ percent_cell (s_precision sc) ++ of_string " |" ++ percent_cell (s_recall sc) ++ of_string " |"
  ++ percent_cell (s_f1 sc) ++ of_string " |" ++ match s_aligned sc with Some q => percent_cell q | None => [] end.

(* evaluation.py:219-226: the lines printed, and the exception that ends it *)
Fixpoint print_rows (metrics : list str) (scores : option table) : list str * option exn :=
  match metrics with
  | [] => ([], None)
  | m :: ms =>
      match (do t <- of_option EType scores; of_option EKey (dict_get t m)) with
      | Ok sc => let (lines, e) := print_rows ms scores in (score_line m sc :: lines, e)
      | Err e => ([], Some e)
      end
  end.

(* print_metrics, evaluation.py:216-226 *)
Definition print_table (metrics : list str) (scores : option table) : list str * option exn :=
  let (lines, e) := print_rows metrics scores in
  (of_string "Metrics    | Precision |    Recall |  F1 Score | AligndAcc" ::
   of_string "-----------+-----------+-----------+-----------+-----------" :: lines, e).
