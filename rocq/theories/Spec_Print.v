(* Vocabulary for statements about printed scores. *)
From Coq Require Import String ZArith NArith QArith Bool List.
From Verif Require Import Base BaseFacts Model_UDEval Model_Harness Model_Float Model_Script Model_Print Spec_Script.
Import ListNotations.
Open Scope Z_scope.

(* s is a number with two digits after the point, k hundredths *)
Definition reads_as (s : str) (k : Z) : Prop :=
  exists whole w d e, s = whole ++ [46%N; d; e] /\ Forall is_digit whole /\ parse_int whole = Ok w /\ is_digit d /\ is_digit e /\
    k = 100 * w + 10 * (Z.of_N d - 48) + (Z.of_N e - 48).

(* a name of a metric that leaves the table readable *)
Definition plain_name (name : str) : Prop := ~ In 124%N name /\ Forall (fun c => isspace_char c = false) name.

(* the line shows the four numbers of a score, in per cent *)
Definition line_shows (name : str) (sc : score) (line : str) : Prop :=
  row_cells line = [name; fixed2 (percent (s_precision sc)); fixed2 (percent (s_recall sc)); fixed2 (percent (s_f1 sc));
                    match s_aligned sc with Some q => fixed2 (percent q) | None => [] end].

(* all numbers of a score lie between 0 and 1 *)
Definition score_unit (sc : score) : Prop :=
  (0 <= s_precision sc <= 1 /\ 0 <= s_recall sc <= 1 /\ 0 <= s_f1 sc <= 1 /\ forall q, s_aligned sc = Some q -> 0 <= q <= 1)%Q.
