(* Properties C132, C133: the scores as they are printed. *)
From Coq Require Import String Ascii ZArith NArith QArith Qabs Bool List.
From Verif Require Import Base BaseFacts Model_Datamodel Model_Conllu Model_UDEval Model_Harness Model_Float Model_Script Model_Print
  Spec_UDEval Spec_Harness Spec_Float Spec_Script Spec_Print Props_Datamodel Props_Conllu Props_UDEval Proofs_Print Props_Float.
Import ListNotations.
Open Scope Z_scope.

Local Notation metric_name := Model_Harness.metric_name.

(* a score is printed as the number of hundredths of a per cent next to it, and never off by more than a rounding error *)
Theorem C132_number : forall x, (0 <= x <= 1)%Q ->
  exists k, reads_as (fixed2 (percent x)) k /\ 0 <= k <= 10000 /\
    (Qabs (inject_Z k / 100 - 100 * x) <= (1 # 200) + 1 / inject_Z 70368744177664)%Q.
Proof. exact number_printed. Qed.
Print Assumptions C132_number.

(* 1/1024 is 0.09765625 per cent; 1/800 is half way between 0.12 and 0.13 *)
Example C132_number_case :
  fixed2 (percent (1 # 1024)) = of_string "0.10" /\ fixed2 (percent (to_double (1 # 800))) = of_string "0.12" /\
  fixed2 (percent (to_double (3 # 800))) = of_string "0.38" /\ fixed2 (percent (to_double (2 # 3))) = of_string "66.67" /\
  fixed2 (percent 1) = of_string "100.00" /\ fixed2 (percent 0) = of_string "0.00".
Proof. repeat match goal with |- _ /\ _ => split end; vm_compute; reflexivity. Qed.

(* of two scores the better is never printed as the smaller number *)
Theorem C132_order : forall x y k l, (0 <= x)%Q -> (x <= y)%Q -> (y <= 1)%Q ->
  reads_as (fixed2 (percent x)) k -> reads_as (fixed2 (percent y)) l -> k <= l.
Proof. exact order_printed. Qed.
Print Assumptions C132_order.

Example C132_order_case :
  reads_as (fixed2 (percent (to_double (1 # 3)))) 3333 /\ reads_as (fixed2 (percent (to_double (2 # 3)))) 6667.
Proof.
  split; [exists (of_string "33"), 33, 51%N, 51%N | exists (of_string "66"), 66, 54%N, 55%N];
    repeat match goal with |- _ /\ _ => split end; try (vm_compute; reflexivity); try (vm_compute; intuition discriminate);
    repeat (constructor; [vm_compute; intuition discriminate|]); constructor.
Qed.

(* the table of get_metrics_printer: a line for each metric in order, until one is missing *)
Theorem C132_table : forall metrics t, Forall plain_name metrics ->
  exists h1 h2 rows rest e, print_table metrics (Some t) = (h1 :: h2 :: rows, e) /\
    row_cells h1 = map of_string ["Metrics"; "Precision"; "Recall"; "F1 Score"; "AligndAcc"]%string /\
    (exists printed, metrics = printed ++ rest /\
       Forall2 (fun m line => exists sc, dict_get t m = Some sc /\ line_shows m sc line /\
                  ((length m <= 11)%nat -> score_unit sc -> bars 0 line = bars 0 h1)) printed rows) /\
    match e with
    | None => rest = []
    | Some x => x = EKey /\ exists m ms, rest = m :: ms /\ dict_get t m = None
    end.
Proof. exact table_printed. Qed.
Print Assumptions C132_table.

Example C132_table_case :
  let t := table_of (ex_float (ex_ten 10 10) (ex_ten 1 3)) in
  Forall plain_name (map metric_name [MUPOS; MWords; MWeightedLAS; MLemmas]) /\
  print_table (map metric_name [MUPOS; MWords; MLemmas]) (Some t) =
    (map of_string ["Metrics    | Precision |    Recall |  F1 Score | AligndAcc";
                    "-----------+-----------+-----------+-----------+-----------";
                    "UPOS       |     10.00 |     10.00 |     10.00 |     10.00";
                    "Words      |    100.00 |    100.00 |    100.00 |";
                    "Lemmas     |     30.00 |     30.00 |     30.00 |     30.00"]%string, None) /\
  print_table (map metric_name [MUPOS; MWords; MWeightedLAS; MLemmas]) (Some t) =
    (map of_string ["Metrics    | Precision |    Recall |  F1 Score | AligndAcc";
                    "-----------+-----------+-----------+-----------+-----------";
                    "UPOS       |     10.00 |     10.00 |     10.00 |     10.00";
                    "Words      |    100.00 |    100.00 |    100.00 |"]%string, Some EKey).
Proof.
  cbv zeta. split; [|split; vm_compute; reflexivity].
  repeat (constructor; [split; [vm_compute; intuition discriminate | repeat (constructor; [vm_compute; reflexivity|]); constructor]|]).
  constructor.
Qed.

(* the printing that experiments are run with raises exactly when this one does *)
Theorem C132_same : forall metrics scores,
  print_metrics metrics scores = match snd (print_table metrics scores) with None => Ok tt | Some e => Err e end.
Proof. exact print_same. Qed.
Print Assumptions C132_same.

Example C132_same_case : print_metrics [of_string "UPOS"] None = Err EType /\ snd (print_table [of_string "UPOS"] None) = Some EType /\
  print_metrics [] None = Ok tt /\ length (fst (print_table [] None)) = 2%nat.
Proof. repeat match goal with |- _ /\ _ => split end; vm_compute; reflexivity. Qed.

(* the way numbers are printed has what C106 and C107 assume of it *)
Theorem C132_assumed : plain_numbers shown_number /\ same_numbers shown_number /\
  (forall q, (0 <= q <= 100)%Q -> (length (shown_number q) <= 10)%nat) /\ (forall x, shown_number (100 * x) = fixed2 (percent x)).
Proof. exact cell_facts. Qed.
Print Assumptions C132_assumed.

Example C132_assumed_case : shown_number (200 # 3) = of_string "66.67" /\ shown_number (- (1 # 4)) = of_string "-0.25" /\
  shown_number (12345678901234567 # 10) = of_string "1234567890123456.75".
Proof. repeat match goal with |- _ /\ _ => split end; vm_compute; reflexivity. Qed.

(* what the evaluation script prints for scores computed in floating point *)
Theorem C132_script : forall lower tg ts gold system weights f verbose,
  load_conllu tg = Ok gold -> load_conllu ts = Ok system -> weights_nonneg weights -> fl_evaluate lower gold system weights = Ok f ->
  (exists sc, f MLAS = Some sc /\
     report shown_number f (negb (is_none weights)) 0 = Ok [of_string "LAS F1 Score: " ++ fixed2 (percent (s_f1 sc))]) /\
  exists h1 h2 rows, report shown_number f (negb (is_none weights)) (S verbose) = Ok (h1 :: h2 :: rows) /\
    row_cells h1 = map of_string ["Metrics"; "Precision"; "Recall"; "F1 Score"; "AligndAcc"]%string /\
    Forall2 (fun row line => exists sc, f (fst row) = Some sc /\ line_shows (of_string (snd row)) sc line /\ bars 0 line = bars 0 h1)
      (rows_of (negb (is_none weights))) rows.
Proof. exact script_printed. Qed.
Print Assumptions C132_script.

Example C132_script_case :
  let f := ex_float (ex_ten 10 10) (ex_ten 1 3) in
  report shown_number f false 0 = Ok [of_string "LAS F1 Score: 100.00"] /\
  match report shown_number f false 1 with
  | Ok lines => nth 5 lines [] = of_string "UPOS       |     10.00 |     10.00 |     10.00 |     10.00" /\ length lines = 13%nat
  | Err _ => False
  end.
Proof. cbv zeta. split; [vm_compute; reflexivity|]. vm_compute. split; reflexivity. Qed.

(* ------------------------------------------------------------------ *)

(* three words; the relation e of the second weighs next to nothing, and its head is wrong *)
Definition ex_heads (head : string) : str :=
  ex_line ["1"; "a"; "l"; "N"; "_"; "_"; "0"; "d"; "_"; "_"]%string ++ ex_line ["2"; "b"; "l"; "N"; "_"; "_"; head; "e"; "_"; "_"]%string ++
  ex_line ["3"; "c"; "l"; "N"; "_"; "_"; "1"; "d"; "_"; "_"]%string ++ ex_blank.
Definition ex_light : option (dict Q) := Some [(of_string "e", to_double (1 # 1000000))].

Theorem C133_ends_refuted :
  ~ (forall lower tg ts gold system weights f m sc a v,
       load_conllu tg = Ok gold -> load_conllu ts = Ok system -> weights_nonneg weights ->
       fl_evaluate lower gold system weights = Ok f -> f m = Some sc -> attribute a sc v ->
       (fixed2 (percent v) = of_string "100.00" <-> (v == 1)%Q) /\ (fixed2 (percent v) = of_string "0.00" <-> (v == 0)%Q)).
Proof.
  intro H.
  destruct (fl_evaluate ascii_lower (ex_ud (ex_heads "1")) (ex_ud (ex_heads "3")) ex_light) as [f|] eqn:E; [|vm_compute in E; discriminate].
  destruct (f MWeightedLAS) as [sc|] eqn:Em; [|vm_compute in E; injection E as <-; vm_compute in Em; discriminate].
  specialize (H ascii_lower (ex_heads "1") (ex_heads "3") (ex_ud (ex_heads "1")) (ex_ud (ex_heads "3")) ex_light f MWeightedLAS sc AF1 (s_f1 sc)).
  destruct H as [[H _] _]; [vm_compute; reflexivity | vm_compute; reflexivity | | exact E | exact Em | constructor |].
  - intros d k q Ed Eq. injection Ed as <-. cbn [dict_get] in Eq. destruct (str_eqb _ _) in Eq; [|discriminate]. injection Eq as <-. vm_compute; discriminate.
  - vm_compute in E. injection E as <-. vm_compute in Em. injection Em as <-. specialize (H ltac:(vm_compute; reflexivity)). vm_compute in H. discriminate.
Qed.
Print Assumptions C133_ends_refuted.

Theorem C133_ends_partial : forall lower tg ts gold system weights f m sc a v,
  load_conllu tg = Ok gold -> load_conllu ts = Ok system -> up_to 9999 gold -> up_to 9999 system ->
  fl_evaluate lower gold system weights = Ok f -> f m = Some sc -> counts m = true -> attribute a sc v ->
  (fixed2 (percent v) = of_string "100.00" <-> (v == 1)%Q) /\ (fixed2 (percent v) = of_string "0.00" <-> (v == 0)%Q).
Proof. exact perfect_printed. Qed.
Print Assumptions C133_ends_partial.

(* the bound is the last one: with 9999 words one mistake shows in the F1 score, with 10000 it need not *)
Example C133_ends_partial_case :
  up_to 9999 (ex_ud (ex_ten 10 10)) /\ counts MUPOS = true /\
  option_map (fun sc => fixed2 (percent (s_f1 sc))) (ex_float (ex_ten 10 10) (ex_ten 9 0) MUPOS) = Some (of_string "90.00") /\
  option_map (fun sc => fixed2 (percent (s_f1 sc))) (ex_float (ex_ten 10 10) (ex_ten 9 0) MLemmas) = Some (of_string "0.00") /\
  option_map (fun sc => fixed2 (percent (s_f1 sc))) (ex_float (ex_ten 10 10) (ex_ten 9 0) MWords) = Some (of_string "100.00") /\
  fixed2 (percent (to_double (19997 # 19998))) = of_string "99.99" /\
  fixed2 (percent (to_double (20000 # 20001))) = of_string "100.00".
Proof. repeat match goal with |- _ /\ _ => split end; vm_compute; first [reflexivity | intuition discriminate]. Qed.
