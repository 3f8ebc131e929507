(* Properties C101-C107: the evaluation script with its file of weights. *)
From Coq Require Import String Ascii ZArith NArith QArith Qround Bool Lia Lqa List.
From Verif Require Import Base BaseFacts Model_Datamodel Model_Conllu Spec_Datamodel Spec_Conllu Model_UDEval Spec_UDEval
  Props_Conllu Props_UDEval Proofs_UDEval7 Model_Script Spec_Script Proofs_Script Proofs_Script2 Proofs_Script3 Proofs_Script4.
Import ListNotations.
Open Scope Z_scope.

(* ---- material for the concrete cases ---- *)

(* whole numbers, and two digits after the point, cut off *)
Definition ex_float (s : str) : result Q := do z <- parse_int s; Ok (inject_Z z).
Definition ex_fixed2 (q : Q) : str :=
  let n := Qfloor (100 * q)%Q in
  print_Z (n / 100) ++ of_string "." ++ print_Z (n mod 100 / 10) ++ print_Z (n mod 10).

Definition ex_rel (id form head rel : string) : str := ex_line [id; form; "l"; "N"; "_"; "_"; head; rel; "_"; "_"]%string.
(* three words; the system gets the head of the third one wrong *)
Definition ex_gold3 : str := ex_rel "1" "Ya" "0" "root" ++ ex_rel "2" "am" "1" "nsubj:pass" ++ ex_rel "3" "." "1" "punct" ++ ex_blank.
Definition ex_system3 : str := ex_rel "1" "Ya" "0" "root" ++ ex_rel "2" "am" "1" "nsubj" ++ ex_rel "3" "." "2" "punct" ++ ex_blank.
Definition ex_weights_text : str :=
  of_string "# weights" ++ [chNL; chNL] ++ of_string "punct  7" ++ [chNL] ++ of_string "  punct" ++ [chTAB] ++ of_string "-1" ++ [chCR; chNL].
Definition ex_files : dict str :=
  [(of_string "gold", ex_gold3); (of_string "system", ex_system3); (of_string "weights", ex_weights_text); (of_string "bad", of_string "punct 1 2")].
Definition ex_args (w : option string) (v : nat) : arguments := mkArgs (of_string "gold") (of_string "system") (option_map of_string w) v.

(* ------------------------------------------------------------------ *)

Theorem C101_weights_file : forall parse_float text,
  ((exists d, load_weights parse_float (Some text) = Ok (Some d)) <->
   exists es, weight_entries parse_float (file_lines (universal_newlines text)) es) /\
  (forall d es, load_weights parse_float (Some text) = Ok (Some d) -> weight_entries parse_float (file_lines (universal_newlines text)) es ->
     forall r q, dict_get d r = Some q <-> last_entry es r q) /\
  ((forall s e, parse_float s = Err e -> e = EValue) -> forall e, load_weights parse_float (Some text) = Err e -> e = EValue).
Proof. exact weights_file_read. Qed.
Print Assumptions C101_weights_file.

Example C101_case :
  load_weights ex_float (Some ex_weights_text) = Ok (Some [(of_string "punct", inject_Z (-1))]) /\
  load_weights ex_float (Some (of_string " # no comment here")) = Err EValue /\
  load_weights ex_float (Some (of_string "punct 1 2")) = Err EValue /\ load_weights ex_float (Some (of_string "punct")) = Err EValue.
Proof. repeat split; vm_compute; reflexivity. Qed.

(* ------------------------------------------------------------------ *)

(* Full statement: the weight given for a relation is the weight of the words that have this relation in the file. *)
Theorem C102_subtypes_refuted : exists k,
  (exists text u gss c, load_conllu text = Ok u /\ ud_lines (file_lines text) gss /\ In c (file_words gss) /\ cell c 7 = k) /\
  forall lower tg ts gold system d q f f' m,
    load_conllu tg = Ok gold -> load_conllu ts = Ok system -> evaluate lower gold system (Some d) = Ok f ->
    evaluate lower gold system (Some (dict_set d k q)) = Ok f' -> f' m = f m.
Proof. exact subtypes_ignored. Qed.
Print Assumptions C102_subtypes_refuted.

(* Missing, against the full statement: a word has the weight of what stands before the first colon of its relation. *)
Theorem C102_relations_partial : forall lower tg ts gold system d f,
  load_conllu tg = Ok gold -> load_conllu ts = Ok system -> evaluate lower gold system (Some d) = Ok f ->
  exists gg gs pairs good wt sc,
    ud_lines (file_lines tg) gg /\ ud_lines (file_lines ts) gs /\
    Forall2 (fun w c => exists r, base_relation (cell c 7) r /\ given d r (wt w)) (u_words gold) (file_words gg) /\
    Forall2 (fun w c => exists r, base_relation (cell c 7) r /\ given d r (wt w)) (u_words system) (file_words gs) /\
    aligned lower (u_words gold) (u_words system) pairs /\ agreeing MWeightedLAS pairs good /\
    f MWeightedLAS = Some sc /\
    scores sc (total (fun p => wt (fst p)) good) (total wt (u_words gold)) (total wt (u_words system))
           (Some (total (fun p => wt (fst p)) pairs)).
Proof. exact weights_by_relation. Qed.
Print Assumptions C102_relations_partial.

Definition ex_weighted (d : dict Q) (m : metric) : option (Q * Q) :=
  match evaluate ascii_lower (ex_ud ex_gold3) (ex_ud ex_system3) (Some d) with
  | Ok f => option_map (fun sc => (Qred (s_precision sc), Qred (s_recall sc))) (f m)
  | Err _ => None
  end.

Example C102_case :
  ex_weighted [(of_string "nsubj:pass", 5%Q)] MWeightedLAS = Some ((2 # 3)%Q, (2 # 3)%Q) /\
  ex_weighted [(of_string "nsubj", 5%Q)] MWeightedLAS = Some ((6 # 7)%Q, (6 # 7)%Q).
Proof. split; vm_compute; reflexivity. Qed.

(* ------------------------------------------------------------------ *)

Theorem C103_no_other_metric : forall lower tg ts gold system d f,
  load_conllu tg = Ok gold -> load_conllu ts = Ok system -> evaluate lower gold system None = Ok f ->
  f MWeightedLAS = None /\
  exists f', evaluate lower gold system (Some d) = Ok f' /\ f' MWeightedLAS <> None /\ forall m, m <> MWeightedLAS -> f' m = f m.
Proof. intros lower tg ts gold system d f Lg Ls. exact (weights_matter_not lower tg ts gold system Lg Ls d f). Qed.
Print Assumptions C103_no_other_metric.

Theorem C103_las : forall lower tg ts gold system d f,
  load_conllu tg = Ok gold -> load_conllu ts = Ok system -> evaluate lower gold system (Some d) = Ok f ->
  (forall w, In w (u_words gold) \/ In w (u_words system) -> exists q, given d (relation_of w) q /\ (q == 1)%Q) ->
  exists a b, f MWeightedLAS = Some a /\ f MLAS = Some b /\ same_score a b.
Proof. intros lower tg ts gold system d f Lg Ls. exact (weights_like_las lower tg ts gold system Lg Ls d f). Qed.
Print Assumptions C103_las.

Theorem C103_clas : forall lower tg ts gold system d f,
  load_conllu tg = Ok gold -> load_conllu ts = Ok system -> evaluate lower gold system (Some d) = Ok f ->
  (forall w, In w (u_words gold) \/ In w (u_words system) ->
     exists q, given d (relation_of w) q /\ (In (relation_of w) functional_relations -> (q == 0)%Q) /\
       (~ In (relation_of w) functional_relations -> (q == 1)%Q)) ->
  exists a b, f MWeightedLAS = Some a /\ f MCLAS = Some b /\ same_score a b.
Proof. intros lower tg ts gold system d f Lg Ls. exact (weights_like_clas lower tg ts gold system Lg Ls d f). Qed.
Print Assumptions C103_clas.

Example C103_case :
  ex_weighted [] MWeightedLAS = ex_weighted [] MLAS /\ ex_weighted [] MLAS = Some ((2 # 3)%Q, (2 # 3)%Q) /\
  ex_weighted [(of_string "punct", 0%Q)] MWeightedLAS = ex_weighted [] MCLAS /\ ex_weighted [] MCLAS = Some (1%Q, 1%Q).
Proof. repeat split; vm_compute; reflexivity. Qed.

(* ------------------------------------------------------------------ *)

(* Full statement: multiplying all weights by the same number changes no score. *)
Theorem C104_proportions_refuted : exists lower tg ts gold system d d' f f' a b,
  load_conllu tg = Ok gold /\ load_conllu ts = Ok system /\ d' = map (fun e => (fst e, 2 * snd e)%Q) d /\
  evaluate lower gold system (Some d) = Ok f /\ evaluate lower gold system (Some d') = Ok f' /\
  f' MWeightedLAS = Some a /\ f MWeightedLAS = Some b /\ ~ same_score a b.
Proof.
  exists ascii_lower, ex_gold3, ex_system3, (ex_ud ex_gold3), (ex_ud ex_system3), [(of_string "punct", 2%Q)].
  eexists. eexists. eexists. eexists. eexists.
  split; [vm_compute; reflexivity|]. split; [vm_compute; reflexivity|]. split; [reflexivity|]. split; [vm_compute; reflexivity|].
  split; [vm_compute; reflexivity|]. split; [vm_compute; reflexivity|]. split; [vm_compute; reflexivity|].
  intros (H & _). vm_compute in H. discriminate.
Qed.
Print Assumptions C104_proportions_refuted.

(* Missing, against the full statement: relations of words for which no weight is given; their weight stays 1. *)
Theorem C104_proportions_partial : forall lower tg ts gold system c d d' f f',
  load_conllu tg = Ok gold -> load_conllu ts = Ok system ->
  evaluate lower gold system (Some d) = Ok f -> evaluate lower gold system (Some d') = Ok f' -> ~ (c == 0)%Q ->
  (forall w, In w (u_words gold) \/ In w (u_words system) ->
     exists q q', dict_get d (relation_of w) = Some q /\ dict_get d' (relation_of w) = Some q' /\ (q' == c * q)%Q) ->
  exists a b, f' MWeightedLAS = Some a /\ f MWeightedLAS = Some b /\ same_score a b.
Proof. intros lower tg ts gold system c d d' f f' Lg Ls. exact (weights_scale lower tg ts gold system Lg Ls c d d' f f'). Qed.
Print Assumptions C104_proportions_partial.

Example C104_case :
  ex_weighted [(of_string "root", 1%Q); (of_string "nsubj", 3%Q); (of_string "punct", 2%Q)] MWeightedLAS = Some ((2 # 3)%Q, (2 # 3)%Q) /\
  ex_weighted [(of_string "root", 5%Q); (of_string "nsubj", 15%Q); (of_string "punct", 10%Q)] MWeightedLAS = Some ((2 # 3)%Q, (2 # 3)%Q).
Proof. split; vm_compute; reflexivity. Qed.

(* ------------------------------------------------------------------ *)

(* Full statement: all numbers of the table lie between 0 and 100. *)
Theorem C105_range_refuted : exists files a, forall parse_float lower fixed2,
  parse_float (of_string "-1") = Ok (-1 # 1)%Q -> plain_numbers fixed2 -> same_numbers fixed2 ->
  exists lines line, main parse_float lower fixed2 files a = Printed lines /\ In line lines /\
    row_cells line = [of_string "WeightedLAS"; fixed2 200%Q; fixed2 200%Q; fixed2 200%Q; fixed2 200%Q].
Proof. exact out_of_range. Qed.
Print Assumptions C105_range_refuted.

(* Missing, against the full statement: negative weights. *)
Theorem C105_range_partial : forall parse_float lower fixed2 files a h1 h2 rows,
  plain_numbers fixed2 -> main parse_float lower fixed2 files a = Printed (h1 :: h2 :: rows) ->
  (forall text es, weights_text files a = Some text -> weight_entries parse_float (file_lines (universal_newlines text)) es ->
     Forall (fun e => 0 <= snd e)%Q es) ->
  Forall (fun line => exists name p r q last, row_cells line = [name; fixed2 p; fixed2 r; fixed2 q; last] /\
            (0 <= p <= 100)%Q /\ (0 <= r <= 100)%Q /\ (0 <= q <= 100)%Q /\
            (last = [] \/ exists x, last = fixed2 x /\ (0 <= x <= 100)%Q)) rows.
Proof. exact in_range. Qed.
Print Assumptions C105_range_partial.

(* ------------------------------------------------------------------ *)

Theorem C106_runs : forall parse_float lower fixed2 files a,
  (main parse_float lower fixed2 files a = Refused <-> exists p, weights_file a = Some p /\ dict_get files p = None) /\
  ((exists lines, main parse_float lower fixed2 files a = Printed lines) <->
   ~ (exists p, weights_file a = Some p /\ dict_get files p = None) /\
   (forall text, weights_text files a = Some text -> exists es, weight_entries parse_float (file_lines (universal_newlines text)) es) /\
   exists g s gold system, dict_get files (gold_file a) = Some g /\ dict_get files (system_file a) = Some s /\
     load_conllu_file g = Ok gold /\ load_conllu_file s = Ok system /\ u_chars gold = u_chars system).
Proof. exact main_runs. Qed.
Print Assumptions C106_runs.

Theorem C106_output : forall parse_float lower fixed2, plain_numbers fixed2 -> forall files a lines,
  main parse_float lower fixed2 files a = Printed lines ->
  exists g s gold system w f,
    dict_get files (gold_file a) = Some g /\ dict_get files (system_file a) = Some s /\
    load_conllu_file g = Ok gold /\ load_conllu_file s = Ok system /\
    load_weights parse_float (weights_text files a) = Ok w /\ evaluate lower gold system w = Ok f /\
    (weights_file a = None -> verbose a = 0%nat ->
     exists sc, f MLAS = Some sc /\ lines = [of_string "LAS F1 Score: " ++ fixed2 (100 * s_f1 sc)%Q]) /\
    (weights_file a <> None \/ verbose a <> 0%nat ->
     exists h1 h2 rows, lines = h1 :: h2 :: rows /\ row_cells h1 = map of_string ["Metrics"; "Precision"; "Recall"; "F1 Score"; "AligndAcc"]%string /\
       Forall2 (row_shows fixed2 f) (rows_of (negb (is_none (weights_file a)))) rows /\
       (weights_nonneg w -> (forall q, (0 <= q <= 100)%Q -> (length (fixed2 q) <= 10)%nat) ->
        Forall (fun line => bars 0 line = bars 0 h1) rows)).
Proof. exact main_output. Qed.
Print Assumptions C106_output.

Example C106_case :
  main ex_float ascii_lower ex_fixed2 ex_files (ex_args None 0) = Printed [of_string "LAS F1 Score: 66.66"] /\
  main ex_float ascii_lower ex_fixed2 ex_files (ex_args (Some "nothing"%string) 0) = Refused /\
  main ex_float ascii_lower ex_fixed2 ex_files (ex_args (Some "bad"%string) 0) = Raised EValue /\
  match main ex_float ascii_lower ex_fixed2 ex_files (ex_args (Some "weights"%string) 0) with
  | Printed lines => map (fun i => nth i lines []) [0; 2; 5; 13; 14]%nat =
      map of_string ["Metrics    | Precision |    Recall |  F1 Score | AligndAcc";
                     "Tokens     |    100.00 |    100.00 |    100.00 |";
                     "UPOS       |    100.00 |    100.00 |    100.00 |    100.00";
                     "WeightedLAS|    200.00 |    200.00 |    200.00 |    200.00"; ""]%string
  | _ => False
  end.
Proof. split; [|split; [|split]]; vm_compute; reflexivity. Qed.

(* ------------------------------------------------------------------ *)

Theorem C107_same_files : forall parse_float lower fixed2, plain_numbers fixed2 -> forall files a lines text u,
  same_numbers fixed2 -> dict_get files (gold_file a) = Some text -> dict_get files (system_file a) = Some text ->
  load_conllu_file text = Ok u -> (weights_file a <> None \/ verbose a <> 0%nat) ->
  main parse_float lower fixed2 files a = Printed lines ->
  exists w h1 h2 rows, load_weights parse_float (weights_text files a) = Ok w /\ lines = h1 :: h2 :: rows /\
    Forall2 (fun row line =>
      (~ (metric_total w u (fst row) == 0)%Q ->
       exists last, row_cells line = [of_string (snd row); fixed2 100%Q; fixed2 100%Q; fixed2 100%Q; last] /\ (last = fixed2 100%Q \/ last = [])) /\
      ((metric_total w u (fst row) == 0)%Q ->
       exists last, row_cells line = [of_string (snd row); fixed2 0%Q; fixed2 0%Q; fixed2 0%Q; last]))
      (rows_of (negb (is_none (weights_file a)))) rows.
Proof. exact main_self. Qed.
Print Assumptions C107_same_files.

Example C107_case :
  match main ex_float ascii_lower ex_fixed2 ex_files (mkArgs (of_string "gold") (of_string "gold") None 2) with
  | Printed lines => map (fun i => nth i lines []) [2; 12; 13]%nat =
      map of_string ["Tokens     |    100.00 |    100.00 |    100.00 |";
                     "CLAS       |    100.00 |    100.00 |    100.00 |    100.00"; ""]%string
  | _ => False
  end.
Proof. vm_compute. reflexivity. Qed.
