(* Model of the arithmetic of scores in floating point: Score, spans_score, alignment_score and evaluate of
   babylondigger/evaluation/conll17_ud_eval.py:244-315, 404-444, and score_comparator and get_metrics_averager of
   babylondigger/evaluation/evaluation.py:204-212, 231-247.  Model_UDEval and Model_Harness compute the same with exact
   rational numbers.
   Simplifications: exponents are not bounded, so nothing overflows to infinity or is rounded to a denormal number or to 0
   (possible only for weights of relations beyond 1e-150 or 1e150 or so, or more than 10^300 words); there is no nan and no
   infinite weight, and -0.0 is 0.  sum() adds from the left and rounds every time, as python does up to version 3.11. *)
From Coq Require Import String Ascii ZArith NArith QArith Qround Bool List.
From Verif Require Import Base Model_Datamodel Model_Conllu Model_UDEval Model_Harness.
Import ListNotations.
Open Scope Z_scope.

(* ------------------------------------------------------------------ *)
(* The type float: IEEE 754 double precision, 53 bits, to nearest, ties to even *)

Definition pow2 (e : Z) : Q := Qpower 2 e.

(* the e with 2^e <= q < 2^(e+1), for q > 0 *)
Definition exponent (q : Q) : Z :=
  let e := Z.log2 (Qnum q) - Z.log2 (Zpos (Qden q)) in
  if Qle_bool (pow2 e) q then e else e - 1.

(* the nearest integer, of two the even one *)
Definition nearest_int (q : Q) : Z :=
  let k := Qfloor q in
  match Qcompare (q - inject_Z k) (1 # 2) with
  | Lt => k
  | Gt => k + 1
  | Eq => if Z.even k then k else k + 1
  end.

Definition round_pos (q : Q) : Q :=
  let unit := pow2 (exponent q - 52) in Qred (inject_Z (nearest_int (q / unit)) * unit).

(* the result of an operation of floats whose exact result is q *)
Definition to_double (q : Q) : Q :=
  match Qcompare q 0 with
  | Eq => 0%Q
  | Gt => round_pos q
  | Lt => (- round_pos (- q))%Q
  end.

(* ------------------------------------------------------------------ *)
(* int and float                                                       *)

Inductive number := Int (z : Z) | Float (q : Q).
Definition value (x : number) : Q := match x with Int z => inject_Z z | Float q => q end.
(* float(x): the conversion of an int is rounded as well *)
Definition as_float (x : number) : Q := match x with Int z => to_double (inject_Z z) | Float q => q end.

(* a + b *)
Definition num_add (a b : number) : number :=
  match a, b with
  | Int x, Int y => Int (x + y)
  | _, _ => Float (to_double (as_float a + as_float b))
  end.
(* a * b *)
Definition num_mul (a b : number) : number :=
  match a, b with
  | Int x, Int y => Int (x * y)
  | _, _ => Float (to_double (as_float a * as_float b))
  end.
(* a / b for b other than 0; the quotient of two ints is rounded once *)
Definition num_div (a b : number) : number :=
  match a, b with
  | Int x, Int y => Float (to_double (inject_Z x / inject_Z y))
  | _, _ => Float (to_double (as_float a / as_float b))
  end.
(* the truth value of a number *)
Definition num_true (a : number) : bool := negb (Qeq_bool (value a) 0).

(* a sum that starts with the int 0 *)
Definition num_sum {A} (f : A -> number) (l : list A) : number := fold_left (fun t x => num_add t (f x)) l (Int 0).

(* ------------------------------------------------------------------ *)
(* conll17_ud_eval.py                                                  *)

(* correct / total if total else 0.0 *)
Definition fl_ratio (a b : number) : Q := if num_true b then value (num_div a b) else 0%Q.

(* Score.__init__, 246-250, with the values of the four attributes; aligned_accuracy is aligned_total if that is 0 or None *)
Definition fl_new_score (gold system correct : number) (aligned : option number) : score :=
  mkScore (fl_ratio correct system) (fl_ratio correct gold) (fl_ratio (num_mul (Int 2) correct) (num_add system gold))
          (option_map (fun a => if num_true a then value (num_div correct a) else value a) aligned).

(* spans_score, 281-293 *)
Definition fl_spans_score (g s : list span) : score :=
  fl_new_score (Int (zlen g)) (Int (zlen s)) (Int (spans_correct g s)) None.

(* alignment_score, 295-315 *)
Definition fl_alignment_score (gold system : list word) (al : list aligned_words)
           (key_fn : option (word -> pref -> key)) (weight : word -> number) : score :=
  let aligned := num_sum (fun a => weight (a_gold a)) al in
  match key_fn with
  | None => fl_new_score (num_sum weight gold) (num_sum weight system) aligned None
  | Some k =>
      let good := filter (fun a => key_eqb (k (a_gold a) (a_gold_parent a)) (k (a_system a) (a_system_parent a))) al in
      fl_new_score (num_sum weight gold) (num_sum weight system) (num_sum (fun a => weight (a_gold a)) good) (Some aligned)
  end.

(* lambda w: 1, 295, and weighted_las, 422-423: the weights of a file, CLAS_weights and the weight 1.0 are floats *)
Definition int_one (w : word) : number := Int 1.
Definition fl_deprel_weight (weights : dict Q) (w : word) : number := Float (deprel_weight weights w).

(* 425-442 *)
Definition fl_metric_score (gold system : ud) (al : list aligned_words) (weights : option (dict Q)) (m : metric) : option score :=
  let sc := fl_alignment_score (u_words gold) (u_words system) al in
  match m with
  | MTokens => Some (fl_spans_score (u_tokens gold) (u_tokens system))
  | MSentences => Some (fl_spans_score (u_sents gold) (u_sents system))
  | MWords => Some (sc None int_one)
  | MUPOS => Some (sc (Some (tag_key [3%nat])) int_one)
  | MXPOS => Some (sc (Some (tag_key [4%nat])) int_one)
  | MFeats => Some (sc (Some (tag_key [5%nat])) int_one)
  | MAllTags => Some (sc (Some (tag_key [3%nat; 4%nat; 5%nat])) int_one)
  | MLemmas => Some (sc (Some (tag_key [2%nat])) int_one)
  | MUAS => Some (sc (Some (head_key [])) int_one)
  | MLAS => Some (sc (Some (head_key [7%nat])) int_one)
  | MCLAS => Some (sc (Some (head_key [7%nat])) (fl_deprel_weight clas_weights))
  | MWeightedLAS => option_map (fun ws => sc (Some (head_key [7%nat])) (fl_deprel_weight ws)) weights
  end.

(* evaluate, 404-444 *)
Definition fl_evaluate (lower : str -> str) (gold system : ud) (weights : option (dict Q)) : result (metric -> option score) :=
  do _ <- raise_if (negb (str_eqb (u_chars gold) (u_chars system))) EUD;
  do pairs <- align lower (u_words gold) (u_words system);
  Ok (fl_metric_score gold system (fill_parents pairs) weights).

(* ------------------------------------------------------------------ *)
(* evaluation.py                                                       *)

(* __sum, 206-207: the values are floats, the sum starts with the int 0 *)
Definition fl_score_sum (fields : list str) (a : attr) (scores : option table) : result Q :=
  rmap value (foldM (fun total field =>
           do t <- of_option EAttr scores;
           do s <- of_option EAttr (dict_get t field);
           do v <- of_option EType (get_attr a s);
           Ok (num_add total (Float v))) (Int 0) fields).

(* score_comparator, 204-212 *)
Definition fl_compare_scores (fields : list str) (a : attr) (new old : option table) : result bool :=
  do x <- fl_score_sum fields a new; do y <- fl_score_sum fields a old; Ok (Qgt x y).

(* defaultdict(int), 235 *)
Record fl_sums := mkFlSums { fs_p : option number; fs_r : option number; fs_f : option number; fs_a : option number }.
Definition fl_plus (o : option number) (q : Q) : option number :=
  Some (num_add (match o with Some x => x | None => Int 0 end) (Float q)).
Definition fl_add_score (u : fl_sums) (s : score) : fl_sums :=
  mkFlSums (fl_plus (fs_p u) (s_precision s)) (fl_plus (fs_r u) (s_recall s)) (fl_plus (fs_f u) (s_f1 s))
           (match s_aligned s with Some a => fl_plus (fs_a u) a | None => fs_a u end).
Definition fl_add_table (metrics : list str) (all : dict fl_sums) (t : option table) : result (dict fl_sums) :=
  foldM (fun all m =>
           do u <- of_option EKey (dict_get all m);
           do t <- of_option EType t;
           do s <- of_option EKey (dict_get t m);
           Ok (dict_set all m (fl_add_score u s))) all metrics.
(* value / len(scores), 244 *)
Definition fl_mean_of (n : Z) (u : fl_sums) : result score :=
  let mean x := value (num_div x (Int n)) in
  match fs_p u, fs_r u, fs_f u, fs_a u with
  | Some p, Some r, Some f, Some a => Ok (mkScore (mean p) (mean r) (mean f) (Some (mean a)))
  | _, _, _, _ => Err EType
  end.
(* calculate_average_scores, 234-245 *)
Definition fl_average_scores (metrics : list str) (tables : list (option table)) : result table :=
  do all <- foldM (fl_add_table metrics) (dict_update [] (map (fun m => (m, mkFlSums None None None None)) metrics)) tables;
  foldM (fun out m => do u <- of_option EKey (dict_get all m);
                      do s <- fl_mean_of (zlen tables) u; Ok (dict_set out m s)) [] metrics.
