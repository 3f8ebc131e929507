(* Model of the model selection in babylondigger/evaluation/evaluation.py:93-247.  Definitions only. *)
From Coq Require Import String Ascii ZArith NArith QArith Bool List.
From Verif Require Import Base Model_UDEval.
Import ListNotations.
Open Scope Z_scope.

(* ------------------------------------------------------------------ *)
(* Scores                                                              *)

(* the keys of the result of evaluate, conll17_ud_eval.py:425-442 *)
Definition metric_name (m : metric) : str :=
  of_string (match m with
             | MTokens => "Tokens" | MSentences => "Sentences" | MWords => "Words" | MUPOS => "UPOS"
             | MXPOS => "XPOS" | MFeats => "Feats" | MAllTags => "AllTags" | MLemmas => "Lemmas"
             | MUAS => "UAS" | MLAS => "LAS" | MCLAS => "CLAS" | MWeightedLAS => "WeightedLAS"
             end)%string.
Definition all_metrics : list metric :=
  [MTokens; MSentences; MWords; MUPOS; MXPOS; MFeats; MAllTags; MLemmas; MUAS; MLAS; MCLAS; MWeightedLAS].

(* _SCORES, evaluation.py:18 *)
Definition table := dict score.

(* the dictionary evaluate returns *)
Definition table_of (scores : metric -> option score) : table :=
  concat (map (fun m => match scores m with Some s => [(metric_name m, s)] | None => [] end) all_metrics).

(* lambda score: getattr(score, metric), evaluation.py:291; only the four attributes of a score are considered *)
Inductive attr := APrecision | ARecall | AF1 | AAligned.
Definition get_attr (a : attr) (s : score) : option Q :=
  match a with
  | APrecision => Some (s_precision s)
  | ARecall => Some (s_recall s)
  | AF1 => Some (s_f1 s)
  | AAligned => s_aligned s
  end.

(* __sum, evaluation.py:206-207.  scores may be None, None has no attribute get; getattr(None, ...) fails as well;
   adding None is a TypeError. *)
Definition score_sum (fields : list str) (a : attr) (scores : option table) : result Q :=
  foldM (fun total field =>
           do t <- of_option EAttr scores;
           do s <- of_option EAttr (dict_get t field);
           do v <- of_option EType (get_attr a s);
           Ok (total + v)%Q) 0%Q fields.

Definition Qgt (a b : Q) : bool := match Qcompare a b with Gt => true | _ => false end.

(* score_comparator, evaluation.py:204-212 *)
Definition compare_scores (fields : list str) (a : attr) (new old : option table) : result bool :=
  do x <- score_sum fields a new; do y <- score_sum fields a old; Ok (Qgt x y).

(* _is_better, evaluation.py:95-96; without a best candidate best_scores is None *)
Definition is_better (fields : list str) (a : attr) (scores best : option table) : result bool :=
  match best with None => Ok true | Some _ => compare_scores fields a scores best end.

(* get_metrics_printer, evaluation.py:215-228: only whether it raises *)
Definition print_metrics (metrics : list str) (scores : option table) : result unit :=
  foldM (fun _ m => do t <- of_option EType scores; do _ <- of_option EKey (dict_get t m); Ok tt) tt metrics.

(* ------------------------------------------------------------------ *)
(* Averaging, evaluation.py:231-247                                    *)

(* defaultdict(int) with the keys precision, recall, f1 and aligned_accuracy; a key is there once it was used *)
Record sums := mkSums { su_p : option Q; su_r : option Q; su_f : option Q; su_a : option Q }.
Definition no_sums : sums := mkSums None None None None.
Definition plus (o : option Q) (q : Q) : option Q := Some (match o with Some x => (x + q)%Q | None => (0 + q)%Q end).

Definition add_score (u : sums) (s : score) : sums :=
  mkSums (plus (su_p u) (s_precision s)) (plus (su_r u) (s_recall s)) (plus (su_f u) (s_f1 s))
         (match s_aligned s with Some a => plus (su_a u) a | None => su_a u end).

(* one score table *)
Definition add_table (metrics : list str) (all : dict sums) (t : option table) : result (dict sums) :=
  foldM (fun all m =>
           do u <- of_option EKey (dict_get all m);
           do t <- of_option EType t;
           do s <- of_option EKey (dict_get t m);
           Ok (dict_set all m (add_score u s))) all metrics.

(* _Scores with all four keywords; a missing one is a TypeError *)
Definition mean_of (n : Q) (u : sums) : result score :=
  match su_p u, su_r u, su_f u, su_a u with
  | Some p, Some r, Some f, Some a => Ok (mkScore (p / n) (r / n) (f / n) (Some (a / n)))%Q
  | _, _, _, _ => Err EType
  end.

Definition average_scores (metrics : list str) (tables : list (option table)) : result table :=
  do all <- foldM (add_table metrics) (dict_update [] (map (fun m => (m, no_sums)) metrics)) tables;
  foldM (fun out m => do u <- of_option EKey (dict_get all m);
                      do s <- mean_of (qlen tables) u; Ok (dict_set out m s)) [] metrics.

(* ------------------------------------------------------------------ *)
(* Paths                                                               *)

(* os.path.join *)
Definition slash : char := ch "/"%char.
Definition path_join (a b : str) : str :=
  if startswith b [slash] then b
  else if match a with [] => true | _ => endswith a [slash] end then a ++ b
  else a ++ slash :: b.

(* "epoch-{}".format(epoch) *)
Definition epoch_name (e : Z) : str := of_string "epoch-" ++ print_Z e.
(* "params-{}".format(index), line 193 *)
Definition params_name (i : Z) : str := of_string "params-" ++ print_Z i.
(* line 118 *)
Definition seed_path (model_path : str) (seed : Z) : str := path_join model_path (print_Z seed).
(* epoch_path.format(epoch), lines 120-121.  Simplification: the format is applied to the whole path; model paths are
   assumed to contain no braces *)
Definition epoch_path (model_path : str) (seed e : Z) : str := path_join (seed_path model_path seed) (epoch_name e).
(* where NeuralTaggerTrainer saves the model of an epoch: model_dir of line 119, neural_tagger.py:122-123 *)
Definition save_path (base model_path : str) (seed e : Z) : str :=
  path_join (path_join base (seed_path model_path seed)) (epoch_name e).
(* remove_model, evaluation.py:294-295: shutil.rmtree removes what is at the path and below it *)
Definition removed_path (base path : str) : str := path_join base path.

(* ------------------------------------------------------------------ *)
(* Selection loops                                                     *)

(* the best candidate so far with its scores and path, and the calls of the disposal callback so far *)
Record selection (X : Type) := mkSel { sel_best : option (X * option table * str); sel_disposed : list str }.
Arguments mkSel {X}.
Arguments sel_best {X}.
Arguments sel_disposed {X}.

Definition best_scores {X} (s : selection X) : option table :=
  match sel_best s with Some (_, sc, _) => sc | None => None end.

(* the common body of lines 133-140 and 195-200 *)
Definition consider {X} (fields : list str) (a : attr) (path : str) (x : X) (scores : option table)
           (s : selection X) : result (selection X) :=
  do b <- is_better fields a scores (best_scores s);
  Ok (if b then mkSel (Some (x, scores, path))
                      (sel_disposed s ++ match sel_best s with Some (_, _, p) => [p] | None => [] end)
      else mkSel (sel_best s) (sel_disposed s ++ [path])).

(* the loop of SingleSeedEvaluator.evaluate, lines 124-141, over what the trainer yields.  Returned with the state in
   which the loop ends, also when it ends with an exception. *)
Fixpoint epochs_loop {T} (metrics fields : list str) (a : attr) (path_of : Z -> str) (epoch : Z)
         (yields : list (table * T)) (s : selection T) : selection T * option exn :=
  match yields with
  | [] => (s, None)
  | (scores, tagger) :: yields' =>
      match (do _ <- print_metrics metrics (Some scores); consider fields a (path_of epoch) tagger (Some scores) s) with
      | Ok s' => epochs_loop metrics fields a path_of (epoch + 1) yields' s'
      | Err e => (s, Some e)
      end
  end.

(* SingleSeedEvaluator.evaluate, lines 116-150: the disposed paths and the outcome; the returned function tests with the
   best tagger (None without epochs) and writes below the path *)
Definition evaluate_seed {T} (metrics fields : list str) (a : attr) (model_path : str) (seed : Z)
           (trained : gen (table * T)) : list str * result (option T * str * option table) :=
  let (s, e) := epochs_loop metrics fields a (epoch_path model_path seed) 0 (fst trained) (mkSel None []) in
  (sel_disposed s,
   do _ <- (match e with Some e => Err e | None => match snd trained with Some e => Err e | None => Ok tt end end);
   do _ <- print_metrics metrics (best_scores s);
   Ok (option_map (fun b => fst (fst b)) (sel_best s), seed_path model_path seed, best_scores s)).

(* AverageEvaluator.evaluate, lines 159-176: the evaluators run one after another *)
Fixpoint evaluate_seeds {T} (metrics fields : list str) (a : attr) (model_path : str)
         (runs : list (Z * gen (table * T))) : list str * result (list (option T * str * option table)) :=
  match runs with
  | [] => ([], Ok [])
  | (seed, trained) :: runs' =>
      let (d, r) := evaluate_seed metrics fields a model_path seed trained in
      match r with
      | Err e => (d, Err e)
      | Ok x => let (d', r') := evaluate_seeds metrics fields a model_path runs' in
                (d ++ d', do xs <- r'; Ok (x :: xs))
      end
  end.

Definition evaluate_average {T} (metrics fields : list str) (a : attr) (model_path : str)
           (runs : list (Z * gen (table * T))) : list str * result (list (option T * str) * option table) :=
  let (d, r) := evaluate_seeds metrics fields a model_path runs in
  (d, do xs <- r;
      do avg <- average_scores metrics (map snd xs);
      do _ <- print_metrics metrics (Some avg);
      Ok (map fst xs, Some avg)).

(* the evaluator built in __build_estimator, lines 301-307: random_seed is a number or a list *)
Inductive seeding (R : Type) := OneSeed (r : R) | ManySeeds (l : list R).
Arguments OneSeed {R}.
Arguments ManySeeds {R}.

Definition evaluate_candidate {T} (metrics fields : list str) (a : attr) (model_path : str)
           (runs : seeding (Z * gen (table * T))) : list str * result (list (option T * str) * option table) :=
  match runs with
  | OneSeed (seed, trained) =>
      let (d, r) := evaluate_seed metrics fields a model_path seed trained in
      (d, do x <- r; Ok ([fst x], snd x))
  | ManySeeds l => evaluate_average metrics fields a model_path l
  end.

(* params_search, lines 188-201, over the outcomes of the evaluations of the candidates: what the evaluation of each
   candidate disposed and what it returned *)
Fixpoint search_loop {P M} (fields : list str) (a : attr) (index : Z)
         (cands : list (P * (list str * result (M * option table)))) (s : selection (P * M))
  : selection (P * M) * option exn :=
  match cands with
  | [] => (s, None)
  | (params, (disposed, outcome)) :: cands' =>
      let s := mkSel (sel_best s) (sel_disposed s ++ disposed) in
      match (do ms <- outcome; consider fields a (params_name index) (params, fst ms) (snd ms) s) with
      | Ok s' => search_loop fields a (index + 1) cands' s'
      | Err e => (s, Some e)
      end
  end.

Definition params_search {P M} (fields : list str) (a : attr)
           (cands : list (P * (list str * result (M * option table)))) : selection (P * M) * option exn :=
  search_loop fields a 0 cands (mkSel None []).

(* the search with the evaluator of __build_estimator; for each candidate what the trainer yields for each seed *)
Definition search {P T} (metrics fields : list str) (a : attr)
           (cands : list (P * seeding (Z * gen (table * T)))) : selection (P * list (option T * str)) * option exn :=
  params_search fields a
    (map (fun ic => (fst (snd ic), evaluate_candidate metrics fields a (params_name (fst ic)) (snd (snd ic))))
         (enumerate cands)).
