(* The unit tests of /repo/babylondigger/tests and those of evaluation/conll17_ud_eval.py, run on the model: one
   Example for each test method, with its name.  These are tests of the model, not proofs about it.  Two tests of the repository contradict its code; they are given
   with what the code does instead (test_another_valid_grid_fails, test_grid_has_intersections2_fails). *)
From Coq Require Import String Ascii ZArith NArith QArith Bool List.
From Verif Require Import Base Model_Datamodel Model_Conllu Model_UDEval Model_Lemma Model_Grid Model_Training Model_Harness Model_Tester
  Tests_Data.
Import ListNotations.
Open Scope Z_scope.

Ltac run := repeat split; vm_compute; reflexivity.

(* ---- tests/test_datamodel.py ---- *)

(* Token(start, end) and the forms with named arguments *)
Definition tok (a b : Z) : result token := new_token a b None None None 0 None None None None.
Definition multi (a b sub : Z) (s : string) : result token := new_token a b None None None sub (Some (u8 s)) None None None.
Definition hdoc (a b h : Z) : result token := new_token a b None None None 0 None (Some h) None None.
Definition hsent (a b h : Z) : result token := new_token a b None None None 0 None None (Some h) None.
Definition doc (text : string) (tokens : list (result token)) (sents : option (list (result sentence))) (validate : bool)
  : result document :=
  do ts <- mapM (fun t => t) tokens;
  do ss <- match sents with None => Ok None | Some l => rmap Some (mapM (fun s => s) l) end;
  new_document (u8 text) ts ss validate.
Definition same_tokens (d : result document) (tokens : list (result token)) : bool :=
  match d, mapM (fun t => t) tokens with
  | Ok d, Ok ts => list_eqb token_eqb (dtokens d) ts
  | _, _ => false
  end.
Definition same_docs (a b : result document) : bool := match a, b with Ok a, Ok b => doc_eqb a b | _, _ => false end.
Definition sizes (d : result document) : result (Z * Z) := do d <- d; Ok (zlen (dtokens d), zlen (dsents d)).
Definition same_token (a b : result token) : bool := match a, b with Ok a, Ok b => token_eqb a b | _, _ => false end.

Example TokenTest_test_negative_start : tok (-1) 1 = Err EAssert. Proof. run. Qed.
Example TokenTest_test_empty_token : tok 1 1 = Err EAssert. Proof. run. Qed.
Example TokenTest_test_incorrect_span : tok 3 1 = Err EAssert. Proof. run. Qed.
Example TokenTest_test_multiword :
  rmap (fun t => (is_multiword t, trepl t, tsub t)) (multi 0 1 0 "replacement") = Ok (true, Some (u8 "replacement"), 0).
Proof. run. Qed.
Definition noun : pos := mkPos (Some (u8 "N")) None [].
Example TokenTest_test_copy :
  same_token (do t <- tok 0 1; with_morphology t (Some noun) (Some (u8 "lemma")))
             (new_token 0 1 (Some noun) (Some (u8 "lemma")) None 0 None None None None) = true /\
  same_token (do t <- tok 0 1; with_syntax t (Some (u8 "deprel")) None (Some 1))
             (new_token 0 1 None None (Some (u8 "deprel")) 0 None None (Some 1) None) = true /\
  same_token (do t <- tok 0 1; do n <- with_syntax t (Some (u8 "deprel")) None (Some 1); with_syntax n (Some (u8 "deprel")) (Some 1) None)
             (new_token 0 1 None None (Some (u8 "deprel")) 0 None (Some 1) None None) = true.
Proof. run. Qed.
Example TokenTest_test_multiword_token :
  same_token (do t <- multi 0 1 1 "replacement"; with_morphology t None None) (multi 0 1 1 "replacement") = true /\
  same_token (do t <- multi 0 1 1 "replacement"; with_syntax t None None None) (multi 0 1 1 "replacement") = true.
Proof. run. Qed.

Example SentenceTest_test_negative_start : new_sentence (-1) 1 = Err EAssert. Proof. run. Qed.
Example SentenceTest_test_empty_sentence : new_sentence 1 1 = Err EAssert. Proof. run. Qed.
Example SentenceTest_test_incorrect_span : new_sentence 3 2 = Err EAssert. Proof. run. Qed.

(* the fields of DocumentTest *)
Definition hello : string := "Hello, world! This is babylondigger!".
Definition tokens : list (result token) :=
  [tok 0 5; tok 5 6; tok 7 12; tok 12 13; tok 14 18; tok 19 21; tok 22 35; tok 35 36].
Definition multiword_tokens : list (result token) :=
  [tok 0 5; tok 5 6; tok 7 12; tok 12 13; tok 14 18; tok 19 21; tok 35 36; multi 22 35 1 "digger"; multi 22 35 0 "babylon"].
Definition syntax_tokens : list (result token) :=
  [hdoc 0 5 2; hdoc 5 6 2; hdoc 7 12 (-1); hdoc 12 13 2; hdoc 14 18 6; hdoc 19 21 6; hdoc 22 35 (-1); hdoc 35 36 6].
Definition syntax_sentence_tokens : list (result token) :=
  [hsent 0 5 2; hsent 5 6 2; hsent 7 12 (-1); hsent 12 13 2; hsent 14 18 2; hsent 19 21 2; hsent 22 35 (-1); hsent 35 36 2].
Definition sentences : list (result sentence) := [new_sentence 0 4; new_sentence 4 8].

Example DocumentTest_test_empty_document :
  doc "" [] (Some []) false = Ok (mkDoc [] [] []).
Proof. run. Qed.
Example DocumentTest_test_normal :
  rmap dtext (doc hello tokens (Some sentences) false) = Ok (u8 hello) /\
  sizes (doc hello tokens (Some sentences) false) = Ok (8, 2) /\
  same_tokens (doc hello tokens (Some sentences) false) tokens = true.
Proof. run. Qed.
Example DocumentTest_test_multiword :
  rmap dtext (doc hello multiword_tokens None false) = Ok (u8 hello) /\
  sizes (doc hello multiword_tokens None false) = Ok (9, 1) /\
  same_tokens (doc hello multiword_tokens None false)
    [tok 0 5; tok 5 6; tok 7 12; tok 12 13; tok 14 18; tok 19 21; multi 22 35 0 "babylon"; multi 22 35 1 "digger"; tok 35 36] = true.
Proof. run. Qed.
Example DocumentTest_test_skipped_multiword_token : doc hello (removelast multiword_tokens) None false = Err EValue.
Proof. run. Qed.
Example DocumentTest_test_single_sentence :
  sizes (doc hello tokens None false) = Ok (8, 1) /\
  rmap (fun d => rmap (fun s => list_eqb token_eqb (ns_tokens s) (dtokens d)) (get_sentence d 0)) (doc hello tokens None false) = Ok (Ok true).
Proof. run. Qed.
Example DocumentTest_test_tokens_intersection : doc hello (tokens ++ [tok 21 23]) (Some sentences) false = Err EValue.
Proof. run. Qed.
Example DocumentTest_test_excess_token : doc hello (tokens ++ [tok 37 38]) (Some sentences) false = Err EValue.
Proof. run. Qed.
Example DocumentTest_test_excess_sentence : doc hello tokens (Some (sentences ++ [new_sentence 8 9])) false = Err EValue.
Proof. run. Qed.
Example DocumentTest_test_sentences_intersection : doc hello tokens (Some (sentences ++ [new_sentence 2 5])) false = Err EValue.
Proof. run. Qed.
Example DocumentTest_test_out_of_sentence_tokens :
  doc hello tokens (Some (skipn 1 sentences)) false = Err EValue /\
  doc hello tokens (Some (firstn 1 sentences)) false = Err EValue /\
  doc hello tokens (Some [new_sentence 0 4; new_sentence 5 8]) false = Err EValue.
Proof. run. Qed.
(* the tokens of the document have both indices, those of the list have one: Token.__eq__ compares only the index in the
   document, datamodel.py:181-182 *)
Example DocumentTest_test_syntax_normal :
  sizes (doc hello syntax_tokens (Some sentences) true) = Ok (8, 2) /\
  same_tokens (doc hello syntax_tokens (Some sentences) true) syntax_tokens = true.
Proof. run. Qed.
Example DocumentTest_test_syntax_multiple_roots : doc hello syntax_tokens None true = Err EValue.
Proof. run. Qed.
Example DocumentTest_test_syntax_out_of_sentence :
  doc hello (removelast syntax_tokens ++ [hdoc 35 36 3]) (Some sentences) true = Err EValue.
Proof. run. Qed.
(* the second call of the test is never reached; it raises as well *)
Example DocumentTest_test_syntax_loop :
  doc hello (firstn 6 syntax_tokens ++ [hdoc 22 35 7; hdoc 35 36 4]) (Some sentences) true = Err EValue /\
  doc hello (removelast syntax_tokens ++ [hdoc 35 36 7]) (Some sentences) true = Err EValue.
Proof. run. Qed.
Example DocumentTest_test_partly_specified_syntax :
  doc hello (removelast syntax_tokens ++ [tok 35 36]) (Some sentences) true = Err EValue /\
  doc hello (tok 0 5 :: skipn 1 syntax_tokens) (Some sentences) true = Err EValue.
Proof. run. Qed.
Example DocumentTest_test_no_syntax_sentence :
  sizes (doc hello (firstn 4 syntax_tokens ++ skipn 4 tokens) (Some sentences) true) = Ok (8, 2) /\
  same_tokens (doc hello (firstn 4 syntax_tokens ++ skipn 4 tokens) (Some sentences) true) (firstn 4 syntax_tokens ++ skipn 4 tokens) = true.
Proof. run. Qed.
Example DocumentTest_test_sentence_syntax_notation :
  same_docs (doc hello syntax_tokens (Some sentences) false) (doc hello syntax_sentence_tokens (Some sentences) false) = true.
Proof. run. Qed.
Example DocumentTest_test_mixed_syntax_notation :
  forallb (fun i => same_docs (doc hello syntax_tokens (Some sentences) false)
                              (doc hello (firstn i syntax_tokens ++ skipn i syntax_sentence_tokens) (Some sentences) false))
          (seq 1 6) = true.
Proof. run. Qed.
Example DocumentTest_test_overspecified_syntax_tokens :
  same_docs (doc hello syntax_tokens (Some sentences) false)
            (doc hello (removelast syntax_tokens ++ [new_token 35 36 None None None 0 None (Some 6) (Some 2) None]) (Some sentences) false) = true /\
  doc hello (removelast syntax_tokens ++ [new_token 35 36 None None None 0 None (Some 6) (Some 1) None]) (Some sentences) false = Err EValue.
Proof. run. Qed.
Definition updated (new : list (result token)) : result document :=
  do d <- doc hello tokens (Some sentences) false; do ts <- mapM (fun t => t) new; from_document d ts.
Definition noun_token : result token := new_token 0 5 (Some noun) (Some (u8 "lemma")) None 0 None None None None.
Example DocumentTest_test_update_tokens :
  updated (removelast tokens) = Err EValue /\
  updated (removelast tokens ++ [tok 6 7]) = Err EValue /\
  same_tokens (updated (skipn 1 tokens ++ [noun_token])) (noun_token :: skipn 1 tokens) = true.
Proof. run. Qed.

Definition hello_doc : result document := doc hello tokens (Some sentences) false.
(* a view of a token and its neighbours, by position *)
Definition around (i : Z) : result (bool * bool * option Z * option Z) :=
  do d <- hello_doc; do v <- doc_get_token d i; do p <- nav_previous v; do n <- nav_next v;
  Ok (nav_is_first v, nav_is_last v, option_map nv_index p, option_map nv_index n).
Example NavigableTokenTest_test_navigation :
  around 0 = Ok (true, false, None, Some 1) /\
  around (-1) = Ok (false, true, Some 6, None) /\
  around 2 = Ok (false, false, Some 1, Some 3) /\
  (do d <- hello_doc; do v <- doc_get_token d 2; do p <- nav_previous v; match p with Some p => nav_next p | None => Ok None end)
  = (do d <- hello_doc; rmap Some (doc_get_token d 2)) /\
  (do d <- hello_doc; do v <- doc_get_token d 2; do n <- nav_next v; match n with Some n => nav_previous n | None => Ok None end)
  = (do d <- hello_doc; rmap Some (doc_get_token d 2)).
Proof. run. Qed.
Definition texts (d : result document) : result (list str) := do d <- d; do vs <- doc_nav_tokens d; Ok (map wtext vs).
Example NavigableTokenTest_test_token_text :
  texts hello_doc = Ok (map u8 ["Hello"; ","; "world"; "!"; "This"; "is"; "babylondigger"; "!"]%string).
Proof. run. Qed.
Example NavigableTokenTest_test_multiword_token_text :
  texts (doc hello multiword_tokens None false) = Ok (map u8 ["Hello"; ","; "world"; "!"; "This"; "is"; "babylon"; "digger"; "!"]%string).
Proof. run. Qed.

Definition around_sentence (i : Z) : result (bool * bool * option Z * option Z) :=
  do d <- hello_doc; do v <- get_sentence d i; do p <- ns_previous v; do n <- ns_next v;
  Ok (ns_is_first v, ns_is_last v, option_map ns_index p, option_map ns_index n).
Example NavigableSentenceTest_test_navigation :
  around_sentence 0 = Ok (true, false, None, Some 1) /\ around_sentence (-1) = Ok (false, true, Some 0, None) /\
  (do d <- hello_doc; do v <- get_sentence d 0; ns_next v) = (do d <- hello_doc; rmap Some (get_sentence d (-1))).
Proof. run. Qed.
Example NavigableSentenceTest_test_text :
  (do d <- hello_doc; do ss <- doc_nav_sentences d; mapM ns_text ss) = Ok (map u8 ["Hello, world!"; "This is babylondigger!"]%string).
Proof. run. Qed.
Example NavigableSentenceTest_test_sentence_tokens :
  (do d <- hello_doc; do s <- get_sentence d 1; Ok (list_eqb token_eqb (ns_tokens s) (skipn 4 (dtokens d)), zlen (ns_tokens s))) = Ok (true, 4).
Proof. run. Qed.
Example NavigableSentenceTest_test_sentence_token_text :
  (do d <- hello_doc; do s <- get_sentence d 1; do vs <- ns_nav_tokens s; Ok (map wtext vs))
  = Ok (map u8 ["This"; "is"; "babylondigger"; "!"]%string).
Proof. run. Qed.
Example NavigableSentenceTest_test_sentence_boundary_token :
  (do d <- hello_doc; do s <- get_sentence d 0; do v <- ns_get_token s (-1); Ok (nav_is_last v)) = Ok true /\
  (do d <- hello_doc; do s <- get_sentence d 1; do v <- ns_get_token s 0; Ok (nav_is_first v)) = Ok true.
Proof. run. Qed.

(* ---- tests/evaluation/test_io.py ---- *)

Definition read (limit : Z) (text : str) : result (list document) :=
  do g <- read_str limit default_columns text; all_of g.
Definition reads_as (limit : Z) (text : str) (d : result document) : bool :=
  match read limit text, d with Ok [x], Ok y => doc_eqb x y | _, _ => false end.
(* _filter_comments *)
Definition no_comments (text : str) : str :=
  join [chNL] (filter (fun l => negb (startswith l (of_string "#"))) (split chNL text)).
Definition writes_as (ds : list (result document)) (text : str) : bool :=
  match (do l <- mapM (fun d => d) ds; write_str default_columns l) with Ok out => str_eqb out text | Err _ => false end.

Example CoNLLReaderTest_test_empty_reader : read (-1) [] = Err EAssert /\ read 0 [] = Err EAssert. Proof. run. Qed.
Example CoNLLReaderTest_test_normal : reads_as 1 regular_document_conllu regular_document = true. Proof. run. Qed.
Example CoNLLReaderTest_test_empty_tokens :
  rmap (map (fun d => (dtext d, zlen (dsents d), zlen (dtokens d)))) (read 1 empty_token_document_conllu)
  = Ok [(empty_token_document_text, 1, empty_token_document_tokens_count)].
Proof. run. Qed.
Example CoNLLReaderTest_test_multiword_token : reads_as 1 multiword_token_document_conllu multiword_token_document = true.
Proof. run. Qed.
Example CoNLLReaderTest_test_multiple_multiword_token : reads_as 1 multiword_token_document2_conllu multiword_token_document2 = true.
Proof. run. Qed.
Example CoNLLReaderTest_test_several_docs :
  match read 1 (regular_document_conllu ++ empty_token_document_conllu), regular_document with
  | Ok [a; b], Ok c => (doc_eqb a c && str_eqb (dtext b) empty_token_document_text && (zlen (dsents b) =? 1))%bool
  | _, _ => false
  end = true.
Proof. run. Qed.
Example CoNLLReaderTest_test_several_sentences :
  forallb (fun limit =>
    match read limit (regular_document_conllu ++ empty_token_document_conllu), regular_document with
    | Ok [a], Ok c => (str_eqb (dtext a) (regular_document_text ++ empty_token_document_text) && (zlen (dsents a) =? 2)
                       && (zlen (dtokens a) =? zlen (dtokens c) + empty_token_document_tokens_count))%bool
    | _, _ => false
    end) [2; 3] = true.
Proof. run. Qed.

Example CoNLLUWriterTest_test_empty_doc : writes_as [doc "" [] None false] [] = true. Proof. run. Qed.
Example CoNLLUWriterTest_test_normal : writes_as [regular_document] (no_comments regular_document_conllu) = true. Proof. run. Qed.
Example CoNLLUWriterTest_test_several_docs :
  writes_as [regular_document; regular_document; regular_document] (concat (repeat (no_comments regular_document_conllu) 3)) = true.
Proof. run. Qed.
Example CoNLLUWriterTest_test_several_sentences :
  writes_as [do ds <- read 5 (concat (repeat regular_document_conllu 3)); py_index ds 0] (concat (repeat (no_comments regular_document_conllu) 3)) = true.
Proof. run. Qed.
Example CoNLLUWriterTest_test_multiword_token :
  writes_as [multiword_token_document] (no_comments multiword_token_document_conllu) = true.
Proof. run. Qed.
Example CoNLLUWriterTest_test_multiple_multiword_token :
  writes_as [multiword_token_document2] (no_comments multiword_token_document2_conllu) = true.
Proof. run. Qed.

(* ---- tests/evaluation/test_evaluation.py ---- *)

Definition gold : result document :=
  build (u8 "Hello, world!")
    [new_token 0 5 (Some (mkPos (Some (u8 "INTJ")) None [])) (Some (u8 "hello")) None 0 None None None None;
     new_token 5 6 (Some (mkPos (Some (u8 "PUNCT")) None [])) (Some (u8 ",")) None 0 None None None None;
     new_token 7 12 (Some (mkPos (Some (u8 "N")) None [(u8 "Number", u8 "Singular")])) (Some (u8 "world")) None 0 None None None None;
     new_token 12 13 (Some (mkPos (Some (u8 "PUNCT")) None [])) (Some (u8 "!")) None 0 None None None None] None.
(* _Tagger_Mock: every token gets the same tag and its text as lemma *)
Definition mock_tag (p : string) (d : document) : result document :=
  do vs <- doc_nav_tokens d;
  do ts <- mapM (fun v => with_morphology (nv_token v) (Some (mkPos (Some (u8 p)) None [])) (Some (wtext v))) vs;
  from_document d ts.
Definition mock (p : string) (ds : gen document) : gen document := gen_map (mock_tag p) (fst ds) (snd ds).
(* str.lower() of the texts that occur *)
Definition lower (s : str) : str := map (fun c => if ((65 <=? c) && (c <=? 90))%N then (c + 32)%N else c) s.
Definition scored (tagger : gen document -> gen document) : result (metric -> option score) :=
  do d <- gold; dataset_test lower [d] tagger.
Definition three (r : result (metric -> option score)) (m : metric) : option (list Q) :=
  match r with Ok f => option_map (fun s => map Qred [s_precision s; s_recall s; s_f1 s]) (f m) | Err _ => None end.

(* without weights there is no score of weighted LAS *)
Example TaggerEvaluatorTest_test_right_answer :
  map (three (scored (fun _ => match gold with Ok d => ([d], None) | Err e => ([], Some e) end))) all_metrics
  = map (fun m => match m with MWeightedLAS => None | _ => Some [1; 1; 1]%Q end) all_metrics.
Proof. run. Qed.
Example TaggerEvaluatorTest_test_half_of_answers :
  map (three (scored (mock "PUNCT"))) [MUPOS; MFeats; MLemmas] = [Some [1#2; 1#2; 1#2]; Some [3#4; 3#4; 3#4]; Some [3#4; 3#4; 3#4]]%Q.
Proof. run. Qed.

(* Score has only f1 *)
Definition only_f1 (l : list (string * Q)) : option table := Some (map (fun x => (u8 (fst x), mkScore 0 0 (snd x) None)) l).
Definition scores1 := only_f1 [("metric1", 1); ("metric2", 1#2); ("metric3", 7#10)]%string%Q.
Definition scores2 := only_f1 [("metric1", 9#10); ("metric2", 6#10); ("metric3", 1#2)]%string%Q.
Definition scores3 := only_f1 [("metric1", 1); ("metric2", 6#10); ("metric3", 7#10)]%string%Q.
Example ScoreComparatorTest_test_single :
  compare_scores [u8 "metric1"] AF1 scores1 scores2 = Ok true /\ compare_scores [u8 "metric1"] AF1 scores1 scores3 = Ok false.
Proof. run. Qed.
(* with exact numbers the sums of the first comparison are equal; with floating point 1.0 + 0.5 > 0.9 + 0.6 is false as well *)
Example ScoreComparatorTest_test_several :
  compare_scores [u8 "metric1"; u8 "metric2"] AF1 scores1 scores2 = Ok false /\
  compare_scores [u8 "metric1"; u8 "metric2"] AF1 scores3 scores1 = Ok true.
Proof. run. Qed.

(* each candidate is trained once and yields one tagger; the best candidate is the second *)
Example ParameterEstimatorTest_test_best_params :
  let cand p := (u8 p, ([], rmap (fun f => (tt, Some (table_of f))) (scored (mock p)))) in
  option_map (fun b => fst (fst (fst b))) (sel_best (fst (params_search [u8 "UPOS"] AF1 [cand "N"; cand "PUNCT"; cand "INTJ"]%string)))
  = Some (u8 "PUNCT").
Proof. run. Qed.

(* ---- tests/evaluation/test_dataset.py ---- *)

(* for a generator of random numbers of our own; what python's would give is not modelled *)
Definition lcg_seed (s : Z) : Z := s.
Definition lcg (r n : Z) : Z * Z := let r' := (r * 1103515245 + 12345) mod 2147483648 in ((r' / 65536) mod n, r').
Definition shuffled (seed : Z) (datas : list (list Z)) := passes lcg_seed lcg 50 seed datas.
Example ShuffledDatasetTest_test_empty : shuffled 1 [[]] = [Ok []]. Proof. run. Qed.
(* test_always_same_output and test_skip_iterator compare two data sets with the same seed: [shuffled] is a function, and
   the order of a pass is fixed when it begins *)
Example ShuffledDatasetTest_test_different_iterators :
  match shuffled 1 [zrange 300; zrange 300] with
  | [Ok a; Ok b] => (negb (list_eqb Z.eqb a b) && (zlen a =? 300) && (zlen b =? 300))%bool
  | _ => false
  end = true.
Proof. run. Qed.

(* ---- tests/evaluation/test_grid_eval.py ---- *)

(* leaves are texts, numbers and lists, here all of them by what is printed for them *)
Definition leaf (s : string) : json string := JLeaf s.
Definition obj (l : list (string * json string)) : json string := JDict (map (fun x => (u8 (fst x), snd x)) l).
Definition one (k : string) (j : json string) : json string := obj [(k, j)].
Definition optimizer (k v : string) : json string := one "nn_config" (one "general" (one "optimizer" (one k (leaf v)))).

Definition grid_dict_1 : grid string :=
  [(u8 "param1", [one "epochs" (leaf "100"); one "batch_size" (leaf "8")]); (u8 "param2", [optimizer "type" "RMSProp"])].
Definition grid_dict_2 : grid string :=
  [(u8 "param1", [one "epochs" (leaf "100")]); (u8 "param2", [optimizer "type" "GD"]); (u8 "param3", [optimizer "type" "RMSProp"])].
Definition grid_dict_3 : grid string := [(u8 "param1", [one "epochs" (leaf "100")]); (u8 "param2", [optimizer "type" "RMSProp"])].
Definition shared (c : string) (v : string) : json string := one "nn_config" (one "shared_part" (one "config" (one c (leaf v)))).
Definition shared_lemma (v : string) : json string :=
  obj [("nn_config", one "shared_part" (one "config" (one "skip_connection" (leaf v))));
       ("lemma", one "config" (one "shared_name" (leaf "bilstm_and_word_features")))]%string.
Definition lemma_name (v : string) : json string := one "nn_config" (one "lemma" (one "config" (one "shared_name" (leaf v)))).
Definition grid_dict_5 : grid string :=
  [(u8 "1", [lemma_name "bilstm"; shared_lemma "sum"; shared_lemma "concat"]);
   (u8 "2", [shared "lstm_cell_size" "100"; shared "lstm_cell_size" "200"])].
Definition grid_dict_6 : grid string :=
  [(u8 "1", [shared_lemma "sum"; shared_lemma "concat"]);
   (u8 "2", [lemma_name "bilstm"; lemma_name "bilstm_and_word_features"])].
Definition to_merge_1 := optimizer "type" "RMSProp".
Definition to_merge_2 := one "nn_config" (one "general" (one "type" (leaf "RMSProp"))).
Definition to_merge_3 := optimizer "undefined_key" "RMSProp".
Definition to_merge_4 := one "nn_config" (one "shared_part" (one "config" (one "char_cnn_kernels" (one "size" (leaf "3"))))).
Definition hyper_1 : json string :=
  obj [("epochs", leaf "130"); ("batch_size", leaf "8"); ("nn_config", one "general" (one "optimizer" (one "type" (leaf "RMSProp"))));
       ("shared_part", one "config" (one "char_cnn_kernels" (leaf "[{""size"": 3, ""count"": 100, ""dilation"": 1}]")))]%string.
Definition hyper_2 := optimizer "initial_lr" "0.007".
Definition empty : json string := obj [].

(* merge(hyper, grid) for two objects, and for one *)
Fixpoint unload (fuel : nat) (h : jheap string) (v : jval string) : json string :=
  match fuel, v with
  | _, VLeaf x => JLeaf x
  | O, VRef _ => JLeaf ""%string
  | S fuel', VRef a => JDict (map (fun kv => (fst kv, unload fuel' h (snd kv))) (match nth_error h a with Some d => d | None => [] end))
  end.
Definition merge_objects (v w : jval string) (h : jheap string) : result (json string) :=
  do a <- address v; do g <- address w; do h' <- merge (S (length h)) a g h; Ok (unload (length h') h' v).
Definition merge_two (hyper g : json string) : result (json string) :=
  let (v, h1) := Model_Grid.load hyper [] in let (w, h2) := Model_Grid.load g h1 in merge_objects v w h2.
Definition merge_same (hyper : json string) : result (json string) :=
  let (v, h) := Model_Grid.load hyper [] in merge_objects v v h.

Example TestMergeMethod_test_hyper_is_empty : merge_two empty to_merge_1 = Err EValue /\ merge_two empty to_merge_3 = Err EValue.
Proof. run. Qed.
Example TestMergeMethod_test_grid_is_empty : merge_two hyper_1 empty = Ok hyper_1. Proof. run. Qed.
Example TestMergeMethod_test_same_dict : merge_two empty empty = Ok empty /\ merge_same hyper_1 = Ok hyper_1. Proof. run. Qed.
Example TestMergeMethod_test_dict_with_undefined_key :
  merge_two hyper_1 to_merge_3 = Err EValue /\ merge_two hyper_2 to_merge_1 = Err EValue /\ merge_two hyper_1 to_merge_2 = Err EValue /\
  merge_two hyper_2 to_merge_3 = Err EValue /\ merge_two hyper_2 to_merge_2 = Err EValue /\ merge_two hyper_1 to_merge_4 = Err EValue.
Proof. run. Qed.
Example TestCheckGridValidMethod_test_grid_has_too_many_params_in_one_key : check_grid grid_dict_1 = Err EValue. Proof. run. Qed.
Example TestCheckGridValidMethod_test_grid_has_intersections : check_grid grid_dict_2 = Err EValue. Proof. run. Qed.
Example TestCheckGridValidMethod_test_valid_grid : check_grid grid_dict_3 = Ok tt. Proof. run. Qed.
(* The test expects None.  The first keys of the alternatives of the first list differ (lemma and shared_part), so
   __check_is_grid_valid raises: grid_eval.py:52-54.  See C59. *)
Example TestCheckGridValidMethod_test_another_valid_grid_fails : check_grid grid_dict_5 = Err EValue. Proof. run. Qed.
(* The test expects a ValueError.  Only the first key of each dictionary is followed (grid_eval.py:38-45), so the parameter
   that both lists set is not seen. *)
Example TestCheckGridValidMethod_test_grid_has_intersections2_fails : check_grid grid_dict_6 = Ok tt. Proof. run. Qed.
Example TestTakeAllKeyPathMethod_test_grid_item_path :
  key_path to_merge_1 = Some (map u8 ["nn_config"; "general"; "optimizer"; "type"]%string) /\
  key_path (one "epochs" (leaf "100")) = Some [u8 "epochs"].
Proof. run. Qed.

(* ---- tests/test_lemma.py ---- *)

Definition suffix_rule (s : string) : rule := mkRule (u8 s) [] false.
Example LemmaSuffixTransformationTest_test_applicable :
  is_applicable (suffix_rule "ого") (u8 "столичного") = true /\ is_applicable (suffix_rule "") (u8 ",") = true /\
  is_applicable (suffix_rule "") (u8 "столичного") = true /\ is_applicable (suffix_rule "ого") (u8 ",") = false /\
  is_applicable (suffix_rule "гого") (u8 ",") = false /\ is_applicable (suffix_rule "гого") (u8 "столичного") = false.
Proof. run. Qed.
Definition suffixes (word lemma : string) : str * str := let r := get_rule (u8 word) (u8 lemma) in (word_suffix r, lemma_suffix r).
Example LemmaSuffixTransformationTest_test_rule :
  suffixes "хлібові" "хліб" = (u8 "ові", []) /\ suffixes "другого" "другий" = (u8 "ого", u8 "ий") /\ suffixes "." "." = ([], []) /\
  suffixes "його" "його" = ([], []) /\ suffixes "єсть" "бути" = (u8 "єсть", u8 "бути") /\ suffixes "сцен" "сцена" = ([], u8 "а").
Proof. run. Qed.
Definition entries : list entry :=
  [(get_rule (u8 "хлібові") (u8 "хліб"), 0); (get_rule (u8 "другого") (u8 "другий"), 1); (get_rule (u8 ".") (u8 "."), 2);
   (get_rule (u8 "єсть") (u8 "бути"), 3); (get_rule (u8 "сцен") (u8 "сцена"), 4)].
Definition numbers (word : string) : list Z := map snd (get_applicable_rules (build_trie entries) (u8 word)).
Example LemmaTransformationTrieTest_test_applicable_rules :
  numbers "його" = [2; 4; 1] /\ numbers "єсть" = [2; 4; 3] /\ numbers "атласі" = [2; 4] /\ numbers "." = [2; 4].
Proof. run. Qed.

(* ---- class TestAlignment of evaluation/conll17_ud_eval.py:522-569 ---- *)

(* _load_words: words separated by spaces are a multiword token and its words; all words but the first depend on the first *)
Definition fake_word (n : Z) (form : str) : str :=
  print_Z n ++ u8 "	" ++ form ++ u8 "	_	_	_	_	" ++ (if 1 <? n then u8 "1" else u8 "0") ++ u8 "	_	_	_".
Definition fake_token (num_words : Z) (w : string) : list str * Z :=
  match split chSP (u8 w) with
  | [] => ([], num_words)
  | [form] => ([fake_word (num_words + 1) form], num_words + 1)
  | form :: words =>
      ((print_Z (num_words + 1) ++ u8 "-" ++ print_Z (num_words + zlen words) ++ u8 "	" ++ form ++ u8 "	_	_	_	_	_	_	_	_")
         :: map (fun iw => fake_word (num_words + 1 + fst iw) (snd iw)) (combine (zrange (zlen words)) words),
       num_words + zlen words)
  end.
Fixpoint fake_lines (num_words : Z) (ws : list string) : list str :=
  match ws with
  | [] => []
  | w :: ws' => let (ls, n) := fake_token num_words w in ls ++ fake_lines n ws'
  end.
Definition load_words (ws : list string) : result ud := load_conllu (join [chNL] (fake_lines 0 ws ++ [[chNL]])).
Definition evaluated (gold system : list string) : result (metric -> option score) :=
  do g <- load_words gold; do s <- load_words system; evaluate lower g s None.
Definition word_count (ws : list string) : Q := inject_Z (fold_right Z.add 0 (map (fun w => Z.max 1 (zlen (split chSP (u8 w)) - 1)) ws)).
Definition test_ok (gold system : list string) (correct : Q) : bool :=
  match three (evaluated gold system) MWords with
  | Some l => list_eqb Qeq_bool l [correct / word_count system; correct / word_count gold; 2 * correct / (word_count gold + word_count system)]%Q
  | None => false
  end.
Arguments test_ok gold system correct%Q.

Example TestAlignment_test_exception :
  is_ok (load_words ["a"]%string) = true /\ is_ok (load_words ["b"]%string) = true /\ evaluated ["a"]%string ["b"]%string = Err EUD.
Proof. run. Qed.
Example TestAlignment_test_equal :
  test_ok ["a"]%string ["a"]%string 1 = true /\ test_ok ["a"; "b"; "c"]%string ["a"; "b"; "c"]%string 3 = true.
Proof. run. Qed.
Example TestAlignment_test_equal_with_multiword :
  test_ok ["abc a b c"]%string ["a"; "b"; "c"]%string 3 = true /\
  test_ok ["a"; "bc b c"; "d"]%string ["a"; "b"; "c"; "d"]%string 4 = true /\
  test_ok ["abcd a b c d"]%string ["ab a b"; "cd c d"]%string 4 = true /\
  test_ok ["abc a b c"; "de d e"]%string ["a"; "bcd b c d"; "e"]%string 5 = true.
Proof. run. Qed.
Example TestAlignment_test_alignment :
  test_ok ["abcd"]%string ["a"; "b"; "c"; "d"]%string 0 = true /\
  test_ok ["abc"; "d"]%string ["a"; "b"; "c"; "d"]%string 1 = true /\
  test_ok ["a"; "bc"; "d"]%string ["a"; "b"; "c"; "d"]%string 2 = true /\
  test_ok ["a"; "bc b c"; "d"]%string ["a"; "b"; "cd"]%string 2 = true /\
  test_ok ["abc a BX c"; "def d EX f"]%string ["ab a b"; "cd c d"; "ef e f"]%string 4 = true /\
  test_ok ["ab a b"; "cd bc d"]%string ["a"; "bc"; "d"]%string 2 = true /\
  test_ok ["a"; "bc b c"; "d"]%string ["ab AX BX"; "cd CX a"]%string 1 = true.
Proof. run. Qed.
