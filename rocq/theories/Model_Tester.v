(* Model of the testers of babylondigger/evaluation/evaluation.py:26-90.  Definitions only. *)
From Coq Require Import String Ascii ZArith NArith QArith Bool List.
From Verif Require Import Base Model_Datamodel Model_Conllu Model_UDEval.
Import ListNotations.
Open Scope Z_scope.

(* __clear_document, evaluation.py:61-63: Token.with_morphology(token) and Token.with_syntax(token) without further
   arguments.  document.tokens yields NavigableTokens, the methods of Token read the token itself. *)
Definition clear_token (t : token) : result token :=
  do m <- with_morphology t None None; with_syntax m None None None.
Definition clear_document (d : document) : result document :=
  do vs <- doc_nav_tokens d;
  do ts <- mapM (fun v => clear_token (nv_token v)) vs;
  from_document d ts.

(* map(f, documents) for a reader that takes what comes before the first exception *)
Fixpoint gen_map {A B} (f : A -> result B) (l : list A) (last : option exn) : gen B :=
  match l with
  | [] => ([], last)
  | x :: l' => match f x with
               | Err e => ([], Some e)
               | Ok y => let (ys, e) := gen_map f l' last in (y :: ys, e)
               end
  end.

(* __prepare_test_data, evaluation.py:60-65 *)
Definition prepare_test_data (gold : gen document) : gen document := gen_map clear_document (fst gold) (snd gold).

(* write_to_str( *documents): all documents are taken before anything is written *)
Definition all_of {A} (g : gen A) : result (list A) := match snd g with Some e => Err e | None => Ok (fst g) end.

(* _convert_to_internal, evaluation.py:54-58: the text is read through a StringIO *)
Definition convert_to_internal (documents : gen document) : result ud :=
  do ds <- all_of documents; do out <- write_str default_columns ds; load_conllu out.

(* _save_and_read, evaluation.py:45-52: the text is written to a file and read back with universal newlines.
   The file system is not modelled: making the directory, opening and writing do not fail. *)
Definition save_and_read (documents : gen document) : result ud :=
  do ds <- all_of documents; do out <- write_str default_columns ds; load_conllu_file out.

(* TaggerTester.test, evaluation.py:37-43.  [save] says whether there is a results path.  A tagger makes documents of
   documents; what it yields may depend on all it gets and may end with an exception. *)
Definition test (lower : str -> str) (save : bool) (gold : gen document) (gold_internal : result ud)
    (tag : gen document -> gen document) : result (metric -> option score) :=
  let predicted := tag (prepare_test_data gold) in
  do internal <- (if save then save_and_read predicted else convert_to_internal predicted);
  do g <- gold_internal;
  evaluate lower g internal None.

(* DataSetTaggerTester, evaluation.py:68-77: no results path; the data set can be iterated more than once *)
Definition dataset_test (lower : str -> str) (gold : list document) : (gen document -> gen document) -> result (metric -> option score) :=
  test lower false (gold, None) (convert_to_internal (gold, None)).

(* FileTaggerTester, evaluation.py:80-90, for a file with the given contents; CoNLLUDataSet reads it with
   CoNLLUReader(1), one sentence per document (dataset.py:11) *)
Definition file_test (lower : str -> str) (save : bool) (contents : str) (tag : gen document -> gen document)
    : result (metric -> option score) :=
  do gold <- read_file 1 default_columns contents;
  test lower save gold (load_conllu_file contents) tag.
