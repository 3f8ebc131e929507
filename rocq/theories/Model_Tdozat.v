(* Model of babylondigger/wrappers/tdozat.py.  Definitions only.

   The package tdozat_parser is not part of the repository.  Of it the model takes: the dataset is filled with
   what itersents yields, document by document; the batches of sentence numbers and the values that the network
   finds for them are the argument [net]; cache_predictions appends the numbers to predictions['indices'] and the
   rows of every field to predictions[field].  Fields of the lines hold strings; an extra field holds any value. *)
From Coq Require Import String Ascii ZArith NArith Bool List.
From Verif Require Import Base Model_Datamodel Model_Conllu.
Import ListNotations.
Open Scope Z_scope.

(* the rows of one field: a row for each sentence, a cell for each position, position 0 is the technical root *)
Definition rows := list (list pyval).

(* GraphOutputs.predictions *)
Record store := mkStore { indices : list Z; cached : dict rows }.
Definition empty_store : store := mkStore [] [].

(* one batch: the numbers of its sentences, tokens after line 103 *)
Definition batch : Type := (list Z * dict rows)%type.

(* cache_predictions, called at tdozat.py:104 *)
Definition cache (p : store) (b : batch) : store :=
  mkStore (indices p ++ fst b)
          (fold_left (fun c kv => dict_set c (fst kv) ((match dict_get c (fst kv) with Some r => r | None => [] end) ++ snd kv))
                     (snd b) (cached p)).

(* default_column_extractors and default_line_parser, conllu_io.py:178 and 279 *)
Definition tdozat_columns : columns := [cLEMMA; cUPOS; cXPOS; cFEATS; cHEAD; cDEPREL].

(* _DocumentDataset.itersents, tdozat.py:181-188: a list of lines for each sentence and an empty list *)
Definition sentence_lines (s : navsentence) : result (list (list str)) :=
  do vs <- ns_nav_tokens s;
  mapM (fun '(index, v) => to_conll tdozat_columns index v true false) (enumerate vs).
Definition itersents (d : document) : result (list (list (list str))) :=
  do ss <- doc_nav_sentences d;
  do ls <- mapM sentence_lines ss;
  Ok (ls ++ [[]]).

(* self.parse_outputs.predictions[field][i][j] *)
Definition get_cell (p : store) (field : str) (i j : Z) : result pyval :=
  do r <- of_option EKey (dict_get (cached p) field);
  do row <- py_index r i;
  py_index row j.

(* a cell of a line; that something else than a string raises TypeError is a simplification *)
Definition cell_str (v : pyval) : result str := match v with PStr s => Ok s | _ => Err EType end.

(* tdozat.py:108 *)
Definition line_fields : list str :=
  map of_string ["form"; "lemma"; "upos"; "xpos"; "ufeats"; "dephead"; "deprel"; "semrel"; "misc"]%string.
Definition id_field : str := of_string "id".

(* tdozat.py:116-128; __compute_head, 135-141, is the same as conllu_io.py:38-44 *)
Definition parse_token (p : store) (extra_fields : list str) (i j : Z) (t : token) : result token :=
  do id <- get_cell p id_field i j;
  do cells <- mapM (fun f => if dict_mem (cached p) f then get_cell p f i j else Ok (PStr underscore)) line_fields;
  do es <- mapM (fun f => do v <- get_cell p f i j; Ok (f, v)) extra_fields;
  do line <- mapM cell_str (id :: cells);
  do r <- parse_line tdozat_columns line;
  do t1 <- with_morphology t (i_pos r) (i_lemma r);
  do t2 <- with_syntax t1 (i_deprel r) None (compute_head (i_head r));
  update_extras t2 (Some (dict_update [] es)).

(* tdozat.py:114-129, the sentence with number n *)
Definition parse_sentence (p : store) (extra_fields : list str) (order : list Z) (n : Z) (s : navsentence) : result (list token) :=
  do i <- py_index order n;
  do vs <- ns_nav_tokens s;
  mapM (fun '(k, v) => parse_token p extra_fields i (k + 1) (nv_token v)) (enumerate vs).

(* tdozat.py:109-131; n is _i *)
Fixpoint parse_loop (p : store) (extra_fields : list str) (order : list Z) (n : Z) (ds : list document) : result (list document) :=
  match ds with
  | [] => Ok []
  | d :: ds' =>
      do ss <- doc_nav_sentences d;
      do tss <- mapM (fun '(k, s) => parse_sentence p extra_fields order (n + k) s) (enumerate ss);
      do d' <- from_document d (concat tss);
      do rest <- parse_loop p extra_fields order (n + zlen ss) ds';
      Ok (d' :: rest)
  end.

Section Wrapper.
(* np.argsort: positions in the order of the values; with equal values any of them may come first *)
Variable argsort : list Z -> list nat.
(* the batches and, if the network or the dataset raises, the exception after them *)
Variable net : list (list (list (list str))) -> gen batch.
Variable extra_fields : list str.

(* __parse_documents, tdozat.py:89-133: the predictions that are left and the documents *)
Definition parse_documents (p : store) (ds : list document) : store * result (list document) :=
  match mapM itersents ds with
  | Err e => (p, Err e)
  | Ok yielded =>
      let '(bs, failed) := net yielded in
      let p' := fold_left cache bs p in
      match failed with
      | Some e => (p', Err e)
      | None => match parse_loop p' extra_fields (map Z.of_nat (argsort (indices p'))) 0 ds with
                | Err e => (p', Err e)
                | Ok r => (empty_store, Ok r)
                end
      end
  end.

(* A processor: the session it uses, the sessions that were created and not closed, how many were created, the
   predictions. *)
Record state := mkState { current : option nat; open : list nat; created : nat; predictions : store }.

(* __init__, tdozat.py:57, with predictions of a new GraphOutputs *)
Definition initial : state := mkState None [] 0 empty_store.

(* process, tdozat.py:59-63: self.__name__ raises AttributeError before RuntimeError is made *)
Definition process_documents (st : state) (documents : gen document) : state * result (list document) :=
  match current st with
  | None => (st, Err EAttr)
  | Some _ =>
      match documents with
      | (_, Some e) => (st, Err e)
      | (ds, None) => let '(p, r) := parse_documents (predictions st) ds in
                      (mkState (current st) (open st) (created st) p, r)
      end
  end.

(* __enter__, tdozat.py:68-83: before the session is assigned something may raise ([before]), and afterwards, when
   variables are initialized and restored ([after]) *)
Definition enter_session (before after : option exn) (st : state) : state * option exn :=
  match before with
  | Some e => (st, Some e)
  | None => (mkState (Some (created st)) (created st :: open st) (S (created st)) (predictions st), after)
  end.

(* __exit__, tdozat.py:85-87: None has no close *)
Definition exit_session (st : state) : state * option exn :=
  match current st with
  | None => (st, Some EAttr)
  | Some n => (mkState None (filter (fun k => negb (k =? n)%nat) (open st)) (created st) (predictions st), None)
  end.
End Wrapper.

(* ------------------------------------------------------------------ *)
(* extra fields                                                        *)

(* the outputs of the network: tensors in nested dictionaries *)
Inductive outputs :=
| Tensor (n : nat)
| Group (d : list (str * outputs)).

(* tdozat.py:50-56 *)
Fixpoint find_output (o : outputs) (path : list str) : result outputs :=
  match path with
  | [] => Ok o
  | key :: path' => match o with
                    | Group d => match dict_get d key with Some o' => find_output o' path' | None => Err EValue end
                    | Tensor _ => Err EValue
                    end
  end.
Definition find_outputs (o : outputs) (fields : dict (list str)) : result (dict outputs) :=
  foldM (fun acc kv => do x <- find_output o (snd kv); Ok (dict_set acc (fst kv) x)) [] fields.

(* the arguments of TDozatParser, tdozat.py:145-151 *)
Definition parser_fields (recur_layer : bool) (extra : option (dict (list str))) : dict (list str) :=
  let m := if recur_layer then [(of_string "parser_recur_layer", map of_string ["deptree"; "recur_layer"]%string)] else [] in
  match extra with Some e => dict_update m e | None => m end.

(* the arguments of TDozatTagger, tdozat.py:158-169 *)
Definition tagger_fields (recur_layer upos_hidden xpos_hidden : bool) (extra : option (dict (list str))) : dict (list str) :=
  let m := (if recur_layer then [(of_string "tagger_recur_layer", map of_string ["upos"; "recur_layer"]%string)] else []) ++
           (if upos_hidden then [(of_string "upos_hidden", map of_string ["upos"; "hidden_layer"]%string)] else []) ++
           (if xpos_hidden then [(of_string "xpos_hidden", map of_string ["xpos"; "hidden_layer"]%string)] else []) in
  match extra with Some e => dict_update m e | None => m end.
