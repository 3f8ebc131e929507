(* Model of the label and feature extractors of babylondigger/features/extractors.py, without the suffix rules
   (Model_Lemma.v).  A dictionary {name: value} with the single name of an extractor is represented by the value;
   Model_Builder.v adds the names.  Definitions only. *)
From Coq Require Import String ZArith NArith Bool List.
From Verif Require Import Base Model_Datamodel Model_Vocab.
Import ListNotations.
Open Scope Z_scope.

(* builder.py:17-20 *)
Definition PADDING : Z := 0.
Definition OOV : Z := 1.
Definition START : Z := 2.
Definition END : Z := 3.

(* sorted() of strings *)
Definition str_le (a b : str) : bool := match str_cmp a b with Gt => false | _ => true end.
Definition sorted_strs (l : list str) : list str := isort str_le l.

(* ------------------------------------------------------------------ *)
(* Parts of a Pos, extractors.py:249-334                               *)

(* the values a splitter puts into its dictionary: a Pos or None, a string or None, sorted feature items,
   and a pair (xpos, sorted feature items) *)
Inductive part :=
| PaPos (p : option pos)
| PaStr (s : option str)
| PaFeats (f : list (str * str))
| PaXF (x : option str) (f : list (str * str)).

Definition item_eqb (a b : str * str) : bool := str_eqb (fst a) (fst b) && str_eqb (snd a) (snd b).
Definition items_eqb : list (str * str) -> list (str * str) -> bool := list_eqb item_eqb.
Definition items_cmp : list (str * str) -> list (str * str) -> comparison := lex_cmp (pair_cmp str_cmp str_cmp).

(* == *)
Definition part_eqb (a b : part) : bool :=
  match a, b with
  | PaPos p, PaPos q => option_eqb pos_eqb p q
  | PaStr s, PaStr t => option_eqb str_eqb s t
  | PaFeats f, PaFeats g => items_eqb f g
  | PaXF x f, PaXF y g => option_eqb str_eqb x y && items_eqb f g
  | _, _ => false
  end.

(* < on the sort keys (x is not None, x) of extractors.py:618 *)
Definition part_cmp (a b : part) : result comparison :=
  match a, b with
  | PaPos p, PaPos q => none_first pos_cmp p q
  | PaStr s, PaStr t => none_first (fun x y => Ok (str_cmp x y)) s t
  | PaFeats f, PaFeats g => Ok (items_cmp f g)
  | PaXF x f, PaXF y g =>
      do c <- opt_str_cmp x y; Ok (match c with Eq => items_cmp f g | c => c end)
  | _, _ => Err EType
  end.

(* PosNoSplitter, PosUXFSplitter, PosXFSplitter, PosGranularSplitter *)
Inductive splitter := SNo | SUXF | SXF | SGran (keys : list str).

Definition n_POS : str := of_string "POS".
Definition n_UPOS : str := of_string "UPOS".
Definition n_XPOS : str := of_string "XPOS".
Definition n_FEATS : str := of_string "FEATS".
Definition n_XF : str := of_string "XPOS+FEATS".

(* split: lines 272-273, 284-285, 296-297, 312-317.  None has no attribute upos. *)
Definition split_pos (s : splitter) (p : option pos) : result (dict part) :=
  match s with
  | SNo => Ok [(n_POS, PaPos p)]
  | SUXF => do q <- of_option EAttr p;
            Ok [(n_UPOS, PaStr (upos q)); (n_XPOS, PaStr (xpos q)); (n_FEATS, PaFeats (sorted_items (feats q)))]
  | SXF => do q <- of_option EAttr p;
           Ok [(n_UPOS, PaStr (upos q)); (n_XF, PaXF (xpos q) (sorted_items (feats q)))]
  | SGran keys => do q <- of_option EAttr p;
                  Ok (dict_update [(n_UPOS, PaStr (upos q)); (n_XPOS, PaStr (xpos q))]
                                  (map (fun k => (k, PaStr (dict_get (feats q) k))) keys))
  end.

(* dict(items) *)
Definition items_dict (f : list (str * str)) : dict str := dict_update [] f.

(* the parts have the types the splitter gives them; anything else does not occur and is an error of the model *)
Definition as_str (a : part) : result (option str) := match a with PaStr s => Ok s | _ => Err EType end.
Definition as_feats (a : part) : result (list (str * str)) := match a with PaFeats f => Ok f | _ => Err EType end.
Definition as_xf (a : part) : result (option str * list (str * str)) := match a with PaXF x f => Ok (x, f) | _ => Err EType end.

(* combine: lines 275-276, 287-288, 299-300, 319-321 *)
Definition combine_pos (s : splitter) (parts : list part) : result (option pos) :=
  match s with
  | SNo => do a <- py_index parts 0; match a with PaPos p => Ok p | _ => Err EType end
  | SUXF => do a <- py_index parts 0; do u <- as_str a;
            do b <- py_index parts 1; do x <- as_str b;
            do c <- py_index parts 2; do f <- as_feats c;
            Ok (Some (mkPos u x (items_dict f)))
  | SXF => do a <- py_index parts 0; do u <- as_str a;
           do b <- py_index parts 1; do xf <- as_xf b;
           Ok (Some (mkPos u (fst xf) (items_dict (snd xf))))
  | SGran keys =>
      do fs <- foldM (fun d iv => do v <- as_str (snd iv);
                        match v with
                        | None => Ok d
                        | Some v => do k <- py_index keys (fst iv); Ok (dict_set d k v)
                        end) [] (enumerate (py_from parts 2));
      do a <- py_index parts 0; do u <- as_str a;
      do b <- py_index parts 1; do x <- as_str b;
      Ok (Some (mkPos u x fs))
  end.

(* the keys of _splitters, lines 329-334 *)
Inductive strategy := pos_joint | pos_XF | pos_UXF | pos_gran.

(* sorted({feat_type for pos in poses for feat_type in pos.feats.keys()}), line 310 *)
Definition feats_keys (poses : list (option pos)) : result (list str) :=
  do names <- mapM (fun p => do q <- of_option EAttr p; Ok (dict_keys (feats q))) poses;
  Ok (sorted_strs (dict_keys (fold_left (fun d k => dict_set d k tt) (concat names) []))).

(* _splitters[name](label_counts) *)
Definition make_splitter (s : strategy) (poses : list (option pos)) : result splitter :=
  match s with
  | pos_joint => Ok SNo
  | pos_XF => Ok SXF
  | pos_UXF => Ok SUXF
  | pos_gran => do keys <- feats_keys poses; Ok (SGran keys)
  end.

(* _count_parts, lines 599-606 *)
Definition add_part (counts : dict (list (part * Z))) (name : str) (v : part) (n : Z) : result (dict (list (part * Z))) :=
  do d <- of_option EKey (dict_get counts name);
  Ok (dict_set counts name (gadd part_eqb d v n)).

Definition count_parts (s : splitter) (labels : list (option pos * Z)) : result (dict (list (part * Z))) :=
  do first <- of_option EStop (hd_error labels);
  do names <- split_pos s (fst first);
  foldM (fun counts lc => do sp <- split_pos s (fst lc);
           foldM (fun counts nv => add_part counts (fst nv) (snd nv) (snd lc)) counts sp)
        (map (fun nv => (fst nv, [])) names) labels.

(* PosDictFeatureExtractorBuilder.build, lines 351-361 *)
Record pos_labels := mkPL {
  pl_splitter : splitter;
  pl_id2parts : list (list part);
  pl_parts2id : list (list (part * Z));
  pl_lens : dict Z }.

Definition build_pos_labels (st : strategy) (ds : list document) : result pos_labels :=
  let labels := count_labels (option_eqb pos_eqb) (fun x => tpos (dt_tok x)) ds in
  do s <- make_splitter st (map fst labels);
  do counts <- count_parts s labels;
  do id2parts <- mapM (fun nc => id2obj part_eqb part_cmp (snd nc) 0) counts;
  Ok (mkPL s id2parts (map (obj2id part_eqb) id2parts)
           (combine (dict_keys counts) (map zlen id2parts))).

(* PosDictFeatureExtractor.get_features, lines 370-373 *)
Definition pos_ids (b : pos_labels) (p : option pos) : result (list Z) :=
  do sp <- split_pos (pl_splitter b) p;
  mapM (fun inv => do d <- py_index (pl_parts2id b) (fst inv);
          Ok (gget_default part_eqb d (snd (snd inv)) 0)) (enumerate sp).

(* PosDictInterpreter.interpret, lines 382-385 *)
Definition interpret_pos (b : pos_labels) (x : dtoken) (ids : list Z) : result dtoken :=
  do parts <- mapM (fun ii => do l <- py_index (pl_id2parts b) (fst ii); py_index l (snd ii)) (enumerate ids);
  do p <- combine_pos (pl_splitter b) parts;
  dt_with_morphology x p (tlemma (dt_tok x)).

(* ------------------------------------------------------------------ *)
(* Lemma dictionary, extractors.py:391-426                             *)

Definition lemma_eqb : option str -> option str -> bool := option_eqb str_eqb.
Definition lemma_cmp : option str -> option str -> result comparison := none_first (fun x y => Ok (str_cmp x y)).

(* build, 402-408: (lemma2id, id2lemma) *)
Definition build_lemmas (ds : list document) : result (list (option str * Z) * list (option str)) :=
  do id2lemma <- id2obj lemma_eqb lemma_cmp (count_labels lemma_eqb (fun x => tlemma (dt_tok x)) ds) 0;
  Ok (obj2id lemma_eqb id2lemma, id2lemma).

(* 416-417 *)
Definition lemma_label (lemma2id : list (option str * Z)) (lemma : option str) : Z :=
  gget_default lemma_eqb lemma2id lemma OOV.

(* 425-426 *)
Definition interpret_lemma (id2lemma : list (option str)) (x : dtoken) (label : Z) : result dtoken :=
  do l <- py_index id2lemma label;
  dt_with_morphology x (tpos (dt_tok x)) l.

(* ------------------------------------------------------------------ *)
(* Symbol vocabularies, extractors.py:125-128, 183-186, 542-545        *)

(* counter filtered by >= threshold, sorted; ids start with [first] *)
Definition symbols (threshold : Z) (occ : list str) : list str :=
  sorted_strs (map fst (filter (fun kn => threshold <=? snd kn) (count_list str_eqb occ))).
Definition number_from (first : Z) (l : list str) : dict Z :=
  fold_left (fun d io => dict_set d (snd io) (first + fst io)) (enumerate l) [].
Definition sym_get (d : dict Z) (s : str) : Z := match dict_get d s with Some i => i | None => OOV end.

(* TokenCharSegmenter.segment, 216-217 *)
Definition char_segment (s : str) : list str := map (fun c => [c]) s.

(* TokenBPESegmenter.segment, 225-232; [encode] is BPEmb.encode and U+2581 marks the start of a word *)
Definition bpe_mark : char := 9601%N.
Definition bpe_segment (encode : str -> list str) (s : str) : result (list str) :=
  match encode s with
  | [] => Err EIndex
  | w :: ws => Ok (if startswith w [bpe_mark] then (if 1 <? zlen w then py_from w 1 :: ws else ws) else w :: ws)
  end.

Section Segmenter.
(* segmenter.segment *)
Variable segment : str -> result (list str).

(* TokenCharactersFeatureExtractorBuilder.build, 178-188: the vocabulary; its advertised size is len + 4 *)
Definition build_subwords (threshold : Z) (ds : list document) : result (dict Z) :=
  do segs <- mapM (fun x => segment (dt_text x)) (dataset_tokens ds);
  Ok (number_from 4 (symbols threshold (concat segs))).

(* SubwordFeatureExtractor.get_features, 198-202 *)
Definition subword_ids (sub2id : dict Z) (text : str) : result (list Z) :=
  do syms <- segment text;
  Ok (START :: map (sym_get sub2id) syms ++ [END]).

(* LemmaCharFeatureExtractorBuilder.build, 537-549.  Simplification: a missing lemma is a TypeError, which is
   what the character segmenter raises. *)
Definition segment_lemma (l : option str) : result (list str) := do s <- of_option EType l; segment s.
Definition build_lemma_chars (threshold : Z) (ds : list document) : result (dict Z) :=
  do segs <- mapM (fun x => segment_lemma (tlemma (dt_tok x))) (dataset_tokens ds);
  Ok (number_from 4 (symbols threshold (concat segs))).

(* LemmaCharExtractor.get_features, 559-567 *)
Definition lemma_char_ids (char2id : dict Z) (max_len : Z) (lemma : option str) : result (list Z) :=
  do syms <- segment_lemma lemma;
  let ids := START :: map (sym_get char2id) syms ++ [END] in
  Ok (if max_len <? zlen ids then py_upto ids max_len
      else ids ++ repeat PADDING (Z.to_nat (max_len - zlen ids))).
End Segmenter.

(* {index: ch for ch, index in char2id.items()}, line 546 *)
Definition invert (d : dict Z) : list (Z * str) := fold_left (fun r kv => gset Z.eqb r (snd kv) (fst kv)) d [].

(* LemmaCharInterpreter.interpret, 575-582 *)
Fixpoint read_chars (id2char : list (Z * str)) (ids : list Z) (lemma : str) : result str :=
  match ids with
  | [] => Ok lemma
  | i :: ids' =>
      if i =? END then Ok lemma
      else if (i =? START) || (i =? OOV) || (i =? PADDING) then read_chars id2char ids' lemma
      else do s <- of_option EKey (gget Z.eqb id2char i); read_chars id2char ids' (lemma ++ s)
  end.
Definition interpret_chars (id2char : list (Z * str)) (x : dtoken) (ids : list Z) : result dtoken :=
  do l <- read_chars id2char ids []; dt_with_morphology x (tpos (dt_tok x)) (Some l).

(* ------------------------------------------------------------------ *)
(* Embeddings, extractors.py:42-158                           *)

(* s.split() *)
Definition flush (cur : str) : list str := match cur with [] => [] | _ => [rev cur] end.
Fixpoint words_from (cur s : str) : list str :=
  match s with
  | [] => flush cur
  | c :: s' => if isspace_char c then flush cur ++ words_from [] s' else words_from (c :: cur) s'
  end.
Definition split_ws (s : str) : list str := words_from [] s.

Section Embeddings.
Variables (V : Type) (to_float : str -> result V) (zero : V).

(* _read_embeddings, 68-88; the file is the list of its lines *)
Record emb_state := mkEmb { e_vecs : dict (list V); e_size : option Z; e_line : Z }.
Definition read_line (s : emb_state) (line : str) : result emb_state :=
  let values := split_ws line in
  if (e_line s =? 0) && (zlen values =? 2) then
    do v <- py_index values 1; do n <- parse_int v;
    Ok (mkEmb (e_vecs s) (Some n) (e_line s + 1))
  else
    do key <- py_index values 0;
    do vec <- mapM to_float (py_from values 1);
    let vecs := dict_set (e_vecs s) key vec in
    match e_size s with
    | Some n => do _ <- raise_if (negb (zlen vec =? n)) EValue; Ok (mkEmb vecs (Some n) (e_line s + 1))
    | None => Ok (mkEmb vecs (Some (zlen vec)) (e_line s + 1))
    end.
Definition read_embeddings (lines : list str) : result (dict (list V) * option Z) :=
  do s <- foldM read_line (mkEmb [] None 0) lines; Ok (e_vecs s, e_size s).

(* EmbeddingInitializer.initial_values, 111-115; [0] * None is a TypeError *)
Definition initial_values (word2id : dict Z) (vecs : dict (list V)) (size : option Z) : result (list (option Z * list V)) :=
  do n <- of_option EType size;
  Ok ((Some PADDING, repeat zero (Z.to_nat n)) :: map (fun wv => (dict_get word2id (fst wv), snd wv)) vecs).

(* WordEmbeddingFeatureExtractorBuilder.build with first = 2, 59-65, and SubwordEmbeddingFeatureExtractorBuilder.build
   with first = 4, 147-157: the vocabulary, the shape and the initial values *)
Definition build_embeddings (first : Z) (lines : list str)
  : result (dict Z * (Z * option Z) * result (list (option Z * list V))) :=
  do r <- read_embeddings lines;
  let word2id := number_from first (dict_keys (fst r)) in
  Ok (word2id, (zlen word2id + first, snd r), initial_values word2id (fst r) (snd r)).
End Embeddings.

Section Lower.
Variable lower : str -> str.

(* WordEmbeddingFeatureExtractor.get_features, 97-99 *)
Definition word_id (word2id : dict Z) (lowercase : bool) (text : str) : Z :=
  sym_get word2id (if lowercase then lower text else text).
End Lower.

(* TrainableEmbeddingsExtractorBuilder.build, 124-132: chain.from_iterable over the texts yields characters *)
Definition build_trainable (threshold : Z) (ds : list document) : dict Z :=
  number_from 2 (symbols threshold (concat (map (fun x => char_segment (dt_text x)) (dataset_tokens ds)))).
