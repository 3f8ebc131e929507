(* Model of babylondigger/evaluation/conllu_io.py.  Definitions only. *)
From Coq Require Import String Ascii ZArith NArith Bool List.
From Verif Require Import Base Model_Datamodel.
Import ListNotations.
Open Scope Z_scope.

(* ------------------------------------------------------------------ *)
(* Text files                                                          *)

Definition chNL : char := 10%N.
Definition chCR : char := 13%N.
Definition chTAB : char := 9%N.
Definition chSP : char := 32%N.

(* iteration over a StringIO: lines with their final newline kept.
   StringIO does not translate newlines. *)
Fixpoint file_lines (s : str) : list str :=
  match s with
  | [] => []
  | c :: s' =>
      if (c =? chNL)%N then [c] :: file_lines s'
      else match file_lines s' with
           | [] => [[c]]
           | l :: ls => (c :: l) :: ls
           end
  end.

(* open(name) reads with universal newlines: \r\n and \r become \n *)
Fixpoint universal_newlines (s : str) : str :=
  match s with
  | [] => []
  | c :: s' =>
      if (c =? chCR)%N then
        match s' with
        | c2 :: s'' => if (c2 =? chNL)%N then chNL :: universal_newlines s'' else chNL :: universal_newlines s'
        | [] => [chNL]
        end
      else c :: universal_newlines s'
  end.

Definition is_crlf (c : char) : bool := (c =? chCR)%N || (c =? chNL)%N.

(* line.strip("\r\n"), conllu_io.py:121 *)
Definition strip_crlf (s : str) : str := rev (drop_while is_crlf (rev (drop_while is_crlf s))).

(* ------------------------------------------------------------------ *)
(* Columns, conll17_ud_eval.py:103                                     *)

Definition cID := 0. Definition cFORM := 1. Definition cLEMMA := 2. Definition cUPOS := 3.
Definition cXPOS := 4. Definition cFEATS := 5. Definition cHEAD := 6. Definition cDEPREL := 7.
Definition cDEPS := 8. Definition cMISC := 9.

(* a set of column numbers *)
Definition columns := list Z.
Definition has_col (cols : columns) (c : Z) : bool := existsb (Z.eqb c) cols.

(* conllu_io.py:106-108 and 284-286 *)
Definition normal_columns (cols : columns) : columns :=
  if has_col cols cDEPREL then cHEAD :: cols else cols.

Definition default_columns : columns := [cLEMMA; cUPOS; cXPOS; cFEATS; cDEPREL].

(* ------------------------------------------------------------------ *)
(* Reader                                                              *)

(* InternalToken, conllu_io.py:138-146 *)
Record irow := mkRow {
  i_id : option str;
  i_text : str;
  i_pos : option pos;
  i_lemma : option str;
  i_head : option Z;
  i_deprel : option str;
  i_space : bool
}.

Definition underscore : str := of_string "_".
Definition space_after_key : str := of_string "SpaceAfter".

(* the body of the dict comprehension at conllu_io.py:188: entry[0] always exists *)
Definition dict_entry (d : dict str) (e : str) : result (dict str) :=
  let parts := split (ch "=") e in
  do k <- py_index parts 0;
  do v <- py_index parts 1;
  Ok (dict_set d k v).

(* conllu_io.py:185-188 *)
Definition parse_to_dict (o : option str) : result (dict str) :=
  match o with
  | None => Ok []
  | Some s => foldM dict_entry [] (split (ch "|") s)
  end.

(* conllu_io.py:166 *)
Definition token_repr (cells : list str) : list (option str) :=
  map (fun v => if str_eqb v underscore then None else Some v) cells.

(* conllu_io.py:148-149 *)
Definition column_of (cols : columns) (c : Z) (x : list (option str)) : result (option str) :=
  if has_col cols c then py_index x c else Ok None.

(* conllu_io.py:151-157 and 181-182 *)
Definition pos_of (cols : columns) (x : list (option str)) : result (option pos) :=
  if has_col cols cUPOS || has_col cols cXPOS || has_col cols cFEATS then
    do u <- column_of cols cUPOS x;
    do p <- column_of cols cXPOS x;
    do f <- column_of cols cFEATS x;
    do fs <- parse_to_dict f;
    Ok (Some (mkPos u p fs))
  else Ok None.

(* _parse_line, conllu_io.py:164-174, with InternalToken.__init__ (line 144 converts HEAD) *)
Definition parse_line (cols : columns) (cells : list str) : result irow :=
  let x := token_repr cells in
  do i <- py_index x cID;
  do form <- py_index x cFORM;
  do p <- pos_of cols x;
  do lemma <- column_of cols cLEMMA x;
  do head <- column_of cols cHEAD x;
  do deprel <- column_of cols cDEPREL x;
  do misc <- py_index x cMISC;
  do md <- parse_to_dict misc;
  do h <- (match head with None => Ok None | Some s => rmap Some (parse_int s) end);
  Ok (mkRow i (match form with Some f => f | None => underscore end) p lemma h deprel
            (is_none (dict_get md space_after_key))).

(* conllu_io.py:38-44 *)
Definition compute_head (o : option Z) : option Z :=
  match o with
  | None => None
  | Some h => if h =? 0 then Some (-1) else Some (h - 1)
  end.

(* _MultiWordReaderState, conllu_io.py:79-86 *)
Record mwstate := mkMW { mw_count : Z; mw_added : Z; mw_start : Z; mw_end : Z }.

(* _ReaderState (r_mw = None) or _MultiWordReaderState whose parent is the
   _ReaderState with the same text; both share the token and sentence lists *)
Record rstate := mkRState {
  r_text : str;
  r_tokens : list token;
  r_sents : list sentence;
  r_mw : option mwstate
}.

Definition initial_state : rstate := mkRState [] [] [] None.

(* conllu_io.py:70-72 *)
Definition range_count (i : str) : result Z :=
  let indexes := split (ch "-") i in
  do _ <- assert (zlen indexes =? 2);
  do b <- (do s <- py_index indexes 1; parse_int s);
  do a <- (do s <- py_index indexes 0; parse_int s);
  Ok (b - a + 1).

(* _process_token of both states, conllu_io.py:60-76 and 88-96.
   `'.' in None` raises TypeError. *)
Definition process_row (st : rstate) (r : irow) : result rstate :=
  match r_mw st with
  | None =>
      match i_id r with
      | None => Err EType
      | Some i =>
          if mem_char (ch ".") i then Ok st
          else
            let start := zlen (r_text st) in
            let text1 := r_text st ++ i_text r in
            let fin := zlen text1 in
            let text2 := if i_space r then text1 ++ [chSP] else text1 in
            if mem_char (ch "-") i then
              do n <- range_count i;
              Ok (mkRState text2 (r_tokens st) (r_sents st) (Some (mkMW n 0 start fin)))
            else
              do t <- new_token start fin (i_pos r) (i_lemma r) (i_deprel r) 0 None None
                                (compute_head (i_head r)) None;
              Ok (mkRState text2 (r_tokens st ++ [t]) (r_sents st) None)
      end
  | Some m =>
      do t <- new_token (mw_start m) (mw_end m) (i_pos r) (i_lemma r) (i_deprel r)
                        (mw_added m) (Some (i_text r)) None (compute_head (i_head r)) None;
      let added := mw_added m + 1 in
      Ok (mkRState (r_text st) (r_tokens st ++ [t]) (r_sents st)
                   (if mw_count m =? added then None
                    else Some (mkMW (mw_count m) added (mw_start m) (mw_end m))))
  end.

(* add_token, conllu_io.py:24-27 *)
Definition add_token (cols : columns) (st : rstate) (line : str) : result rstate :=
  do r <- parse_line cols (split chTAB line);
  process_row st r.

(* end_of_sentence, conllu_io.py:32-36 and 98-99; returns the state, the count is length r_sents *)
Definition end_of_sentence (st : rstate) : result rstate :=
  match r_mw st with
  | Some _ => Err ERuntime
  | None =>
      do start <- (match r_sents st with
                   | [] => Ok 0
                   | _ => do s <- py_index (r_sents st) (-1); Ok (send s)
                   end);
      do s <- new_sentence start (zlen (r_tokens st));
      Ok (mkRState (r_text st) (r_tokens st) (r_sents st ++ [s]) None)
  end.

(* document, conllu_io.py:16-18 and 52-54 *)
Definition state_document (st : rstate) : result document :=
  match r_mw st with
  | Some _ => Err ENotImpl
  | None => new_document (r_text st) (r_tokens st) (Some (r_sents st)) true
  end.

(* is_empty, conllu_io.py:20-22 and 56-58 *)
Definition state_is_empty (st : rstate) : result bool :=
  match r_mw st with
  | Some _ => Err ENotImpl
  | None => Ok ((zlen (r_text st) =? 0) && (zlen (r_tokens st) =? 0))
  end.

(* the loop of _read, conllu_io.py:119-132, over the lines of the file *)
Fixpoint read_loop (cols : columns) (limit : Z) (st : rstate) (lines : list str) : gen document :=
  match lines with
  | [] =>
      match state_is_empty st with
      | Err e => ([], Some e)
      | Ok true => ([], None)
      | Ok false =>
          match state_document st with
          | Err e => ([], Some e)
          | Ok d => ([d], None)
          end
      end
  | raw :: rest =>
      let line := strip_crlf raw in
      if startswith line (of_string "#") then read_loop cols limit st rest
      else
        match line with
        | [] =>
            match end_of_sentence st with
            | Err e => ([], Some e)
            | Ok st' =>
                if limit <=? zlen (r_sents st') then
                  match state_document st' with
                  | Err e => ([], Some e)
                  | Ok d => let (ds, e) := read_loop cols limit initial_state rest in (d :: ds, e)
                  end
                else read_loop cols limit st' rest
            end
        | _ :: _ =>
            match add_token cols st line with
            | Err e => ([], Some e)
            | Ok st' => read_loop cols limit st' rest
            end
        end
  end.

(* CoNLLUReader, conllu_io.py:102-117: construction (the assert) and reading *)
Definition read_str (limit : Z) (cols : columns) (text : str) : result (gen document) :=
  do _ <- assert (0 <? limit);
  Ok (read_loop (normal_columns cols) limit initial_state (file_lines text)).
Definition read_file (limit : Z) (cols : columns) (contents : str) : result (gen document) :=
  read_str limit cols (universal_newlines contents).

(* ------------------------------------------------------------------ *)
(* Writer                                                              *)

(* a token as the writer sees it: a NavigableToken of a sentence.  NavigableToken.text, doc_text and
   space_after are datamodel.py:367-378; head_index of a sentence view is the sentence head index *)
Definition wtext (v : navtoken) : str := text_of (nv_text v) (nv_token v).
Definition wdoc_text (v : navtoken) : str := doc_text_of (nv_text v) (nv_token v).
Definition wspace_after (v : navtoken) : bool := space_after (nv_text v) (nv_token v).

Definition shield_none (o : option str) : str := match o with Some s => s | None => underscore end.

(* sorted() of strings *)
Definition str_leb (a b : str) : bool := match str_cmp a b with Gt => false | _ => true end.

(* conllu_io.py:314-317 *)
Definition feats_to_string (fs : dict str) : str :=
  match fs with
  | [] => underscore
  | _ => join [ch "|"] (isort str_leb (map (fun kv => fst kv ++ ch "=" :: snd kv) fs))
  end.

(* conllu_io.py:319-322, followed by str() *)
Definition normalize_index (i : Z) : str := if i =? -1 then of_string "0" else print_Z (i + 1).

Definition space_after_no : str := of_string "SpaceAfter=No".

(* to_conll, conllu_io.py:310-346, with _column_extractors 265-276.
   When FEATS is not selected its extractor returns None and len(None) raises TypeError. *)
Definition to_conll (cols : columns) (index : Z) (v : navtoken) (write_space_after fake_heads : bool)
  : result (list str) :=
  let t := nv_token v in
  let sel {A} (c : Z) (x : option A) : option A := if has_col cols c then x else None in
  let lemma := shield_none (sel cLEMMA (tlemma t)) in
  do tags <- (match tpos t with
              | None => Ok (underscore, underscore, underscore)
              | Some p =>
                  do f <- (if has_col cols cFEATS then Ok (feats_to_string (feats p)) else Err EType);
                  Ok (shield_none (sel cUPOS (upos p)), shield_none (sel cXPOS (xpos p)), f)
              end);
  let '(u, x, f) := tags in
  let '(h, r) := (match sel cHEAD (head_index v) with
                  | Some hv => (normalize_index hv, shield_none (sel cDEPREL (tdeprel t)))
                  | None => (if fake_heads then print_Z index else underscore, underscore)
                  end) in
  let misc := if write_space_after && negb (wspace_after v) then space_after_no else underscore in
  Ok [normalize_index index; wtext v; lemma; u; x; f; h; r; underscore; misc].

(* conllu_io.py:349-353 *)
Definition format_line (cells : list str) : str := join [chTAB] cells ++ [chNL].

(* The writer: what has been written so far, the index of _RegularTokenWriterState and,
   in _MultiwordTokenWriterState, the start index and the words collected so far
   (the first one is never removed). *)
Record wmulti := mkWM { wm_start : Z; wm_first : navtoken; wm_tokens : list navtoken }.
Record wstate := mkWState { w_out : str; w_index : Z; w_multi : option wmulti }.

(* write_regular, conllu_io.py:217-219 *)
Definition write_regular (cols : columns) (st : wstate) (v : navtoken) (sp : bool) : result wstate :=
  do cells <- to_conll cols (w_index st) v sp true;
  Ok (mkWState (w_out st ++ format_line cells) (w_index st + 1) (w_multi st)).

(* conllu_io.py:254-262 *)
Definition range_line (m : wmulti) : list str :=
  [print_Z (wm_start m) ++ ch "-" :: print_Z (wm_start m + zlen (wm_tokens m) - 1);
   wdoc_text (wm_first m);
   underscore; underscore; underscore; underscore; underscore; underscore; underscore;
   if wspace_after (wm_first m) then underscore else space_after_no].

Definition write_multiword (cols : columns) (st : wstate) (m : wmulti) : result wstate :=
  foldM (fun st v => write_regular cols st v false)
        (mkWState (w_out st ++ format_line (range_line m)) (w_index st) (w_multi st))
        (wm_tokens m).

(* _RegularTokenWriterState.write_token, conllu_io.py:211-215 *)
Definition regular_write_token (cols : columns) (st : wstate) (v : navtoken) : result wstate :=
  if is_multiword (nv_token v)
  then Ok (mkWState (w_out st) (w_index st) (Some (mkWM (w_index st + 1) v [v])))
  else write_regular cols (mkWState (w_out st) (w_index st) None) v true.

(* write_token of both states, conllu_io.py:211-215 and 243-248 *)
Definition write_token (cols : columns) (st : wstate) (v : navtoken) : result wstate :=
  match w_multi st with
  | None => regular_write_token cols st v
  | Some m =>
      if coincides (nv_token (wm_first m)) (nv_token v)
      then Ok (mkWState (w_out st) (w_index st)
                        (Some (mkWM (wm_start m) (wm_first m) (wm_tokens m ++ [v]))))
      else do st' <- write_multiword cols st m; regular_write_token cols st' v
  end.

(* write_end_of_sentence, conllu_io.py:221-224 and 250-252.  The caller (line 307) ignores the
   returned state, so a _MultiwordTokenWriterState stays current. *)
Definition write_end_of_sentence (cols : columns) (st : wstate) : result wstate :=
  do st' <- (match w_multi st with None => Ok st | Some m => write_multiword cols st m end);
  Ok (mkWState (w_out st' ++ [chNL]) 0 (w_multi st)).

(* conllu_io.py:305-307 *)
Definition write_sentence (cols : columns) (st : wstate) (s : navsentence) : result wstate :=
  do vs <- ns_nav_tokens s;
  do st' <- foldM (write_token cols) st vs;
  write_end_of_sentence cols st'.

(* conllu_io.py:302-307 *)
Definition write_document (cols : columns) (d : document) : result str :=
  do ss <- doc_nav_sentences d;
  do st <- foldM (write_sentence cols) (mkWState [] 0 None) ss;
  Ok (w_out st).

(* CoNLLUWriter, conllu_io.py:282-300.  write_to_file produces the same text
   (os.linesep is \n); what is left in the file after an exception is in Model_Encoding. *)
Definition write_str (cols : columns) (ds : list document) : result str :=
  rmap (@concat char) (mapM (write_document (normal_columns cols)) ds).
