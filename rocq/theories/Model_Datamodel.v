(* Model of babylondigger/datamodel.py.  Definitions only. *)
From Coq Require Import ZArith NArith Bool String List.
From Verif Require Import Base.
Import ListNotations.
Open Scope Z_scope.

(* ------------------------------------------------------------------ *)
(* Pos, datamodel.py:8-50                                              *)

(* datamodel.py:10-13.  upos is an option because the CoNLL-U reader passes None
   for a missing tag (conllu_io.py:181-182). *)
Record pos := mkPos { upos : option str; xpos : option str; feats : dict str }.

(* datamodel.py:27-28 *)
Definition pos_feature (p : pos) (k : str) : option str := dict_get (feats p) k.

(* datamodel.py:34-39 *)
Definition pos_eqb (a b : pos) : bool :=
  option_eqb str_eqb (upos a) (upos b)
  && option_eqb str_eqb (xpos a) (xpos b)
  && dict_eqb str_eqb (feats a) (feats b).

(* sorted(feats.items()): items are compared as (key, value) tuples; keys are unique,
   so values never decide *)
Definition item_leb (a b : str * str) : bool :=
  match pair_cmp str_cmp str_cmp a b with Gt => false | _ => true end.
Definition sorted_items (d : dict str) : list (str * str) := isort item_leb d.

(* datamodel.py:49-50 *)
Definition tuple_view (p : pos) : option str * option str * list (str * str) :=
  (upos p, xpos p, sorted_items (feats p)).

(* comparing two tuple components that may be None: equal components are skipped,
   comparing None with a string raises TypeError *)
Definition opt_str_cmp (a b : option str) : result comparison :=
  match a, b with
  | None, None => Ok Eq
  | Some x, Some y => Ok (str_cmp x y)
  | _, _ => Err EType
  end.

(* datamodel.py:41-44: tuple comparison, first differing component decides *)
Definition pos_cmp (a b : pos) : result comparison :=
  do c1 <- opt_str_cmp (upos a) (upos b);
  match c1 with
  | Eq => do c2 <- opt_str_cmp (xpos a) (xpos b);
          match c2 with
          | Eq => Ok (lex_cmp (pair_cmp str_cmp str_cmp)
                              (sorted_items (feats a)) (sorted_items (feats b)))
          | c => Ok c
          end
  | c => Ok c
  end.

(* a < b *)
Definition pos_ltb (a b : pos) : result bool :=
  do c <- pos_cmp a b; Ok (match c with Lt => true | _ => false end).

(* functools.total_ordering derives, from __lt__ and __eq__:
   a > b  as  not (a < b) and a != b ;  a <= b  as  a < b or a == b ;  a >= b  as  not (a < b) *)
Definition pos_gtb (a b : pos) : result bool :=
  do l <- pos_ltb a b; Ok (negb l && negb (pos_eqb a b)).
Definition pos_leb (a b : pos) : result bool :=
  do l <- pos_ltb a b; Ok (l || pos_eqb a b).
Definition pos_geb (a b : pos) : result bool :=
  do l <- pos_ltb a b; Ok (negb l).

(* ------------------------------------------------------------------ *)
(* TokenExtras, datamodel.py:53-82                                     *)

(* A value: every access deep-copies, so contents cannot be reached from outside
   (the heap version is in Model_Heap.v). *)
Definition extras := dict pyval.

(* datamodel.py:69-72 *)
Definition extras_eqb (a b : extras) : bool := pyval_eqb (PDict a) (PDict b).

(* datamodel.py:77-82 *)
Definition extras_update (e updates : extras) : extras :=
  match updates with [] => e | _ => dict_update e updates end.

(* ------------------------------------------------------------------ *)
(* Token, datamodel.py:85-243                                          *)

Record token := mkToken {
  tstart : Z;
  tend : Z;
  tpos : option pos;
  tlemma : option str;
  tdeprel : option str;
  tsub : Z;                 (* sub_index *)
  trepl : option str;       (* text_replacement *)
  thdoc : option Z;         (* _head_document_index *)
  thsent : option Z;        (* _head_sentence_index *)
  textras : extras
}.

(* Token.__init__, datamodel.py:87-109: the asserts; an absent extras is TokenExtras({}) *)
Definition new_token (start fin : Z) (p : option pos) (lemma deprel : option str)
           (sub : Z) (repl : option str) (hdoc hsent : option Z) (ex : option extras)
  : result token :=
  do _ <- assert (0 <=? start);
  do _ <- assert (start <? fin);
  do _ <- (match repl with None => assert (sub =? 0) | Some _ => Ok tt end);
  Ok (mkToken start fin p lemma deprel sub repl hdoc hsent
              (match ex with Some e => e | None => [] end)).

(* datamodel.py:131-133 *)
Definition has_head (t : token) : bool := negb (is_none (thdoc t)) || negb (is_none (thsent t)).

Definition is_minus1 (o : option Z) : bool := match o with Some h => h =? -1 | None => false end.

(* datamodel.py:143-145 *)
Definition is_root (t : token) : bool := is_minus1 (thdoc t) || is_minus1 (thsent t).

(* datamodel.py:151-153 *)
Definition is_multiword (t : token) : bool := negb (is_none (trepl t)).

(* datamodel.py:163-166 *)
Definition coincides (a b : token) : bool := (tstart a =? tstart b) && (tend a =? tend b).

(* datamodel.py:168-175 *)
Definition intersects (a b : token) : bool :=
  if (tend b <=? tstart a) || (tend a <=? tstart b) then false
  else if (tstart a =? tstart b) && (tend a =? tend b) then tsub a =? tsub b
  else true.

(* datamodel.py:177-185; line 182 compares self._head_sentence_index with itself *)
Definition token_eqb (a b : token) : bool :=
  (tstart a =? tstart b) && (tend a =? tend b)
  && option_eqb pos_eqb (tpos a) (tpos b)
  && option_eqb str_eqb (tlemma a) (tlemma b)
  && option_eqb Z.eqb (thdoc a) (thdoc b)
  && option_eqb Z.eqb (thsent a) (thsent a)
  && option_eqb str_eqb (tdeprel a) (tdeprel b)
  && (tsub a =? tsub b)
  && option_eqb str_eqb (trepl a) (trepl b)
  && extras_eqb (textras a) (textras b).

(* datamodel.py:197-203 *)
Definition with_morphology (t : token) (p : option pos) (lemma : option str) : result token :=
  new_token (tstart t) (tend t) p lemma (tdeprel t) (tsub t) (trepl t)
            (thdoc t) (thsent t) (Some (textras t)).

(* datamodel.py:205-211 *)
Definition with_syntax (t : token) (deprel : option str) (hdoc hsent : option Z) : result token :=
  new_token (tstart t) (tend t) (tpos t) (tlemma t) deprel (tsub t) (trepl t)
            hdoc hsent (Some (textras t)).

(* datamodel.py:213-220 *)
Definition with_extras (t : token) (e : option extras) : result token :=
  new_token (tstart t) (tend t) (tpos t) (tlemma t) (tdeprel t) (tsub t) (trepl t)
            (thdoc t) (thsent t) e.

(* datamodel.py:222-226 *)
Definition update_extras (t : token) (updates : option extras) : result token :=
  match updates with
  | None => Ok t
  | Some u => with_extras t (Some (extras_update (textras t) u))
  end.

(* datamodel.py:228-243 *)
Definition fill_heads (t : token) (sentence_start : Z) : result token :=
  match thsent t, thdoc t with
  | None, None => Ok t
  | hs, hd =>
      if is_minus1 hs || is_minus1 hd then with_syntax t (tdeprel t) (Some (-1)) (Some (-1))
      else
        match hs, hd with
        | Some s, None => with_syntax t (tdeprel t) (Some (s + sentence_start)) (Some s)
        | None, Some d => with_syntax t (tdeprel t) (Some d) (Some (d - sentence_start))
        | Some s, Some d =>
            if d =? s + sentence_start then with_syntax t (tdeprel t) (Some d) (Some s)
            else Err EValue
        | None, None => Ok t
        end
  end.

(* ------------------------------------------------------------------ *)
(* Sentence, datamodel.py:246-274                                      *)

Record sentence := mkSent { sstart : Z; send : Z }.

Definition new_sentence (s e : Z) : result sentence :=
  do _ <- assert (0 <=? s);
  do _ <- assert (s <? e);
  Ok (mkSent s e).

Definition sent_len (s : sentence) : Z := send s - sstart s.
Definition sent_eqb (a b : sentence) : bool := (sstart a =? sstart b) && (send a =? send b).

(* ------------------------------------------------------------------ *)
(* _check_for_sequence and _skipped_token, datamodel.py:572-584        *)

(* datamodel.py:572-576; the index is only used in messages and is dropped.
   True when no neighbouring pair fails. *)
Fixpoint check_for_sequence {A} (fail : A -> A -> bool) (l : list A) : bool :=
  match l with
  | x :: ((y :: _) as l') => if fail x y then false else check_for_sequence fail l'
  | _ => true
  end.

(* datamodel.py:579-584 *)
Definition skipped_token (t1 t2 : token) : bool :=
  if is_multiword t2 then
    if is_multiword t1 && coincides t2 t1 then negb (tsub t2 =? tsub t1 + 1)
    else negb (tsub t2 =? 0)
  else false.

(* ------------------------------------------------------------------ *)
(* _WordList, datamodel.py:305-354                                     *)

(* attrgetter('start', 'end', 'sub_index') *)
Definition token_cmp (a b : token) : comparison :=
  match Z.compare (tstart a) (tstart b) with
  | Eq => match Z.compare (tend a) (tend b) with
          | Eq => Z.compare (tsub a) (tsub b)
          | c => c
          end
  | c => c
  end.
Definition token_leb (a b : token) : bool :=
  match token_cmp a b with Gt => false | _ => true end.
Definition sort_tokens : list token -> list token := isort token_leb.

(* datamodel.py:343-349 *)
Definition fill_sentence_heads (tokens : list token) (s : sentence) : result (list token) :=
  mapM (fun t => fill_heads t (sstart s)) (py_slice tokens (sstart s) (send s)).

Fixpoint fill_token_heads (tokens : list token) (sents : list sentence) : result (list token) :=
  match sents with
  | [] => Ok []
  | s :: ss => do f <- fill_sentence_heads tokens s;
               do fs <- fill_token_heads tokens ss;
               Ok (f ++ fs)
  end.

(* _WordList.__init__, datamodel.py:306-323: returns self._tokens.
   [sents] is the sorted_sentences argument. *)
Definition new_wordlist (tokens : list token) (sents : option (list sentence)) : result (list token) :=
  let st := sort_tokens tokens in
  do _ <- raise_if (negb (check_for_sequence intersects st)) EValue;
  do _ <- raise_if (negb (check_for_sequence skipped_token st)) EValue;
  match sents with
  | Some ((_ :: _) as ss) => fill_token_heads st ss
  | _ => Ok st
  end.

(* ------------------------------------------------------------------ *)
(* Document, datamodel.py:428-566                                      *)

Record document := mkDoc { dtext : str; dtokens : list token; dsents : list sentence }.

(* attrgetter('start', 'end') *)
Definition sent_cmp (a b : sentence) : comparison :=
  match Z.compare (sstart a) (sstart b) with
  | Eq => Z.compare (send a) (send b)
  | c => c
  end.
Definition sent_leb (a b : sentence) : bool :=
  match sent_cmp a b with Gt => false | _ => true end.
Definition sort_sents : list sentence -> list sentence := isort sent_leb.

(* datamodel.py:472-475 *)
Definition validate_no_syntax (tokens : list token) (s : sentence) : result unit :=
  raise_if (existsb has_head (py_slice tokens (sstart s + 1) (send s))) EValue.

(* The inner loop of validate_syntax, datamodel.py:494-504, for the outer index [i];
   [visited] has one cell per token of the sentence.  Out of fuel is EFuel. *)
Fixpoint validate_walk (fuel : nat) (tokens : list token) (s : sentence) (i : Z)
         (visited : list (option Z)) (t : token) : result (list (option Z)) :=
  match fuel with
  | O => Err EFuel
  | S fuel' =>
      if has_head t && negb (is_root t) then
        match thsent t with
        | None => Err EType     (* None < 0 *)
        | Some h =>
            if (h <? 0) || (sent_len s <=? h) then Err EValue
            else
              do cell <- py_index visited h;
              match cell with
              | None =>
                  let visited' := set_nth visited (Z.to_nat h) (Some i) in
                  match thdoc t with
                  | None => Err EType
                  | Some d => do t' <- py_index tokens d;
                              validate_walk fuel' tokens s i visited' t'
                  end
              | Some j => if j =? i then Err EValue else Ok visited
              end
        end
      else Ok visited
  end.

(* The outer loop, datamodel.py:480-504; [root] tells whether a root was seen.
   The loop index runs over the remaining indices [is]. *)
Fixpoint validate_loop (tokens : list token) (s : sentence) (is_ : list Z)
         (root : bool) (visited : list (option Z)) : result unit :=
  match is_ with
  | [] => Ok tt
  | i :: is' =>
      do t <- py_index tokens (sstart s + i);
      if negb (has_head t) then Err EValue
      else if is_root t then
        if root then Err EValue
        else
          do cell <- py_index visited i;
          let visited' := match cell with
                          | None => set_nth visited (Z.to_nat i) (Some i)
                          | Some _ => visited
                          end in
          validate_loop tokens s is' true visited'
      else
        do cell <- py_index visited i;
        match cell with
        | Some _ => validate_loop tokens s is' root visited
        | None =>
            do visited' <- validate_walk (S (length visited)) tokens s i
                                         (set_nth visited (Z.to_nat i) (Some i)) t;
            validate_loop tokens s is' root visited'
        end
  end.

(* datamodel.py:477-504 *)
Definition validate_syntax_sentence (tokens : list token) (s : sentence) : result unit :=
  validate_loop tokens s (zrange (sent_len s)) false (repeat None (Z.to_nat (sent_len s))).

(* datamodel.py:506-510 *)
Definition validate_sentence (tokens : list token) (s : sentence) : result unit :=
  do t <- py_index tokens (sstart s);
  if has_head t then validate_syntax_sentence tokens s else validate_no_syntax tokens s.

Fixpoint validate_all (tokens : list token) (sents : list sentence) : result unit :=
  match sents with
  | [] => Ok tt
  | s :: ss => do _ <- validate_sentence tokens s; validate_all tokens ss
  end.

(* the sentence part of Document.__init__, datamodel.py:442-461 *)
Definition check_sentences (n : Z) (sents : list sentence) : result unit :=
  do last <- py_index sents (-1);
  do _ <- raise_if (n <? send last) EValue;
  do first <- py_index sents 0;
  do _ <- raise_if (0 <? sstart first) EValue;
  do _ <- raise_if (send last <? n) EValue;
  do _ <- raise_if (negb (check_for_sequence (fun x y => negb (send x =? sstart y)) sents)) EValue;
  raise_if (negb (check_for_sequence (fun x y => sstart y <? send x) sents)) EValue.

(* Document.__init__, datamodel.py:429-465.  tokens is a list (an iterator has no len()). *)
Definition new_document (text : str) (tokens : list token) (sents : option (list sentence))
           (validate : bool) : result document :=
  match tokens with
  | [] =>
      do ts <- new_wordlist tokens sents;
      Ok (mkDoc text ts [])
  | _ :: _ =>
      do ss0 <- (match sents with
                 | None => do s <- new_sentence 0 (zlen tokens); Ok [s]
                 | Some ss => Ok ss
                 end);
      let ss := sort_sents ss0 in
      do ts <- new_wordlist tokens (Some ss);
      do _ <- check_sentences (zlen tokens) ss;
      do _ <- (if validate then validate_all ts ss else Ok tt);
      Ok (mkDoc text ts ss)
  end.

(* from_document, datamodel.py:561-566: zip stops at the shorter list *)
Definition from_document (d : document) (tokens : list token) : result document :=
  let st := sort_tokens tokens in
  if existsb (fun p => negb (coincides (fst p) (snd p))) (combine (dtokens d) st)
  then Err EValue
  else new_document (dtext d) st (Some (dsents d)) false.

(* _WordList.__eq__ and Document.__eq__, datamodel.py:351-354 and 556-559 *)
Definition doc_eqb (a b : document) : bool :=
  str_eqb (dtext a) (dtext b)
  && list_eqb token_eqb (dtokens a) (dtokens b)
  && list_eqb sent_eqb (dsents a) (dsents b).

(* ------------------------------------------------------------------ *)
(* DocumentToken views, datamodel.py:357-397                           *)

(* datamodel.py:371-373 *)
Definition doc_text_of (text : str) (t : token) : str := py_slice text (tstart t) (tend t).
(* datamodel.py:367-369 *)
Definition text_of (text : str) (t : token) : str :=
  match trepl t with Some r => r | None => doc_text_of text t end.
(* datamodel.py:375-378 *)
Definition space_after (text : str) (t : token) : bool :=
  (tend t =? zlen text) || isspace (py_slice text (tend t) (tend t + 1)).

(* ------------------------------------------------------------------ *)
(* Navigation: _NavigableItem 280-302, NavigableToken 400-415,
   NavigableSentence 418-425, Document.get_sentence 520-526            *)

(* A view of a token: the word list it lives in, which head index it uses,
   its token and its normalized index. *)
Record navtoken := mkNav {
  nv_text : str;             (* document text *)
  nv_tokens : list token;    (* container._tokens *)
  nv_docview : bool;         (* head_index is the document index (else the sentence index) *)
  nv_token : token;
  nv_index : Z
}.

(* _NavigableItem.__init__, datamodel.py:281-286 *)
Definition nav_index (count index : Z) : result Z :=
  do _ <- raise_if (count <=? index) EIndex;
  if count =? 0 then Err EZeroDiv else Ok (index mod count).

(* _WordList.get_token, datamodel.py:336-337, with NavigableToken.__init__ 401-405 *)
Definition get_token (text : str) (tokens : list token) (docview : bool) (index : Z) : result navtoken :=
  do t <- py_index tokens index;
  do i <- nav_index (zlen tokens) index;
  Ok (mkNav text tokens docview t i).

(* datamodel.py:288-302 *)
Definition nav_is_first (v : navtoken) : bool := nv_index v =? 0.
Definition nav_is_last (v : navtoken) : bool := nv_index v =? zlen (nv_tokens v) - 1.
Definition nav_get (v : navtoken) (i : Z) : result navtoken :=
  get_token (nv_text v) (nv_tokens v) (nv_docview v) i.
Definition nav_next (v : navtoken) : result (option navtoken) :=
  if nav_is_last v then Ok None else rmap Some (nav_get v (nv_index v + 1)).
Definition nav_previous (v : navtoken) : result (option navtoken) :=
  if nav_is_first v then Ok None else rmap Some (nav_get v (nv_index v - 1)).

(* datamodel.py:413-415 *)
Definition head_index (v : navtoken) : option Z :=
  if nv_docview v then thdoc (nv_token v) else thsent (nv_token v).

(* datamodel.py:407-411; indexing a list with None raises TypeError *)
Definition nav_head (v : navtoken) : result (option navtoken) :=
  if is_root (nv_token v) then Ok None
  else match head_index v with
       | None => Err EType
       | Some h => rmap Some (nav_get v h)
       end.

(* NavigableSentence *)
Record navsentence := mkNavS {
  ns_doc : document;
  ns_tokens : list token;
  ns_index : Z
}.

(* datamodel.py:520-522 and 418-421 *)
Definition get_sentence (d : document) (index : Z) : result navsentence :=
  do s <- py_index (dsents d) index;
  do ts <- new_wordlist (py_slice (dtokens d) (sstart s) (send s)) None;
  do i <- nav_index (zlen (dsents d)) index;
  Ok (mkNavS d ts i).

Definition ns_is_first (v : navsentence) : bool := ns_index v =? 0.
Definition ns_is_last (v : navsentence) : bool := ns_index v =? zlen (dsents (ns_doc v)) - 1.
Definition ns_next (v : navsentence) : result (option navsentence) :=
  if ns_is_last v then Ok None else rmap Some (get_sentence (ns_doc v) (ns_index v + 1)).
Definition ns_previous (v : navsentence) : result (option navsentence) :=
  if ns_is_first v then Ok None else rmap Some (get_sentence (ns_doc v) (ns_index v - 1)).

(* datamodel.py:423-425 *)
Definition ns_text (v : navsentence) : result str :=
  do f <- py_index (ns_tokens v) 0;
  do l <- py_index (ns_tokens v) (-1);
  Ok (py_slice (dtext (ns_doc v)) (tstart f) (tend l)).

Definition ns_get_token (v : navsentence) (i : Z) : result navtoken :=
  get_token (dtext (ns_doc v)) (ns_tokens v) false i.
Definition doc_get_token (d : document) (i : Z) : result navtoken :=
  get_token (dtext d) (dtokens d) true i.

(* Document.tokens, datamodel.py:339-341, and Document.sentences, 524-526, consumed as lists *)
Definition doc_nav_tokens (d : document) : result (list navtoken) :=
  mapM (doc_get_token d) (zrange (zlen (dtokens d))).
Definition doc_nav_sentences (d : document) : result (list navsentence) :=
  mapM (get_sentence d) (zrange (zlen (dsents d))).
Definition ns_nav_tokens (v : navsentence) : result (list navtoken) :=
  mapM (ns_get_token v) (zrange (zlen (ns_tokens v))).

(* ------------------------------------------------------------------ *)
(* Document.__str__, datamodel.py:532-550.
   The text of "|'pos':{}" depends on repr of strings and dicts; it is a function
   argument [show_pos].  Output is kept as pieces: copied document text or inserted markup. *)

Inductive piece := Copied (s : str) | Inserted (s : str).
Definition piece_str (p : piece) : str := match p with Copied s => s | Inserted s => s end.

(* datamodel.py:539-547 *)
Definition str_token (show_pos : pos -> str) (text : str) (pointer : Z) (t : token) : list piece * Z :=
  ([Copied (py_slice text pointer (tstart t));
    Inserted (of_string "[");
    Copied (py_slice text (tstart t) (tend t))]
   ++ (match tpos t with
       | Some p => [Inserted (of_string "|'pos':" ++ show_pos p)]
       | None => []
       end)
   ++ (match tlemma t with
       | Some l => [Inserted (of_string "|'lemma':'" ++ l ++ of_string "'")]
       | None => []
       end)
   ++ [Inserted (of_string "]")],
   tend t).

Fixpoint str_tokens (show_pos : pos -> str) (text : str) (pointer : Z) (ts : list token)
  : list piece * Z :=
  match ts with
  | [] => ([], pointer)
  | t :: ts' =>
      let (ps, p1) := str_token show_pos text pointer t in
      let (ps', p2) := str_tokens show_pos text p1 ts' in
      (ps ++ ps', p2)
  end.

(* datamodel.py:535-548 *)
Fixpoint str_sents (show_pos : pos -> str) (d : document) (pointer : Z) (ss : list sentence)
  : result (list piece) :=
  match ss with
  | [] => Ok []
  | s :: ss' =>
      do f <- py_index (dtokens d) (sstart s);
      let '(ps, p) := str_tokens show_pos (dtext d) (tstart f)
                                 (py_slice (dtokens d) (sstart s) (send s)) in
      do rest <- str_sents show_pos d p ss';
      Ok (Copied (py_slice (dtext d) pointer (tstart f)) :: Inserted (of_string "[")
          :: ps ++ Inserted (of_string "]") :: rest)
  end.

Definition doc_str_pieces (show_pos : pos -> str) (d : document) : result (list piece) :=
  do f <- py_index (dtokens d) 0;
  do body <- str_sents show_pos d (tstart f) (dsents d);
  do l <- py_index (dtokens d) (-1);
  Ok (Copied (py_slice (dtext d) 0 (tstart f)) :: body ++ [Copied (py_from (dtext d) (tend l))]).

Definition doc_str (show_pos : pos -> str) (d : document) : result str :=
  do ps <- doc_str_pieces show_pos d; Ok (concat (map piece_str ps)).
