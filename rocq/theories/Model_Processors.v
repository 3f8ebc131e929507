(* Model of babylondigger/processor.py, parser.py, tagger.py and wrappers/udpipe1_2.py.
   Definitions only. *)
From Coq Require Import String Ascii ZArith NArith Bool List.
From Verif Require Import Base Model_Datamodel Model_Conllu Model_Vocab.
Import ListNotations.
Open Scope Z_scope.

(* ------------------------------------------------------------------ *)
(* Iterators                                                           *)

(* What one call of next() gives: a value, StopIteration, or another exception. *)
Inductive outcome (A : Type) :=
| Item (a : A)
| Stop
| Raise (e : exn).
Arguments Item {A} a.
Arguments Stop {A}.
Arguments Raise {A} e.

(* An iterator: the outcomes of the first, second, ... call of next(); it need not end. *)
Definition iter (A : Type) : Type := nat -> outcome A.

(* map(f, it): one call of next(it) for each call; a failing f does not end the iterator *)
Definition iter_map {A B} (f : A -> result B) (it : iter A) : iter B := fun k =>
  match it k with
  | Item x => match f x with Ok y => Item y | Err e => Raise e end
  | Stop => Stop
  | Raise e => Raise e
  end.

(* ------------------------------------------------------------------ *)
(* parser.py                                                           *)

(* StubParser._parse, parser.py:24-29; _WordList has no __iter__, so enumerate(sentence) calls
   __getitem__ (datamodel.py:325-326) with 0, 1, ... until IndexError *)
Definition stub_parse_sentence (deprel : option str) (s : navsentence) : result (list token) :=
  do vs <- ns_nav_tokens s;
  mapM (fun '(i, v) => with_syntax (nv_token v) deprel None (Some (i - 1))) (enumerate vs).

Definition stub_parse (deprel : option str) (d : document) : result document :=
  do ss <- doc_nav_sentences d;
  do tss <- mapM (stub_parse_sentence deprel) ss;
  from_document d (concat tss).

(* ------------------------------------------------------------------ *)
(* tagger.py                                                           *)

(* StubTagger._tag, tagger.py:33-35 *)
Definition stub_tag (p : option pos) (d : document) : result document :=
  do vs <- doc_nav_tokens d;
  do ts <- mapM (fun v => with_morphology (nv_token v) p (Some (text_of (nv_text v) (nv_token v)))) vs;
  from_document d ts.

(* StubTaggerTrainer.get_most_frequent_pos, tagger.py:44-47.  A Counter finds a key by hash and ==;
   equal Pos objects have equal hashes (C15), None is a key like any other.
   most_common(1) is [] for an empty Counter. *)
Definition most_frequent_pos (ds : list document) : result (option pos) :=
  do vss <- mapM doc_nav_tokens ds;
  of_option EIndex (most_common (count_list (option_eqb pos_eqb) (map (fun v => tpos (nv_token v)) (concat vss)))).

(* StubTaggerTrainer.train, tagger.py:40-42: a list with one StubTagger, given by its pos *)
Definition stub_train (ds : list document) : result (list (option pos)) :=
  do p <- most_frequent_pos ds; Ok [p].

(* ------------------------------------------------------------------ *)
(* wrappers/udpipe1_2.py                                               *)

(* ufal.udpipe.Word: strings that are empty when not set, and the id of the head, -1 when not set.
   The other fields (id, deps, misc, children) are not read by the wrapper. *)
Record ud_word := mkWord {
  w_form : str; w_lemma : str; w_upos : str; w_xpos : str; w_feats : str; w_head : Z; w_deprel : str
}.

(* ufal.udpipe.Sentence without the technical root: words[1:] *)
Definition ud_sentence := list ud_word.

(* `if value: word.field = value` on a field that is still empty *)
Definition set_if (o : option str) : str := match o with Some (c :: s) => c :: s | _ => [] end.

(* convert_to_ud, udpipe1_2.py:73-86; Sentence.addWord(form) makes a word with no other field set.
   A Pos is always true. *)
Definition word_of (v : navtoken) : ud_word :=
  let t := nv_token v in
  mkWord (text_of (nv_text v) t)
         (set_if (tlemma t))
         (match tpos t with Some p => set_if (upos p) | None => [] end)
         (match tpos t with Some p => set_if (xpos p) | None => [] end)
         (match tpos t with
          | Some p => match feats p with
                      | [] => []
                      | _ => join [ch "|"] (isort str_leb (map (fun kv => fst kv ++ ch "=" :: snd kv) (feats p)))
                      end
          | None => []
          end)
         (-1) [].
Definition convert_to_ud (s : navsentence) : result ud_sentence :=
  do vs <- ns_nav_tokens s; Ok (map word_of vs).

(* udpipe1_2.py:91-92 *)
Definition non_empty (s : str) : option str := match s with [] => None | _ => Some s end.

(* udpipe1_2.py:96-98: the dictionary comprehension; entry[1] may raise IndexError *)
Definition parse_word_feats (s : str) : result (option (dict str)) :=
  match s with
  | [] => Ok None
  | _ => do es <- mapM (fun piece => match split (ch "=") piece with
                                     | k :: v :: _ => Ok (k, v)
                                     | _ => Err EIndex
                                     end) (split (ch "|") s);
         Ok (Some (dict_update [] es))
  end.

(* udpipe1_2.py:96-105, one token and its word *)
Definition token_from_word (t : token) (w : ud_word) : result token :=
  do fs <- parse_word_feats (w_feats w);
  let p := match w_upos w, w_xpos w, fs with
           | [], [], (None | Some []) => None
           | _, _, _ => Some (mkPos (non_empty (w_upos w)) (non_empty (w_xpos w))
                                    (match fs with Some f => f | None => [] end))
           end in
  let head := if 0 <=? w_head w then Some (w_head w - 1) else None in
  do t1 <- with_morphology t p (non_empty (w_lemma w));
  with_syntax t1 (non_empty (w_deprel w)) None head.

(* convert_from_ud, udpipe1_2.py:89-106; zip stops at the shorter list *)
Definition convert_from_ud (s : navsentence) (ws : ud_sentence) : result (list token) :=
  do vs <- ns_nav_tokens s;
  mapM (fun '(v, w) => token_from_word (nv_token v) w) (combine vs ws).

(* _AbstractUDPipeProcessor._process, udpipe1_2.py:19-25.  [run] is the call of the UDPipe model:
   model.tag, model.parse or one after the other (43-70).  It gets the words of one sentence and leaves
   the words it wants; what it writes may be anything, but is a function of the words. *)
Definition ud_sentence_tokens (run : ud_sentence -> result ud_sentence) (s : navsentence) : result (list token) :=
  do ws <- convert_to_ud s;
  do ws' <- run ws;
  convert_from_ud s ws'.
Definition ud_process (run : ud_sentence -> result ud_sentence) (d : document) : result document :=
  do ss <- doc_nav_sentences d;
  do tss <- mapM (ud_sentence_tokens run) ss;
  from_document d (concat tss).

(* ------------------------------------------------------------------ *)
(* processor.py: process                                               *)

(* The processors of the library that work document by document (StubTagger.tag, tagger.py:30-31,
   StubParser.parse, parser.py:21-22, _AbstractUDPipeProcessor.process, udpipe1_2.py:16-17) and
   DocumentComplexProcessor over a list of processors. *)
Inductive processor :=
| StubTagger (p : option pos)
| StubParser (deprel : option str)
| UDPipe (run : ud_sentence -> result ud_sentence)
| ComplexProcessor (ps : list processor).

(* DocumentComplexProcessor.process, processor.py:21-25 *)
Fixpoint process (p : processor) (documents : iter document) : iter document :=
  match p with
  | StubTagger p => iter_map (stub_tag p) documents
  | StubParser deprel => iter_map (stub_parse deprel) documents
  | UDPipe run => iter_map (ud_process run) documents
  | ComplexProcessor ps => fold_left (fun result processor => process processor result) ps documents
  end.

(* ------------------------------------------------------------------ *)
(* processor.py: context management                                    *)

(* A processor as a context manager: a single one, which may raise when it is entered or exited, or a
   DocumentComplexProcessor.  A component is told apart by its number. *)
Inductive managed :=
| Single (n : nat) (enter_raises exit_raises : option exn)
| Several (ms : list managed).

(* a call that returned, in the order of the calls *)
Inductive event := Entered (n : nat) | Exited (n : nat).

(* `for x in xs: f(x)`: the exception ends the loop *)
Definition for_each {A} (f : A -> list event * option exn) : list A -> list event * option exn :=
  fix loop (l : list A) : list event * option exn :=
    match l with
    | [] => ([], None)
    | x :: l' => match f x with
                 | (es, Some e) => (es, Some e)
                 | (es, None) => let '(es', o) := loop l' in (es ++ es', o)
                 end
    end.

(* __enter__, processor.py:10-11 and 27-30 *)
Fixpoint enter (m : managed) : list event * option exn :=
  match m with
  | Single n (Some e) _ => ([], Some e)
  | Single n None _ => ([Entered n], None)
  | Several ms => for_each enter ms
  end.

(* __exit__, processor.py:13-14 and 32-34.  The results of the components are dropped and None is
   returned, so the exception of the body is never swallowed. *)
Fixpoint exit (m : managed) : list event * option exn :=
  match m with
  | Single n _ (Some e) => ([], Some e)
  | Single n _ None => ([Exited n], None)
  | Several ms => for_each exit ms
  end.

(* `with m: body`: [body] is the exception the body ends with, if any.  __exit__ is not called when
   __enter__ raises; an exception of __exit__ replaces that of the body. *)
Definition run_with (m : managed) (body : option exn) : list event * option exn :=
  match enter m with
  | (es, Some e) => (es, Some e)
  | (es, None) =>
      match exit m with
      | (xs, Some e) => (es ++ xs, Some e)
      | (xs, None) => (es ++ xs, body)
      end
  end.
