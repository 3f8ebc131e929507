(* Model of NeuralTagger.tag (babylondigger/neural/tagger/neural_tagger.py:14-32), of the label builders and interpreters
   of babylondigger/features/extractors.py that it uses, and of the interpreters of babylondigger/features/builder.py.
   Definitions only. *)
From Coq Require Import String ZArith NArith QArith Bool List.
From Verif Require Import Base Model_Datamodel Model_Vocab Model_Lemma Model_Features Model_Builder Model_Processors.
Import ListNotations.
Open Scope Z_scope.

(* ------------------------------------------------------------------ *)
(* Label builders                                                      *)

(* PosDictFeatureExtractorBuilder, LemmaDictFeatureExtractorBuilder, LemmaSuffixTransformationFeatureExtractorBuilder and
   LemmaCharFeatureExtractorBuilder with their label name and configuration: extractors.py:344-349, 399-400, 461-463,
   530-535.  The segmenter of the last one is given by its segment method. *)
Inductive label_builder :=
| LBPos (name : str) (st : strategy)
| LBLemma (name : str)
| LBRule (name : str) (threshold : Z)
| LBChars (name : str) (threshold : Z) (segment : str -> result (list str)) (max_len : Z).

(* type(builder) *)
Definition label_class (lb : label_builder) : Z :=
  match lb with LBPos _ _ => 0 | LBLemma _ => 1 | LBRule _ _ => 2 | LBChars _ _ _ _ => 3 end.
Definition label_name (lb : label_builder) : str :=
  match lb with LBPos n _ | LBLemma n | LBRule n _ | LBChars n _ _ _ => n end.

(* the values a token-level interpreter is built with: extractors.py:377-380, 421-423, 483-485, 571-573 *)
Inductive labelling :=
| LPos (name : str) (b : pos_labels)
| LLemma (name : str) (id2lemma : list (option str))
| LRule (name : str) (id2rule : list rule)
| LChars (name : str) (id2char : list (Z * str)).

Section Lower.
(* str.lower *)
Variable lower : str -> str.

(* build, extractors.py:351-361, 402-408, 465-469, 537-549: the interpreter *)
Definition build_label (ds : list document) (lb : label_builder) : result labelling :=
  match lb with
  | LBPos name st => do b <- build_pos_labels st ds; Ok (LPos name b)
  | LBLemma name => do v <- build_lemmas ds; Ok (LLemma name (snd v))
  | LBRule name threshold => do v <- build_rules lower threshold ds; Ok (LRule name (snd v))
  | LBChars name threshold segment _ => do v <- build_lemma_chars segment threshold ds; Ok (LChars name (invert v))
  end.

(* an id is an integer, a list of ids a list of integers *)
Definition as_id (v : nested) : result Z := match v with NInt i => Ok i | NList _ => Err EType end.
Definition as_list (v : nested) : result (list nested) := match v with NList l => Ok l | NInt _ => Err EType end.
Definition as_ids (v : nested) : result (list Z) := do l <- as_list v; mapM as_id l.

(* value[self.__label_name][0] *)
Definition first_id (v : nested) : result Z := do l <- as_list v; do x <- py_index l 0; as_id x.

(* interpret, extractors.py:382-385, 425-426, 487-492, 575-582.  Simplification: that an id is not an integer is noticed
   before the first id is used. *)
Definition interpret_label (l : labelling) (x : dtoken) (value : dict nested) : result dtoken :=
  match l with
  | LPos name b => do v <- of_option EKey (dict_get value name); do ids <- as_ids v; interpret_pos b x ids
  | LLemma name id2lemma => do v <- of_option EKey (dict_get value name); do i <- first_id v; interpret_lemma id2lemma x i
  | LRule name id2rule => do v <- of_option EKey (dict_get value name); do i <- first_id v; interpret_rule lower id2rule x i
  | LChars name id2char => do v <- of_option EKey (dict_get value name); do ids <- as_ids v; interpret_chars id2char x ids
  end.

(* ------------------------------------------------------------------ *)
(* Interpreters                                                        *)

Inductive interpreter :=
| IDoNothing
| ILabel (l : labelling)
| IComp (is : list interpreter)
| IIter (i : interpreter).

Definition does_nothing (i : interpreter) : bool := match i with IDoNothing => true | _ => false end.

(* _composite_interpreter, builder.py:218-224 *)
Definition composite_interpreter (is : list interpreter) : interpreter :=
  match filter (fun i => negb (does_nothing i)) is with
  | [] => IDoNothing
  | [i] => i
  | is => IComp is
  end.

(* build, builder.py:119-121, 163-165, 206-210, 280-282, 373-374: the interpreter.  zip( *[]) cannot be unpacked into
   three lists. *)
Fixpoint build_interpreter (ds : list document) (b : builder label_builder) : result interpreter :=
  match b with
  | BBasic _ lb => do l <- build_label ds lb; Ok (ILabel l)
  | BEmpty _ => Ok IDoNothing
  | BPad _ b | BSparse _ b => build_interpreter ds b
  | BIter _ b => do i <- build_interpreter ds b; Ok (IIter i)
  | BComp _ bs =>
      match bs with
      | [] => Err EValue
      | [b] => build_interpreter ds b
      | _ => do is <- (fix go (bs : list (builder label_builder)) : result (list interpreter) :=
                         match bs with
                         | [] => Ok []
                         | b :: bs' => do i <- build_interpreter ds b; do is <- go bs'; Ok (i :: is)
                         end) bs;
             Ok (composite_interpreter is)
      end
  end.

(* wrap_word_level, builder.py:424-433, without sparsification: what the label providers of provider.py:127-179 return *)
Definition wrap_word_level (lb : label_builder) : builder label_builder :=
  BPad _ (BIter _ (BIter _ (BBasic _ lb))).

(* FeatureExtractorBuilderProvider, provider.py:15-17 and 19-31: the label interpreter; [bs] are the labels_extractor_builder()
   of the providers *)
Definition label_interpreter (bs : list (builder label_builder)) (ds : list document) : result interpreter :=
  do b <- merge_builders _ label_class bs; build_interpreter ds b.

(* a token, or something that is iterated: a sentence gives its tokens, one after the other (datamodel.py:325-326) *)
Inductive obj := OTok (x : dtoken) | OSeq (l : list obj).
Definition elements (o : obj) : result (list obj) := match o with OSeq l => Ok l | OTok _ => Err EType end.

(* interpret, builder.py:239-243, 312-315, 362-363, and of the labels.  zip( *value.values()) iterates over every value. *)
Definition interpret_tok (l : labelling) (o : obj) (value : dict nested) : result obj :=
  match o with
  | OTok x => do y <- interpret_label l x value; Ok (OTok y)
  | OSeq _ => Err EAttr
  end.
Fixpoint interpret (i : interpreter) (o : obj) (value : dict nested) : result obj :=
  match i with
  | IDoNothing => Ok o
  | ILabel l => interpret_tok l o value
  | IComp is => interpret_all (map interpret is) o value
  | IIter i => do rows <- mapM (fun kv => do l <- as_list (snd kv); Ok (fst kv, l)) value;
               do xs <- elements o;
               do ys <- interpret_each (interpret i) xs rows;
               Ok (OSeq ys)
  end.

(* ------------------------------------------------------------------ *)
(* NeuralTagger                                                        *)

Definition as_tok (o : obj) : result dtoken := match o with OTok x => Ok x | OSeq _ => Err EAttr end.

(* chain.from_iterable(o); that an element is a token is only noticed when the document is built *)
Definition chained_tokens (o : obj) : result (list dtoken) :=
  do l <- elements o; do ls <- mapM elements l; mapM as_tok (concat ls).

Section Tagger.
(* the features of a batch of sentences, and what the model predicts from them; a function of the features: dropout is
   not used for predicting *)
Variables (F : Type) (get_features : obj -> result F) (predict : F -> result (dict nested)).

Definition sentence_obj (s : navsentence) : result obj :=
  do vs <- ns_nav_tokens s; Ok (OSeq (map (fun v => OTok (mkDT (nv_text v) (nv_token v))) vs)).

(* the body of the inner loop, neural_tagger.py:28-30 *)
Definition tag_sentence (i : interpreter) (s : navsentence) : result (list dtoken) :=
  do o <- sentence_obj s;
  do f <- get_features (OSeq [o]);
  do p <- predict f;
  do r <- interpret i (OSeq [o]) p;
  chained_tokens r.

(* the body of the outer loop, neural_tagger.py:26-32 *)
Definition tag_document (i : interpreter) (d : document) : result document :=
  do ss <- doc_nav_sentences d;
  do xss <- mapM (tag_sentence i) ss;
  from_document d (map dt_tok (concat xss)).

(* a generator "for x in it: yield f(x)": an exception ends it *)
Fixpoint running {A B} (f : A -> result B) (it : iter A) (k : nat) : bool :=
  match k with
  | O => true
  | S k' => running f it k' && match iter_map f it k' with Item _ => true | _ => false end
  end.
Definition generator {A B} (f : A -> result B) (it : iter A) : iter B := fun k =>
  if running f it k then iter_map f it k else Stop.

(* NeuralTagger.tag, neural_tagger.py:24-32 *)
Definition neural_tag (i : interpreter) (documents : iter document) : iter document :=
  generator (tag_document i) documents.
End Tagger.

(* ------------------------------------------------------------------ *)
(* Labels for training                                                 *)

(* the vocabularies and get_features of the label extractors, extractors.py:364-373, 411-417, 472-479, 552-567, with
   their names *)
Definition label_features (ds : list document) (lb : label_builder) (o : obj) : result (dict nested) :=
  match o with
  | OSeq _ => Err EAttr
  | OTok x =>
      do ids <- match lb with
                | LBPos _ st => do b <- build_pos_labels st ds; pos_ids b (tpos (dt_tok x))
                | LBLemma _ => do v <- build_lemmas ds; Ok [lemma_label (fst v) (tlemma (dt_tok x))]
                | LBRule _ threshold => do v <- build_rules lower threshold ds; do i <- rule_label lower (fst v) x; Ok [i]
                | LBChars _ threshold segment max_len =>
                    do v <- build_lemma_chars segment threshold ds; lemma_char_ids segment v max_len (tlemma (dt_tok x))
                end;
      Ok [(label_name lb, NList (map NInt ids))]
  end.

(* FeatureExtractorBuilderProvider, provider.py:15-17 and 19-31: get_features of the label extractor *)
Definition label_extractor (bs : list (builder label_builder)) (ds : list document) (o : obj) : result (dict nested) :=
  do b <- merge_builders _ label_class bs;
  features _ _ elements (label_features ds) (fun _ _ _ v => v) b 0%Q o.
End Lower.
