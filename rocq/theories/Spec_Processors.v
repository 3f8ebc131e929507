(* What the statements about processors, taggers and parsers mean.  No proofs. *)
From Coq Require Import String Ascii ZArith NArith Bool Permutation Sorted List.
From Verif Require Import Base Model_Datamodel Spec_Datamodel Model_Processors.
Import ListNotations.
Open Scope Z_scope.

(* ---- documents and what processors change ---- *)

(* a document some constructor call returned *)
Definition built (d : document) : Prop :=
  exists text ts o v, Forall token_wf ts /\ sents_wf o /\ new_document text ts o v = Ok d.

(* the same place in the text, the same word of a multiword token, the same extras *)
Definition same_word (a b : token) : Prop :=
  tstart a = tstart b /\ tend a = tend b /\ tsub a = tsub b /\ trepl a = trepl b /\ textras a = textras b.

Definition same_layout (d d' : document) : Prop :=
  dtext d' = dtext d /\ dsents d' = dsents d /\ Forall2 same_word (dtokens d) (dtokens d').

Definition same_morphology (a b : token) : Prop := tpos a = tpos b /\ tlemma a = tlemma b.
Definition same_syntax (a b : token) : Prop :=
  thdoc a = thdoc b /\ thsent a = thsent b /\ tdeprel a = tdeprel b.

(* how many tokens of the documents have this Pos *)
Definition pos_count (p : option pos) (ds : list document) : nat :=
  length (filter (fun t => option_eqb pos_eqb p (tpos t)) (concat (map dtokens ds))).

(* ---- iterators ---- *)

(* one processor after the other, each fed with the output of the one before *)
Inductive chained : list processor -> iter document -> iter document -> Prop :=
| chained_nil it : chained [] it it
| chained_cons p ps it out : chained ps (process p it) out -> chained (p :: ps) it out.

(* the single processors of a nested complex processor, from left to right *)
Fixpoint single_processors (p : processor) : list processor :=
  match p with
  | ComplexProcessor ps => concat (map single_processors ps)
  | _ => [p]
  end.

(* every UDPipe model in it leaves the number of words as it is *)
Definition keeps_words (run : ud_sentence -> result ud_sentence) : Prop :=
  forall ws ws', run ws = Ok ws' -> length ws' = length ws.
Definition models_keep_words (p : processor) : Prop :=
  Forall (fun q => match q with UDPipe run => keeps_words run | _ => True end) (single_processors p).
Definition no_models (p : processor) : Prop :=
  Forall (fun q => match q with UDPipe run => False | _ => True end) (single_processors p).

(* ---- context managers ---- *)

(* the components, from left to right *)
Fixpoint components (m : managed) : list managed :=
  match m with
  | Single _ _ _ => [m]
  | Several ms => concat (map components ms)
  end.
Definition number (m : managed) : nat := match m with Single n _ _ => n | Several _ => O end.
Definition enters (m : managed) : Prop := match m with Single _ (Some _) _ => False | _ => True end.
Definition exits (m : managed) : Prop := match m with Single _ _ (Some _) => False | _ => True end.

(* ---- UDPipe ---- *)

(* the dictionary that a list of assignments leaves: the last one wins *)
Fixpoint last_value (k : str) (es : list (str * str)) : option str :=
  match es with
  | [] => None
  | (k', v) :: es' => match last_value k es' with
                      | Some v' => Some v'
                      | None => if str_eqb k k' then Some v else None
                      end
  end.

(* an entry of the features column: key=value, anything after a second = is dropped *)
Definition feature_entry (piece : str) (kv : str * str) : Prop :=
  ~ In (ch "="%char) (fst kv) /\ ~ In (ch "="%char) (snd kv) /\
  exists rest, piece = fst kv ++ ch "="%char :: snd kv ++ rest /\ (rest = [] \/ exists r, rest = ch "="%char :: r).

(* the features that a features column denotes *)
Definition denotes_features (s : str) (fs : dict str) : Prop :=
  (s = [] /\ fs = []) \/
  (s <> [] /\ exists pieces es, s = join [ch "|"%char] pieces /\ pieces <> [] /\
     Forall (fun piece => ~ In (ch "|"%char) piece) pieces /\ Forall2 feature_entry pieces es /\
     forall k, dict_get fs k = last_value k es).

Definition nonempty (s : str) (o : option str) : Prop := (s = [] /\ o = None) \/ (s <> [] /\ o = Some s).

(* the token says what the word says; the sentence starts at token st *)
Definition says (st : Z) (w : ud_word) (t : token) : Prop :=
  nonempty (w_lemma w) (tlemma t) /\ nonempty (w_deprel w) (tdeprel t) /\
  (match tpos t with
   | None => w_upos w = [] /\ w_xpos w = [] /\ w_feats w = []
   | Some p => ~ (w_upos w = [] /\ w_xpos w = [] /\ w_feats w = []) /\
       nonempty (w_upos w) (upos p) /\ nonempty (w_xpos w) (xpos p) /\ denotes_features (w_feats w) (feats p)
   end) /\
  (w_head w < 0 -> thsent t = None /\ thdoc t = None) /\
  (w_head w = 0 -> thsent t = Some (-1) /\ thdoc t = Some (-1)) /\
  (0 < w_head w -> thsent t = Some (w_head w - 1) /\ thdoc t = Some (st + (w_head w - 1))).

(* a Pos has no features, or the features column could not be misread *)
Definition plain_features (fs : dict str) : Prop :=
  NoDup (map fst fs) /\
  Forall (fun kv => Forall (fun c => c <> ch "="%char /\ c <> ch "|"%char) (fst kv ++ snd kv)) fs.

Definition upos_of (t : token) : option str := match tpos t with Some p => upos p | None => None end.
Definition xpos_of (t : token) : option str := match tpos t with Some p => xpos p | None => None end.
Definition feature_of (t : token) (k : str) : option str :=
  match tpos t with Some p => dict_get (feats p) k | None => None end.

(* every entry of the features column has a = *)
Definition readable_features (s : str) : Prop :=
  s = [] \/ Forall (fun piece => In (ch "="%char) piece) (split (ch "|"%char) s).

Definition or_empty (o : option str) : str := match o with Some s => s | None => [] end.

(* the word that a model gets for a token: features sorted as strings, no head, no relation *)
Definition describes (text : str) (t : token) (w : ud_word) : Prop :=
  w_form w = text_of text t /\ w_lemma w = or_empty (tlemma t) /\
  w_upos w = or_empty (upos_of t) /\ w_xpos w = or_empty (xpos_of t) /\
  w_head w = -1 /\ w_deprel w = [] /\
  exists entries, Permutation entries (match tpos t with Some p => feats p | None => [] end) /\
    w_feats w = join [ch "|"%char] (map (fun kv => fst kv ++ ch "="%char :: snd kv) entries) /\
    StronglySorted (fun a b => str_cmp a b <> Gt) (map (fun kv => fst kv ++ ch "="%char :: snd kv) entries).

(* what a word can carry: no empty strings, features that cannot be misread *)
Definition survivable (t : token) : Prop :=
  tlemma t <> Some [] /\ upos_of t <> Some [] /\ xpos_of t <> Some [] /\
  match tpos t with Some p => plain_features (feats p) | None => True end.
