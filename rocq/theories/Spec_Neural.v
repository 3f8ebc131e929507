(* What the statements about neural tagging mean.  No proofs. *)
From Coq Require Import String ZArith NArith Bool List.
From Verif Require Import Base Model_Datamodel Spec_Datamodel Model_Vocab Model_Lemma Spec_Lemma Model_Features Spec_Features
  Model_Builder Model_Neural.
Import ListNotations.
Open Scope Z_scope.

(* ---- predictions ---- *)

(* one column of a prediction for a batch whose first sentence has the given cells *)
Definition column_of (p : dict nested) (name : str) (cells : list nested) : Prop :=
  exists others, dict_get p name = Some (NList (NList cells :: others)).

(* every column of the prediction has at least n cells for the first sentence of the batch *)
Definition covers (n : nat) (p : dict nested) : Prop :=
  dict_ok p /\ forall name v, dict_get p name = Some v ->
    exists cells others, v = NList (NList cells :: others) /\ (n <= length cells)%nat.

(* ---- what a label says about a token ---- *)

(* what the value v of the part with the given name says about a Pos *)
Definition part_says (name : str) (v : part) (p : option pos) : Prop :=
  match v with
  | PaPos q => name = n_POS /\ p = q
  | PaStr s => exists q, p = Some q /\
      (name = n_UPOS -> upos q = s) /\ (name = n_XPOS -> xpos q = s) /\
      (name <> n_UPOS -> name <> n_XPOS -> dict_get (feats q) name = s)
  | PaFeats f => exists q, p = Some q /\ forall k, dict_get (feats q) k = dict_get f k
  | PaXF x f => exists q, p = Some q /\ xpos q = x /\ forall k, dict_get (feats q) k = dict_get f k
  end.

(* p is the Pos whose parts are numbered ids in the vocabularies b *)
Definition denoted_pos (b : pos_labels) (ids : list Z) (p : option pos) : Prop :=
  exists parts,
    Forall2 (fun il v => 0 <= fst il /\ nth_error (snd il) (Z.to_nat (fst il)) = Some v) (combine ids (pl_id2parts b)) parts /\
    Forall2 (fun name v => part_says name v p) (dict_keys (pl_lens b)) parts /\
    (Forall (fun v => exists s, v = PaStr s) parts -> forall q k, p = Some q -> dict_get (feats q) k <> None ->
       In k (dict_keys (pl_lens b)) /\ k <> n_UPOS /\ k <> n_XPOS).

(* the lemma that ids of symbols spell: 3 ends it, 0, 1 and 2 are no symbols *)
Inductive spells (symbols : dict Z) : list Z -> str -> Prop :=
| sp_nil : spells symbols [] []
| sp_end ids : spells symbols (3 :: ids) []
| sp_skip i ids l : 0 <= i <= 2 -> spells symbols ids l -> spells symbols (i :: ids) l
| sp_symbol i s ids l : 3 < i -> dict_get symbols s = Some i -> spells symbols ids l -> spells symbols (i :: ids) (s ++ l).

(* the prediction for a label is one that the label's vocabulary has, with as many ids as the label has *)
Definition possible (lower : str -> str) (ds : list document) (lb : label_builder) (v : nested) : Prop :=
  match lb with
  | LBPos _ st => exists b ids, build_pos_labels st ds = Ok b /\ v = NList (map NInt ids) /\
      Forall2 (fun i nl => 0 <= i < snd nl) ids (pl_lens b)
  | LBLemma _ => exists l2i i2l i more, build_lemmas ds = Ok (l2i, i2l) /\ v = NList (NInt i :: more) /\ 0 <= i < zlen i2l
  | LBRule _ th => exists r2i i2r i more, build_rules lower th ds = Ok (r2i, i2r) /\ v = NList (NInt i :: more) /\ 0 <= i < zlen i2r
  | LBChars _ th segment _ => exists symbols ids, build_lemma_chars segment th ds = Ok symbols /\ v = NList (map NInt ids) /\
      Forall (fun i => 0 <= i < zlen symbols + 4) ids
  end.

Definition writes_pos (lb : label_builder) : Prop := match lb with LBPos _ _ => True | _ => False end.
Definition writes_lemma (lb : label_builder) : Prop := ~ writes_pos lb.

(* what the prediction v for a label says about the morphology of a token with the given text *)
Definition denotes (lower : str -> str) (ds : list document) (lb : label_builder) (v : nested) (text : str)
    (p : option pos) (lemma : option str) : Prop :=
  match lb with
  | LBPos _ st => exists b ids, build_pos_labels st ds = Ok b /\ v = NList (map NInt ids) /\ denoted_pos b ids p
  | LBLemma _ => exists l2i i2l i more, build_lemmas ds = Ok (l2i, i2l) /\ v = NList (NInt i :: more) /\
      nth_error i2l (Z.to_nat i) = Some lemma
  | LBRule _ th => exists r2i i2r i more r, build_rules lower th ds = Ok (r2i, i2r) /\ v = NList (NInt i :: more) /\
      nth_error i2r (Z.to_nat i) = Some r /\
      ((exists q, lower text = q ++ word_suffix r /\ lemma = Some (q ++ lemma_suffix r)) \/
       (~ ends_with (lower text) (word_suffix r) /\ lemma = Some (lower text)))
  | LBChars _ th segment _ => exists symbols ids l, build_lemma_chars segment th ds = Ok symbols /\ v = NList (map NInt ids) /\
      spells symbols ids l /\ lemma = Some l
  end.

(* ---- several labels ---- *)

(* the first occurrences *)
Fixpoint firsts (seen : list Z) (l : list Z) : list Z :=
  match l with
  | [] => []
  | k :: l' => if existsb (Z.eqb k) seen then firsts seen l' else k :: firsts (k :: seen) l'
  end.

(* the labels, class by class, the classes in the order of their first label *)
Definition by_class (lbs : list label_builder) : list label_builder :=
  concat (map (fun c => filter (fun lb => label_class lb =? c) lbs) (firsts [] (map label_class lbs))).

(* what the labels say, in the order in which they are written: the last one counts, and what no label writes stays *)
Definition written (says : label_builder -> option pos -> option str -> Prop) (lbs : list label_builder) (t t' : token) : Prop :=
  ((forall lb, In lb lbs -> ~ writes_pos lb) -> tpos t' = tpos t) /\
  ((forall lb, In lb lbs -> ~ writes_lemma lb) -> tlemma t' = tlemma t) /\
  (forall before lb after, lbs = before ++ lb :: after -> writes_pos lb ->
     (forall lb', In lb' after -> ~ writes_pos lb') -> says lb (tpos t') (tlemma t')) /\
  (forall before lb after, lbs = before ++ lb :: after -> writes_lemma lb ->
     (forall lb', In lb' after -> ~ writes_lemma lb') -> says lb (tpos t') (tlemma t')).

(* the labels_extractor_builder() of providers of features and of labels *)
Definition provided (bs : list (builder label_builder)) (lbs : list label_builder) : Prop :=
  bs <> [] /\ Forall (fun b => b = BEmpty _ \/ exists lb, b = wrap_word_level lb) bs /\
  lbs = concat (map (fun b => match b with BPad _ (BIter _ (BIter _ (BBasic _ lb))) => [lb] | _ => [] end) bs).

(* a training set for the labels: dictionaries of features, and no feature called UPOS or XPOS where features are labels *)
Definition trainable (ds : list document) (lbs : list label_builder) : Prop :=
  Forall opt_pos_wf (dataset_poses ds) /\
  forall name, In (LBPos name pos_gran) lbs -> no_reserved_feature (dataset_poses ds).

(* the sentence as it is given to the feature extractor *)
Definition as_batch (text : str) (ts : list token) : obj := OSeq [OSeq (map (fun t => OTok (mkDT text t)) ts)].

(* ---- the model ---- *)
Section Model.
Variables (lower : str -> str) (F : Type) (get_features : obj -> result F) (predict : F -> result (dict nested)).

(* what the model predicts for a sentence *)
Definition predicted (d : document) (s : sentence) (p : dict nested) : Prop :=
  exists f, get_features (as_batch (dtext d) (tokens_of (dtokens d) s)) = Ok f /\ predict f = Ok p.

(* the model predicts something for every sentence: as long as the sentence, and possible values for every label *)
Definition fitting (ds : list document) (lbs : list label_builder) (d : document) : Prop :=
  forall s, In s (dsents d) -> exists p, predicted d s p /\ covers (length (tokens_of (dtokens d) s)) p /\
    forall lb, In lb lbs -> exists cells, column_of p (label_name lb) cells /\
      Forall (possible lower ds lb) (firstn (length (tokens_of (dtokens d) s)) cells).

(* the morphology of d' is what the labels, class by class, say about the tokens of d *)
Definition predicted_morphology (ds : list document) (lbs : list label_builder) (d d' : document) : Prop :=
  forall s p j t t', In s (dsents d) -> predicted d s p ->
    nth_error (tokens_of (dtokens d) s) j = Some t -> nth_error (tokens_of (dtokens d') s) j = Some t' ->
    written (fun lb q l => exists cells v, column_of p (label_name lb) cells /\ nth_error cells j = Some v /\
               denotes lower ds lb v (text_of (dtext d) t) q l) (by_class lbs) t t'.
End Model.

(* the syntax is the same, except that a token one of whose head indices is -1 may become a root *)
Definition syntax_kept (t t' : token) : Prop :=
  tdeprel t' = tdeprel t /\
  (thdoc t' = thdoc t /\ thsent t' = thsent t \/
   (thdoc t = Some (-1) \/ thsent t = Some (-1)) /\ thdoc t' = Some (-1) /\ thsent t' = Some (-1)).
