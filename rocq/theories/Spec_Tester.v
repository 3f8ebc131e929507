(* What the statements about the testers mean.  No proofs. *)
From Coq Require Import String ZArith NArith QArith Bool List.
From Verif Require Import Base Model_Datamodel Spec_Datamodel Model_Conllu Spec_Conllu Model_UDEval Spec_UDEval Spec_Processors.
Import ListNotations.
Open Scope Z_scope.

(* a token without annotations *)
Definition bare (t : token) : Prop :=
  tpos t = None /\ tlemma t = None /\ tdeprel t = None /\ thdoc t = None /\ thsent t = None.

(* the same text, sentences and words; annotations and extras may differ *)
Definition same_segmentation (d d' : document) : Prop :=
  dtext d' = dtext d /\ dsents d' = dsents d /\
  Forall2 (fun t t' => tstart t' = tstart t /\ tend t' = tend t /\ tsub t' = tsub t /\ trepl t' = trepl t) (dtokens d) (dtokens d').

(* no feature is given twice; every Pos made of a Python dict has this *)
Definition distinct_features (d : document) : Prop :=
  forall t p, In t (dtokens d) -> tpos t = Some p -> NoDup (map fst (feats p)).

(* the tokens of the documents, each with its number in its sentence, counting from 0 *)
Definition places (ds : list document) : list (Z * token) :=
  flat_map (fun d => flat_map (fun s => enumerate (tokens_of (dtokens d) s)) (dsents d)) ds.

(* the head that is compared: a word without one counts as attached to the word before it, the first as a root *)
Definition compared_head (it : Z * token) : Z :=
  match thsent (snd it) with Some h => h | None => fst it - 1 end.
(* the relation that is compared: without its subtype, and only if there is a head *)
Definition compared_relation (t : token) : str :=
  match thsent t with Some _ => hd [] (split 58%N (shown (tdeprel t))) | None => of_string "_" end.

(* the prediction is right as far as the metric looks *)
Definition right (m : metric) (gold predicted : Z * token) : Prop :=
  let t := snd gold in let t' := snd predicted in
  match m with
  | MTokens | MSentences | MWords => True
  | MUPOS => shown (upos_of t') = shown (upos_of t)
  | MXPOS => shown (xpos_of t') = shown (xpos_of t)
  | MFeats => forall k, feature_of t' k = feature_of t k
  | MAllTags => shown (upos_of t') = shown (upos_of t) /\ shown (xpos_of t') = shown (xpos_of t) /\
                forall k, feature_of t' k = feature_of t k
  | MLemmas => shown (tlemma t') = shown (tlemma t)
  | MUAS => compared_head predicted = compared_head gold
  | MLAS | MCLAS | MWeightedLAS =>
      compared_head predicted = compared_head gold /\ compared_relation t' = compared_relation t
  end.

(* the words that the metric counts: CLAS leaves the functional relations out *)
Definition counted (m : metric) (it : Z * token) : bool :=
  match m with
  | MCLAS => negb (existsb (str_eqb (compared_relation (snd it))) functional_relations)
  | _ => true
  end.

Definition tag_metrics : list metric := [MUPOS; MXPOS; MFeats; MAllTags; MLemmas; MUAS; MLAS; MCLAS].

(* marks says for each word whether it is right *)
Definition marked (m : metric) (gold predicted : list (Z * token)) (marks : list bool) : Prop :=
  Forall2 (fun gp b => b = true <-> right m (fst gp) (snd gp)) (combine gold predicted) marks.

(* the same annotations as far as the script looks, for words with the same number in the sentence *)
Definition same_annotation (t t' : token) : Prop :=
  tlemma t' = tlemma t /\ upos_of t' = upos_of t /\ xpos_of t' = xpos_of t /\
  (forall k, feature_of t' k = feature_of t k) /\ thsent t' = thsent t /\ tdeprel t' = tdeprel t.
