(* Properties of tagging with gold labels. *)
From Coq Require Import String ZArith NArith QArith Bool Lia List.
From Verif Require Import Base Model_Datamodel Spec_Datamodel Model_Vocab Model_Lemma Spec_Lemma Model_Features Spec_Features
  Model_Builder Model_Processors Spec_Processors Model_Neural Spec_Neural Spec_Gold Props_Features Props_UDEval Props_Neural
  Proofs_Neural6 Proofs_Gold2 Proofs_Gold3.
Import ListNotations.
Open Scope Z_scope.

(* ---------------- C81 ---------------- *)

(* A model that predicts for every sentence the labels of the same sentence of a training document: the tagged document has
   the layout of the given one, and each token has what its gold labels tell: the Pos, the lemma, the lemma in lower case if
   its rule is frequent, the lemma from frequent symbols. *)
Theorem C81_gold_labels :
  forall lower F get_features predict bs lbs ds i g d,
    provided bs lbs -> trainable ds lbs -> NoDup (map label_name lbs) -> Forall sized lbs ->
    label_interpreter lower bs ds = Ok i -> In g ds -> built g -> built d -> same_layout g d ->
    oracle lower F get_features predict bs ds g d ->
    exists d', tag_document lower F get_features predict i d = Ok d' /\ built d' /\ same_layout d d' /\
      forall k gt t t', nth_error (dtokens g) k = Some gt -> nth_error (dtokens d) k = Some t -> nth_error (dtokens d') k = Some t' ->
        written (fun lb p lem => recovers lower ds lb (dtext g) gt p lem) (by_class lbs) t t'.
Proof. exact gold_tagged. Qed.
Print Assumptions C81_gold_labels.

(* With a label for the Pos and one for the lemma, and no others, the morphology is the gold one. *)
Theorem C81_reproduced :
  forall lower F get_features predict bs lbs ds i g d,
    provided bs lbs -> trainable ds lbs -> NoDup (map label_name lbs) -> Forall sized lbs ->
    label_interpreter lower bs ds = Ok i -> In g ds -> built g -> built d -> same_layout g d ->
    oracle lower F get_features predict bs ds g d ->
    (exists name st, In (LBPos name st) lbs) -> (exists name, In (LBLemma name) lbs) ->
    (forall lb, In lb lbs -> (exists name st, lb = LBPos name st) \/ (exists name, lb = LBLemma name)) ->
    exists d', tag_document lower F get_features predict i d = Ok d' /\ same_layout g d' /\
      Forall2 (fun gt t => same_pos (tpos gt) (tpos t) /\ tlemma t = tlemma gt) (dtokens g) (dtokens d').
Proof. exact gold_reproduced. Qed.
Print Assumptions C81_reproduced.

(* The labels of gold sentences exist: the hypothesis that the model predicts them is not empty. *)
Theorem C81_labels_exist :
  forall lower bs lbs ds i text ts,
    provided bs lbs -> trainable ds lbs -> NoDup (map label_name lbs) -> Forall sized lbs ->
    label_interpreter lower bs ds = Ok i -> ts <> [] -> Forall token_wf ts -> (forall t, In t ts -> In (mkDT text t) (dataset_tokens ds)) ->
    exists p, label_extractor lower bs ds (as_batch text ts) = Ok p /\ covers (length ts) p /\
      forall lb, In lb lbs -> exists cells, column_of p (label_name lb) cells /\
        Forall2 (fun t v => possible lower ds lb v /\
                            forall q l, denotes lower ds lb v (text_of text t) q l -> recovers lower ds lb text t q l) ts cells.
Proof. exact gold_prediction. Qed.
Print Assumptions C81_labels_exist.

(* A prediction denotes at most one Pos, up to the order of the features, or one lemma. *)
Theorem C81_denotes_once :
  forall lower ds lb v text p l q m, Forall opt_pos_wf (dataset_poses ds) ->
    denotes lower ds lb v text p l -> denotes lower ds lb v text q m ->
    (writes_pos lb -> same_pos p q) /\ (writes_lemma lb -> l = m).
Proof. exact denotes_once. Qed.
Print Assumptions C81_denotes_once.

(* the training document without annotation, and a model that knows its only sentence *)
Definition ex_plain : document := Eval vm_compute in
  match new_document (of_string "Dogs saw cats") [ex_bare 0 4 None (Some 1); ex_bare 5 8 None (Some (-1)); ex_bare 9 13 None (Some 1)] None true with
  | Ok d => d | Err _ => mkDoc [] [] [] end.
Definition ex_pl : list (builder label_builder) :=
  [wrap_word_level (LBPos (of_string "p") pos_UXF); wrap_word_level (LBLemma (of_string "l"))].
Definition ex_known (bs : list (builder label_builder)) (o : obj) : result (dict nested) :=
  match o with
  | OSeq [OSeq [_; _; _]] => label_extractor ascii_lower bs [ex_feat_doc] (as_batch (dtext ex_feat_doc) (dtokens ex_feat_doc))
  | _ => Err EKey
  end.
Definition ex_retag (bs : list (builder label_builder)) : result document :=
  tag_document ascii_lower (dict nested) (ex_known bs) (fun p => Ok p) (ex_interpreter bs) ex_plain.

Example C81_case : built ex_feat_doc /\ built ex_plain /\ same_layout ex_feat_doc ex_plain /\
  oracle ascii_lower (dict nested) (ex_known ex_pl) (fun p => Ok p) ex_pl [ex_feat_doc] ex_feat_doc ex_plain /\
  match ex_retag ex_pl with
  | Ok d => map tlemma (dtokens d) = map (fun s => Some (of_string s)) ["dog"; "see"; "cat"]%string /\
            map tpos (dtokens d) = [Some ex_noun'; Some ex_verb; Some ex_noun'] /\ map thdoc (dtokens d) = map thdoc (dtokens ex_plain)
  | Err _ => False
  end.
Proof.
  split; [|split; [|split; [|split]]].
  - exists (of_string "Dogs saw cats"), ex_feat_toks, None, true. split; [repeat constructor; unfold token_wf; simpl; auto; lia|]. split; [exact I|]. exact ex_feat_doc_built.
  - exists (of_string "Dogs saw cats"), [ex_bare 0 4 None (Some 1); ex_bare 5 8 None (Some (-1)); ex_bare 9 13 None (Some 1)], None, true.
    split; [repeat constructor; unfold token_wf; simpl; auto; lia|]. split; [exact I|]. vm_compute. reflexivity.
  - split; [reflexivity|]. split; [reflexivity|]. repeat constructor.
  - intros s p [<-|[]] E. exists p. split; [|reflexivity]. exact E.
  - vm_compute. auto.
Qed.

(* The rule label decides here: the only rule that occurs more than once turns "cats" into "cat"; the gold lemma of "saw" is lost. *)
Example C81_rare_rule :
  match ex_retag [wrap_word_level (LBPos (of_string "p") pos_gran); wrap_word_level (LBRule (of_string "r") 1)] with
  | Ok d => map tlemma (dtokens d) = map (fun s => Some (of_string s)) ["dog"; "saw"; "cat"]%string
  | Err _ => False
  end.
Proof. vm_compute. auto. Qed.
