(* What tagging with the gold labels has to give.  No proofs. *)
From Coq Require Import String ZArith NArith Bool List.
From Verif Require Import Base Model_Datamodel Spec_Datamodel Model_Vocab Spec_Vocab Model_Lemma Spec_Lemma Model_Features Spec_Features
  Model_Builder Model_Neural Spec_Neural.
Import ListNotations.
Open Scope Z_scope.

(* what the label of the gold token g tells about g: its Pos; its lemma; its lemma in lower case, if the rule that makes it
   from the word is frequent in the training set; the frequent symbols of its lemma, up to the length of the label *)
Definition recovers (lower : str -> str) (ds : list document) (lb : label_builder) (text : str) (g : token)
    (p : option pos) (lemma : option str) : Prop :=
  match lb with
  | LBPos _ _ => same_pos (tpos g) p
  | LBLemma _ => lemma = tlemma g
  | LBRule _ th => exists l, tlemma g = Some l /\
      forall rules r, Forall2 (teaches lower) (dataset_tokens ds) rules -> teaches lower (mkDT text g) r ->
        (0 < th -> th < occurrences rule_eqb r rules) -> lemma = Some (lower l)
  | LBChars _ th segment m => exists l syms, tlemma g = Some l /\ segment l = Ok syms /\
      forall segs, Forall2 (fun x ss => exists l, tlemma (dt_tok x) = Some l /\ segment l = Ok ss) (dataset_tokens ds) segs ->
        lemma = Some (concat (filter (seen_often th (concat segs)) (firstn (Z.to_nat (m - 1)) syms)))
  end.

(* labels have lengths *)
Definition sized (lb : label_builder) : Prop := match lb with LBChars _ _ _ m => 0 <= m | _ => True end.

Section Oracle.
Variables (lower : str -> str) (F : Type) (get_features : obj -> result F) (predict : F -> result (dict nested)).

(* the model predicts for the sentences of d the labels that the sentences of g are trained with *)
Definition oracle (bs : list (builder label_builder)) (ds : list document) (g d : document) : Prop :=
  forall s p, In s (dsents g) -> label_extractor lower bs ds (as_batch (dtext g) (tokens_of (dtokens g) s)) = Ok p ->
    predicted F get_features predict d s p.
End Oracle.
