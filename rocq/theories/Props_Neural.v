(* Properties of neural tagging. *)
From Coq Require Import String ZArith NArith QArith Bool Lia List.
From Verif Require Import Base Model_Datamodel Spec_Datamodel Model_Vocab Model_Lemma Spec_Lemma Model_Features Spec_Features
  Model_Builder Model_Processors Spec_Processors Model_Neural Spec_Neural Props_Features Props_UDEval Proofs_Neural Proofs_Neural5.
Import ListNotations.
Open Scope Z_scope.

(* ---------------- C67 ---------------- *)

(* labels for the lemma, the Pos, the rule that makes the lemma, and once more the lemma *)
Definition ex_nlabels : list label_builder :=
  [LBLemma (of_string "l"); LBPos (of_string "p") pos_gran; LBRule (of_string "r") 1; LBLemma (of_string "m")].
(* a provider of features between the providers of the labels *)
Definition ex_nbuilders : list (builder label_builder) :=
  [wrap_word_level (LBLemma (of_string "l")); BEmpty _; wrap_word_level (LBPos (of_string "p") pos_gran);
   wrap_word_level (LBRule (of_string "r") 1); wrap_word_level (LBLemma (of_string "m"))].
Definition ex_interpreter (bs : list (builder label_builder)) : interpreter :=
  match label_interpreter ascii_lower bs [ex_feat_doc] with Ok i => i | Err _ => IDoNothing end.

(* predictions: one cell for each word of the sentence, and one too many *)
Definition ex_ints (l : list Z) : nested := NList (map NInt l).
Definition ex_cells (n : nat) (l : list Z) : nested := NList [NList (repeat (ex_ints l) (S n))].
Definition ex_words (o : obj) : result nat := match o with OSeq [OSeq l] => Ok (length l) | _ => Err EType end.
Definition ex_predict (n : nat) : result (dict nested) :=
  Ok [(of_string "m", ex_cells n [2]); (of_string "p", ex_cells n [0; 1; 0; 1; 1]); (of_string "x", ex_cells n []);
      (of_string "r", ex_cells n [0]); (of_string "l", ex_cells n [1; 7])].
Definition ex_bare (a b : Z) (hd hs : option Z) : token := mkToken a b None None (Some (of_string "dep")) 0 None hd hs [].
Definition ex_sentences : list sentence := [mkSent 0 1; mkSent 1 3].
Definition ex_untagged : document := Eval vm_compute in
  match new_document (of_string "Birds saw dogs") [ex_bare 0 5 None (Some (-1)); ex_bare 6 9 None (Some 1); ex_bare 10 14 (Some (-1)) None]
          (Some ex_sentences) true with Ok d => d | Err _ => mkDoc [] [] [] end.
Example ex_untagged_built : built ex_untagged /\ length (dtokens ex_untagged) = 3%nat.
Proof.
  split; [|reflexivity].
  exists (of_string "Birds saw dogs"), [ex_bare 0 5 None (Some (-1)); ex_bare 6 9 None (Some 1); ex_bare 10 14 (Some (-1)) None], (Some ex_sentences), true.
  split; [repeat constructor; unfold token_wf; simpl; auto; lia|]. split; [repeat constructor; unfold sent_wf; simpl; lia|]. vm_compute. reflexivity.
Qed.

Lemma ex_provided : provided ex_nbuilders ex_nlabels.
Proof.
  split; [discriminate|]. split; [|reflexivity]. unfold ex_nbuilders.
  repeat (apply Forall_cons; [first [left; reflexivity | right; eexists; reflexivity]|]). apply Forall_nil.
Qed.
Lemma ex_trainable lbs : trainable [ex_feat_doc] lbs.
Proof. split; [apply ex_feat_doc_wf|]. intros name _. apply ex_feat_doc_wf. Qed.

Lemma ex_repeat {A} (P : A -> Prop) n m x : P x -> Forall P (firstn n (repeat x m)).
Proof. intros H. revert m. induction n as [|n IH]; intros [|m]; simpl; constructor; auto. Qed.
Lemma ex_fitting d : fitting ascii_lower nat ex_words ex_predict [ex_feat_doc] ex_nlabels d.
Proof.
  intros s Hs. set (n := length (tokens_of (dtokens d) s)). destruct (ex_predict n) as [p|] eqn:Ep; [|discriminate].
  exists p. split; [|split].
  - exists n. split; [|exact Ep]. unfold ex_words, as_batch. rewrite map_length. reflexivity.
  - unfold ex_predict in Ep. injection Ep as <-. split; [repeat constructor; vm_compute; intuition discriminate|].
    intros name v H. assert (X : exists l, v = ex_cells n l).
    { revert H. cbn [dict_get]. repeat (destruct (str_eqb _ _); [intros H; injection H as <-; eexists; reflexivity|]). intros H; discriminate H. }
    destruct X as (l & ->). do 2 eexists. split; [reflexivity|]. rewrite repeat_length. lia.
  - unfold ex_predict in Ep. injection Ep as <-. intros lb [<-|[<-|[<-|[<-|[]]]]]; eexists; (split; [eexists; reflexivity|]); apply ex_repeat.
    + do 4 eexists. split; [vm_compute; reflexivity|]. split; [reflexivity|]. unfold zlen; simpl; lia.
    + exists (ex_labels pos_gran). eexists. split; [vm_compute; reflexivity|]. split; [reflexivity|]. vm_compute. repeat constructor; discriminate.
    + do 4 eexists. split; [vm_compute; reflexivity|]. split; [reflexivity|]. unfold zlen; simpl; lia.
    + do 4 eexists. split; [vm_compute; reflexivity|]. split; [reflexivity|]. unfold zlen; simpl; lia.
Qed.

(* The syntax of a tagged document can differ: heads that say -1 inconsistently are set to -1 when the document is rebuilt. *)
Theorem C67_neural_tagging_refuted :
  exists lower F get_features predict bs lbs ds i d d',
    provided bs lbs /\ trainable ds lbs /\ label_interpreter lower bs ds = Ok i /\ built d /\
    fitting lower F get_features predict ds lbs d /\
    tag_document lower F get_features predict i d = Ok d' /\ ~ Forall2 same_syntax (dtokens d) (dtokens d').
Proof.
  exists ascii_lower, nat, ex_words, ex_predict, ex_nbuilders, ex_nlabels, [ex_feat_doc], (ex_interpreter ex_nbuilders).
  exists (match new_document (of_string "Birds saw dogs") [ex_bare 0 5 None (Some (-1)); ex_bare 6 9 (Some 0) None; ex_bare 10 14 (Some 1) None]
          (Some ex_sentences) true with Ok d => d | Err _ => mkDoc [] [] [] end).
  eexists. split; [exact ex_provided|]. split; [apply ex_trainable|]. split; [vm_compute; reflexivity|]. split; [|split; [apply ex_fitting|split]].
  - exists (of_string "Birds saw dogs"), [ex_bare 0 5 None (Some (-1)); ex_bare 6 9 (Some 0) None; ex_bare 10 14 (Some 1) None], (Some ex_sentences), true.
    split; [repeat constructor; unfold token_wf; simpl; auto; lia|]. split; [repeat constructor; unfold sent_wf; simpl; lia|]. vm_compute. reflexivity.
  - vm_compute. reflexivity.
  - vm_compute. intros H. inversion H as [|? ? ? ? _ H']. inversion H' as [|? ? ? ? (X & _)]. discriminate.
Qed.
Print Assumptions C67_neural_tagging_refuted.

(* What is true: as long as the documents do not end, one tagged document for each, with the same text, spans, sentences
   and extras, the morphology that the labels denote, and the same syntax except for tokens one of whose head indices is -1.
   If the two indices agree about -1 the syntax is the same.  The end and errors of the given documents are passed on. *)
Theorem C67_neural_tagging_partial :
  forall lower F get_features predict bs lbs ds i (documents : iter document),
    provided bs lbs -> trainable ds lbs -> label_interpreter lower bs ds = Ok i ->
    (forall k d, documents k = Item d -> built d /\ fitting lower F get_features predict ds lbs d) ->
    forall k, (forall j, (j < k)%nat -> exists d, documents j = Item d) ->
      match documents k with
      | Item d => exists d', neural_tag lower F get_features predict i documents k = Item d' /\ built d' /\ same_layout d d' /\
          Forall2 syntax_kept (dtokens d) (dtokens d') /\
          ((forall t, In t (dtokens d) -> minus1_agree t) -> Forall2 same_syntax (dtokens d) (dtokens d')) /\
          predicted_morphology lower F get_features predict ds lbs d d'
      | Stop => neural_tag lower F get_features predict i documents k = Stop
      | Raise e => neural_tag lower F get_features predict i documents k = Raise e
      end.
Proof. intros. eapply neural_stream; eauto. Qed.
Print Assumptions C67_neural_tagging_partial.

(* Once there was no document there are no more documents: an exception ends the generator. *)
Theorem C67_ended :
  forall lower F get_features predict i documents j k, (j < k)%nat ->
    (forall d, neural_tag lower F get_features predict i documents j <> Item d) ->
    neural_tag lower F get_features predict i documents k = Stop.
Proof. exact neural_ended. Qed.
Print Assumptions C67_ended.

(* A tagged document depends on the documents up to it only. *)
Theorem C67_lazy :
  forall lower F get_features predict i documents documents' k, (forall j, (j <= k)%nat -> documents j = documents' j) ->
    neural_tag lower F get_features predict i documents k = neural_tag lower F get_features predict i documents' k.
Proof. exact neural_lazy. Qed.
Print Assumptions C67_lazy.

(* Predictions of the wrong shape are not noticed: without columns all words are lost. *)
Theorem C67_columns_needed :
  forall lower F get_features predict bs lbs ds i d,
    provided bs lbs -> lbs <> [] -> label_interpreter lower bs ds = Ok i -> built d ->
    (forall s, In s (dsents d) -> predicted F get_features predict d s []) ->
    exists d', tag_document lower F get_features predict i d = Ok d' /\ dtokens d' = [] /\ dsents d' = [].
Proof. exact neural_lost. Qed.
Print Assumptions C67_columns_needed.

(* The labels of one class are written together: the rule, which is neither the first nor the last label, decides about the
   lemma. *)
Example C67_case :
  by_class ex_nlabels = [LBLemma (of_string "l"); LBLemma (of_string "m"); LBPos (of_string "p") pos_gran; LBRule (of_string "r") 1] /\
  match neural_tag ascii_lower nat ex_words ex_predict (ex_interpreter ex_nbuilders)
          (fun k => match k with O => Item ex_untagged | S O => Item ex_feat_doc | 2%nat => Raise EValue | _ => Stop end) O with
  | Item d => map tlemma (dtokens d) = map (fun s => Some (of_string s)) ["bird"; "saw"; "dog"]%string /\
      map tpos (dtokens d) = repeat (Some (ex_p (Some "NOUN"%string) (Some "VB"%string) [("Case", "Nom"); ("Tense", "Past")]%string)) 3 /\
      map thdoc (dtokens d) = map thdoc (dtokens ex_untagged)
  | _ => False
  end /\
  forall k, neural_tag ascii_lower nat ex_words ex_predict (ex_interpreter ex_nbuilders)
          (fun k => match k with O => Item ex_untagged | S O => Raise EValue | _ => Item ex_untagged end) (S k) = match k with O => Raise EValue | _ => Stop end.
Proof.
  split; [reflexivity|]. split; [vm_compute; auto|]. intros [|k]; [vm_compute; reflexivity|].
  apply C67_ended with 1%nat; [lia|]. vm_compute. discriminate.
Qed.
Example C67_lost : exists d', tag_document ascii_lower unit (fun _ => Ok tt) (fun _ => Ok []) (ex_interpreter ex_nbuilders) ex_untagged = Ok d' /\
  dtext d' = of_string "Birds saw dogs" /\ dtokens d' = [].
Proof. eexists. split; [vm_compute; reflexivity|]. auto. Qed.
