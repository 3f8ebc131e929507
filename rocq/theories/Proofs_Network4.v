(* Training, prediction and the exceptions of initialization. *)
From Coq Require Import String Ascii ZArith NArith Bool List Lia.
From Verif Require Import Base BaseFacts Model_Network Spec_Network Proofs_Network Proofs_Network2.
Import ListNotations.
Open Scope Z_scope.

Lemma train_predict (T O V S L W : Type) (teqb : T -> T -> bool) (run_train : S -> T * O -> feed T V -> result (S * L))
  (run_outputs : S -> dict T -> feed T V -> result W) (n : network T O) (s : S) (features labels : dict V) :
  identity_test teqb -> NoDup (map snd (n_inputs n) ++ map snd (n_gold n)) -> dict_ok features -> dict_ok labels ->
  (incl (dict_keys features) (dict_keys (n_inputs n)) -> incl (dict_keys labels) (dict_keys (n_gold n)) ->
     exists f, NoDup (map fst f) /\ (forall t v, In (t, v) f <-> given (n_inputs n) features t v \/ given (n_gold n) labels t v) /\
       model_train teqb run_train n s features labels = run_train s (n_loss n, n_optimizer n) f) /\
  (incl (dict_keys features) (dict_keys (n_inputs n)) ->
     exists f, NoDup (map fst f) /\ (forall t v, In (t, v) f <-> given (n_inputs n) features t v) /\
       model_predict teqb run_outputs n s features = run_outputs s (n_outputs n) f) /\
  (~ (incl (dict_keys features) (dict_keys (n_inputs n)) /\ incl (dict_keys labels) (dict_keys (n_gold n))) ->
     model_train teqb run_train n s features labels = Err EKey) /\
  (~ incl (dict_keys features) (dict_keys (n_inputs n)) -> model_predict teqb run_outputs n s features = Err EKey).
Proof.
  intros D N Of Ol. unfold model_train, model_predict.
  pose proof (feed_total teqb n features (Some labels)) as T1. pose proof (feed_total teqb n features None) as T2.
  assert (V1 := feed_values teqb n features (Some labels)). assert (V2 := feed_values teqb n features None).
  split; [|split; [|split]].
  - intros I1 I2. destruct (get_feed_dict teqb n features (Some labels)) as [f|e].
    + destruct (V1 f D N Of) as [Nf Hf]; [intros g E; injection E as <-; exact Ol|reflexivity|]. exists f. split; [exact Nf|]. split; [|reflexivity].
      intros t v. rewrite Hf. split; [intros [H|(g & E & H)]; [auto|injection E as <-; auto]|intros [H|H]; eauto].
    + exfalso. destruct T1 as (_ & [(k & J & H)|(g & k & E & J & H)]); [exact (H (I1 _ J))|]. injection E as <-. exact (H (I2 _ J)).
  - intros I1. destruct (get_feed_dict teqb n features None) as [f|e].
    + destruct (V2 f D N Of) as [Nf Hf]; [discriminate|reflexivity|]. exists f. split; [exact Nf|]. split; [|reflexivity].
      intros t v. rewrite Hf. split; [intros [H|(g & E & H)]; [auto|discriminate]|auto].
    + exfalso. destruct T2 as (_ & [(k & J & H)|(g & k & E & J & H)]); [exact (H (I1 _ J))|]. discriminate.
  - intros H. destruct (get_feed_dict teqb n features (Some labels)) as [f|e].
    + exfalso. apply H. destruct T1 as [A B]. auto.
    + destruct T1 as (-> & _). reflexivity.
  - intros H. destruct (get_feed_dict teqb n features None) as [f|e].
    + exfalso. apply H. destruct T2 as [A B]. auto.
    + destruct T2 as (-> & _). reflexivity.
Qed.

Lemma initialize_exception (T O M V : Type) (meqb : M -> M -> bool) (matrix : T -> M) (fresh : M -> Z -> V)
  (n : network T O) (params : dict (list (Z * V))) (st0 : M -> Z -> V) e :
  model_initialize meqb matrix fresh n params st0 = Err e ->
  exists p ix vs up, In (IMatrix p ix vs up) (n_initializers n) /\
    ((dict_get params p = None /\ e = EKey) \/ (dict_get params p = Some [] /\ e = EValue)).
Proof.
  unfold model_initialize. destruct (init_calls params (n_initializers n)) as [rs [e'|]] eqn:E; [|discriminate]. intros H. injection H as <-.
  revert rs E. induction (n_initializers n) as [|i l IH]; intros rs E; [discriminate|].
  cbn [init_calls] in E. destruct (init_call params i) as [c|e0] eqn:C.
  - destruct (init_calls params l) as [rs' e1] eqn:E2. injection E as _ ->. destruct (IH rs' eq_refl) as (p & ix & vs & up & J & R). exists p, ix, vs, up. split; [right; exact J|exact R].
  - injection E as _ ->. destruct i as [op|p ix vs up]; [discriminate|]. exists p, ix, vs, up. split; [left; reflexivity|].
    unfold init_call in C. destruct (dict_get params p) as [ps|]; cbn [of_option bind] in C; [|left; split; congruence].
    right. destruct ps as [|x ps]; [|discriminate]. cbn [unzip bind] in C. split; congruence.
Qed.
