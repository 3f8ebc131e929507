(* The documents a tester gives to the tagger. *)
From Coq Require Import String Ascii ZArith NArith QArith Bool Lia List.
From Verif Require Import Base BaseFacts Model_Datamodel Spec_Datamodel Proofs_Datamodel Proofs_Datamodel4 Model_Processors Spec_Processors Proofs_Processors
  Model_Conllu Model_UDEval Spec_UDEval Model_Tester Spec_Tester.
Import ListNotations.
Open Scope Z_scope.

Definition cleared (t : token) : token :=
  mkToken (tstart t) (tend t) None None None (tsub t) (trepl t) None None (textras t).

Lemma clear_token_ok t : token_wf t -> clear_token t = Ok (cleared t).
Proof.
  intros W. unfold clear_token. rewrite with_morphology_ok by auto. cbn [bind]. rewrite with_syntax_ok by exact W. reflexivity.
Qed.

Lemma clear_document_from d : doc_inv d -> clear_document d = from_document d (map cleared (dtokens d)).
Proof.
  intros I. unfold clear_document. destruct (doc_nav_tokens_ok d) as (vs & E & M & F). rewrite E. cbn [bind].
  match goal with |- bind ?x _ = _ => replace x with (Ok (map cleared (dtokens d))); [reflexivity|] end.
  symmetry. rewrite <- M, map_map. apply mapM_ok. pose proof (inv_wf _ I) as W. rewrite <- M in W. apply Forall_map in W.
  clear E M. induction vs as [|v vs IH]; [constructor|]. inversion F; subst. inversion W; subst. constructor; auto.
  apply clear_token_ok; auto.
Qed.

Lemma fill_cleared st t : fill st (cleared t) = cleared t.
Proof. reflexivity. Qed.

Lemma clear_document_ok d : built d -> clear_document d = Ok (mkDoc (dtext d) (map cleared (dtokens d)) (dsents d)) /\
  built (mkDoc (dtext d) (map cleared (dtokens d)) (dsents d)).
Proof.
  intros B. pose proof (built_inv _ B) as I. rewrite clear_document_from by auto.
  destruct (retoken d cleared I) as (d' & E & B' & I' & T & S & P & H).
  { intros t. repeat split. }
  { intros s t Hs Ht. unfold heads_agree. cbn. try intros; try discriminate; try congruence; auto. }
  assert (X : Forall2 (fun t t' => t' = cleared t) (dtokens d) (dtokens d')).
  { apply (retoken_all d d' cleared); auto. now apply Forall2_length' in P. }
  assert (D : dtokens d' = map cleared (dtokens d)). { clear -X. induction X; cbn [map]; f_equal; auto. }
  destruct d' as [x ts ss]. cbn in *. subst. auto.
Qed.

Lemma gen_map_ok {A B} (f : A -> result B) (g : A -> B) l last : (forall x, In x l -> f x = Ok (g x)) -> gen_map f l last = (map g l, last).
Proof.
  induction l as [|x l IH]; intros H; [reflexivity|]. cbn [gen_map map]. rewrite H by (left; auto).
  rewrite IH; auto. intros; apply H; right; auto.
Qed.

Definition cleared_document (d : document) : document := mkDoc (dtext d) (map cleared (dtokens d)) (dsents d).

Lemma prepared gold last : Forall built gold -> prepare_test_data (gold, last) = (map cleared_document gold, last).
Proof.
  intros B. unfold prepare_test_data. cbn [fst snd]. apply gen_map_ok. intros d Hd. rewrite Forall_forall in B.
  exact (proj1 (clear_document_ok d (B d Hd))).
Qed.

Theorem prepared_layout gold last : Forall built gold ->
  exists ds, prepare_test_data (gold, last) = (ds, last) /\
    Forall2 (fun d d' => built d' /\ same_layout d d' /\ map (text_of (dtext d')) (dtokens d') = map (text_of (dtext d)) (dtokens d) /\
      Forall bare (dtokens d')) gold ds.
Proof.
  intros B. exists (map cleared_document gold). split; [now apply prepared|].
  apply Forall2_map_r. induction B as [|d gold B _ IH]; constructor; auto. split; [exact (proj2 (clear_document_ok d B))|].
  unfold cleared_document. split; [|split].
  - split; [reflexivity|]. split; [reflexivity|]. cbn [dtokens]. apply Forall2_map_r. clear. induction (dtokens d); constructor; auto.
    repeat split.
  - cbn [dtokens dtext]. rewrite map_map. reflexivity.
  - cbn [dtokens]. apply Forall_map. apply Forall_forall. intros t _. repeat split.
Qed.

Theorem prepared_independent gold gold' last : Forall built gold -> Forall built gold' -> Forall2 same_layout gold gold' ->
  prepare_test_data (gold, last) = prepare_test_data (gold', last).
Proof.
  intros B B' F. rewrite !prepared by auto. f_equal. clear B B'. induction F as [|d d' gold gold' (T & S & W) F IH]; [reflexivity|].
  cbn [map]. f_equal; auto. unfold cleared_document. rewrite T, S. f_equal.
  clear -W. induction W as [|t t' l l' (E1 & E2 & E3 & E4 & E5) W IH]; [reflexivity|]. cbn [map]. rewrite IH. f_equal.
  unfold cleared. congruence.
Qed.
