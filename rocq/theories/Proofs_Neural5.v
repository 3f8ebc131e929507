(* Neural tagging of documents. *)
From Coq Require Import String ZArith NArith QArith Bool Lia List.
From Verif Require Import Base BaseFacts Model_Datamodel Spec_Datamodel Proofs_Datamodel Proofs_Syntax Proofs_Datamodel2 Proofs_Datamodel4 Proofs_Conllu6
  Model_Vocab Proofs_Vocab Model_Lemma Spec_Lemma Model_Features Spec_Features
  Proofs_Lemma Proofs_Lemma2 Proofs_Features Model_Builder Spec_Builder Proofs_Builder3 Proofs_Builder4
  Model_Processors Spec_Processors Proofs_Processors Model_Neural Spec_Neural Proofs_Neural Proofs_Neural2 Proofs_Neural3 Proofs_Neural4.
Import ListNotations.
Open Scope Z_scope.

Section Model.
Variables (lower : str -> str) (F : Type) (get_features : obj -> result F) (predict : F -> result (dict nested)).
Notation tag_document := (tag_document lower F get_features predict).
Notation tag_sentence := (tag_sentence lower F get_features predict).
Notation neural_tag := (neural_tag lower F get_features predict).

(* documents from changed tokens, sentence by sentence *)
Lemma rebuilt d tss : built d ->
  Forall2 (fun s l => Forall2 (fun t t' => exists q le, t' = set_morphology t q le) (tokens_of (dtokens d) s) l) (dsents d) tss ->
  exists d', from_document d (concat tss) = Ok d' /\ built d' /\ same_layout d d' /\
    Forall2 syntax_kept (dtokens d) (dtokens d') /\
    ((forall t, In t (dtokens d) -> minus1_agree t) -> Forall2 same_syntax (dtokens d) (dtokens d')) /\
    Forall2 (fun s l => tokens_of (dtokens d') s = map (fill (sstart s)) l) (dsents d) tss.
Proof.
  intros B H. pose proof (built_inv _ B) as I.
  assert (FF : forall s t, In s (dsents d) -> In t (tokens_of (dtokens d) s) -> filled (sstart s) t).
  { intros s t Hs Ht. pose proof (inv_filled _ I _ Hs) as A. rewrite Forall_forall in A. apply (A t Ht). }
  destruct (reannotate d tss I) as (d' & E & I' & B' & T & S & F2 & P).
  { apply Forall2_by_nth; [eapply Forall2_length'; eauto|]. intros i s l Hs Hl.
    destruct (Forall2_nth _ _ _ _ _ H Hs) as (l' & Hl' & X). assert (l' = l) by congruence. subst l'. split.
    - eapply Forall2_impl; [|exact X]. intros t t' (q & le & ->). repeat split.
    - apply Forall_forall. intros t' Ht'. apply In_nth_error in Ht'. destruct Ht' as (j & Hj).
      destruct (Forall2_nth_r _ _ _ _ _ X Hj) as (t & Ht & q & le & ->).
      pose proof (doc_inv_sent_agree _ I _ (nth_error_In _ _ Hs)) as A. rewrite Forall_forall in A. apply (A t). eapply nth_error_In; eauto. }
  assert (L := Forall2_length' _ _ _ P).
  assert (ALL : forall R : token -> token -> Prop, (forall s t q le, In s (dsents d) -> In t (tokens_of (dtokens d) s) -> R t (fill (sstart s) (set_morphology t q le))) ->
    Forall2 R (dtokens d) (dtokens d')).
  { intros R HR. apply Forall2_sentences; auto. intros s i t' Hs Ht'. destruct (In_nth_error _ _ Hs) as (k & Hk).
    destruct (Forall2_nth _ _ _ _ _ F2 Hk) as (l & Hl & El). rewrite El, nth_error_map in Ht'.
    destruct (nth_error l i) as [u|] eqn:Eu; [|discriminate]. injection Ht' as <-.
    destruct (Forall2_nth _ _ _ _ _ H Hk) as (l' & Hl' & X). assert (l' = l) by congruence. subst l'.
    destruct (Forall2_nth_r _ _ _ _ _ X Eu) as (t & Ht & q & le & ->). exists t. split; auto. apply HR; auto. eapply nth_error_In; eauto. }
  exists d'. split; auto. split; auto. split; [|split; [|split; auto]].
  - split; auto. split; auto. apply ALL. intros; repeat split.
  - apply ALL. intros s t q le Hs Ht. split; [reflexivity|].
    assert (Fm : filled (sstart s) (set_morphology t q le)) by (apply (FF s t Hs Ht)).
    exact (fill_of_filled _ _ Fm).
  - intros A. apply ALL. intros s t q le Hs Ht.
    assert (M : fill (sstart s) (set_morphology t q le) = set_morphology t q le).
    { apply fill_id_iff; [apply (FF s t Hs Ht)|]. specialize (A t (tokens_of_incl _ _ _ Ht)). exact A. }
    rewrite M. repeat split.
Qed.

Lemma sentence_obj_ok v vs text : ns_nav_tokens v = Ok vs -> Forall (Proofs_Conllu6.view_of text) vs ->
  sentence_obj v = Ok (OSeq (map (fun t => OTok (mkDT text t)) (map nv_token vs))).
Proof.
  intros E H. unfold sentence_obj. rewrite E. cbn [bind]. do 2 f_equal. rewrite map_map. apply map_ext_in.
  intros x Hx. rewrite Forall_forall in H. destruct (H x Hx) as (-> & _). reflexivity.
Qed.

Lemma map_tok text (ts : list token) : map dt_tok (map (mkDT text) ts) = ts.
Proof. rewrite map_map. apply map_id. Qed.

Lemma tag_document_eq i d : tag_document i d =
  do ss <- doc_nav_sentences d;
  do tss <- mapM (fun v => do xs <- tag_sentence i v; Ok (map dt_tok xs)) ss;
  from_document d (concat tss).
Proof.
  unfold Model_Neural.tag_document. destruct (doc_nav_sentences d) as [ss|]; [|reflexivity]. cbn [bind].
  assert (M : mapM (fun v => do xs <- tag_sentence i v; Ok (map dt_tok xs)) ss = do xss <- mapM (tag_sentence i) ss; Ok (map (map dt_tok) xss)).
  { induction ss as [|v ss IH]; [reflexivity|]. cbn [mapM]. rewrite IH. destruct (tag_sentence i v) as [xs|]; [|reflexivity]. cbn [bind].
    destruct (mapM (tag_sentence i) ss); reflexivity. }
  rewrite M. destruct (mapM (tag_sentence i) ss) as [xss|]; [|reflexivity]. cbn [bind]. rewrite concat_map. reflexivity.
Qed.

Theorem neural_document bs lbs ds i d : provided bs lbs -> trainable ds lbs -> label_interpreter lower bs ds = Ok i -> built d ->
  fitting lower F get_features predict ds lbs d ->
  exists d', tag_document i d = Ok d' /\ built d' /\ same_layout d d' /\
    Forall2 syntax_kept (dtokens d) (dtokens d') /\
    ((forall t, In t (dtokens d) -> minus1_agree t) -> Forall2 same_syntax (dtokens d) (dtokens d')) /\
    predicted_morphology lower F get_features predict ds lbs d d'.
Proof.
  intros Pv Tr Ei B Fit. pose proof (built_inv _ B) as I.
  destruct (over_sentences d (fun v => do xs <- tag_sentence i v; Ok (map dt_tok xs))
    (fun s l => exists p, predicted F get_features predict d s p /\ tagged_tokens lower ds lbs (dtext d) p (tokens_of (dtokens d) s) l) I)
    as (ss & tss & E1 & E2 & H).
  { intros s v vs Hs V1 V2 V3. destruct (Fit s Hs) as (p & Pr & Cv & Col).
    destruct (sentence_interpreted lower bs lbs ds i (dtext d) (tokens_of (dtokens d) s) p Pv Tr Ei) as (ts' & Et & Tt); auto.
    { apply tokens_of_wf; auto. }
    exists ts'. split; [|eauto]. unfold Model_Neural.tag_sentence. rewrite (sentence_obj_ok v vs (dtext d) V1 V3). cbn [bind]. rewrite V2.
    destruct Pr as (f & Ef & Ep). unfold as_batch in Ef. rewrite Ef. cbn [bind]. rewrite Ep. cbn [bind]. unfold as_batch in Et. rewrite Et. cbn [bind].
    rewrite chained_batch. cbn [bind]. rewrite map_tok. reflexivity. }
  rewrite tag_document_eq, E1. cbn [bind]. rewrite E2. cbn [bind].
  destruct (rebuilt d tss B) as (d' & E & B' & SL & SK & SS & TO).
  { eapply Forall2_impl; [|exact H]. intros s l (p & _ & L & X). apply Forall2_by_nth; auto. intros j t t' Ht Ht'. apply (X j t t' Ht Ht'). }
  exists d'. split; auto. split; auto. split; auto. split; auto. split; auto.
  intros s p j t t' Hs (f & Ef & Ep) Ht Ht'. destruct (In_nth_error _ _ Hs) as (k & Hk).
  destruct (Forall2_nth _ _ _ _ _ TO Hk) as (l & Hl & El). destruct (Forall2_nth _ _ _ _ _ H Hk) as (l' & Hl' & p' & (f' & Ef' & Ep') & L & X).
  assert (l' = l) by congruence. subst l'. assert (p' = p) by congruence. subst p'.
  rewrite El, nth_error_map in Ht'. destruct (nth_error l j) as [u|] eqn:Eu; [|discriminate]. injection Ht' as <-.
  destruct (X j t u Ht Eu) as (_ & Wr). exact Wr.
Qed.

(* the iterator of tagged documents *)
Lemma running_true {A C} (f : A -> result C) it k : running f it k = true <->
  forall j, (j < k)%nat -> exists y, iter_map f it j = Item y.
Proof.
  induction k as [|k IH]; cbn [running].
  - split; [lia|auto].
  - rewrite andb_true_iff, IH. split.
    + intros [H1 H2] j Hj. destruct (Nat.eq_dec j k) as [->|]; [|apply H1; lia]. destruct (iter_map f it k); eauto; discriminate.
    + intros H. split; [intros; apply H; lia|]. destruct (H k) as (y & ->); auto.
Qed.

Theorem neural_stream bs lbs ds i (documents : iter document) : provided bs lbs -> trainable ds lbs -> label_interpreter lower bs ds = Ok i ->
  (forall k d, documents k = Item d -> built d /\ fitting lower F get_features predict ds lbs d) ->
  forall k, (forall j, (j < k)%nat -> exists d, documents j = Item d) ->
    match documents k with
    | Item d => exists d', neural_tag i documents k = Item d' /\ built d' /\ same_layout d d' /\
        Forall2 syntax_kept (dtokens d) (dtokens d') /\
        ((forall t, In t (dtokens d) -> minus1_agree t) -> Forall2 same_syntax (dtokens d) (dtokens d')) /\
        predicted_morphology lower F get_features predict ds lbs d d'
    | Stop => neural_tag i documents k = Stop
    | Raise e => neural_tag i documents k = Raise e
    end.
Proof.
  intros Pv Tr Ei Hd k Hk.
  assert (R : running (tag_document i) documents k = true).
  { apply running_true. intros j Hj. destruct (Hk j Hj) as (d & Ed). destruct (Hd _ _ Ed) as (B & Fit).
    destruct (neural_document bs lbs ds i d Pv Tr Ei B Fit) as (d' & E & _). exists d'. unfold iter_map. rewrite Ed, E. auto. }
  unfold Model_Neural.neural_tag, generator. rewrite R. unfold iter_map. destruct (documents k) as [d| |e] eqn:Ed; auto.
  destruct (Hd _ _ Ed) as (B & Fit). destruct (neural_document bs lbs ds i d Pv Tr Ei B Fit) as (d' & E & H). exists d'. rewrite E. auto.
Qed.

(* after an exception or the end there is nothing *)
Theorem neural_ended i documents j k : (j < k)%nat -> (forall d, neural_tag i documents j <> Item d) -> neural_tag i documents k = Stop.
Proof.
  intros Hj H. unfold Model_Neural.neural_tag, generator in *. destruct (running (tag_document i) documents k) eqn:R; auto. exfalso.
  rewrite running_true in R.
  assert (R' : running (tag_document i) documents j = true) by (apply running_true; intros; apply R; lia).
  rewrite R' in H. destruct (R j Hj) as (y & E). apply (H y E).
Qed.

(* the model is not asked for more than one document ahead: the k-th result depends on the first k + 1 documents *)
Theorem neural_lazy i documents documents' k : (forall j, (j <= k)%nat -> documents j = documents' j) ->
  neural_tag i documents k = neural_tag i documents' k.
Proof.
  intros H. unfold Model_Neural.neural_tag, generator.
  assert (E : forall j, (j <= k)%nat -> iter_map (tag_document i) documents j = iter_map (tag_document i) documents' j)
    by (intros j Hj; unfold iter_map; rewrite H; auto).
  assert (R : forall j, (j <= k)%nat -> running (tag_document i) documents j = running (tag_document i) documents' j).
  { induction j as [|j IH]; intros Hj; [reflexivity|]. cbn [running]. rewrite IH, E by lia. reflexivity. }
  rewrite R, E by lia. reflexivity.
Qed.

(* a model that predicts no columns: every word is lost *)
Theorem neural_no_columns bs lbs ds i d : provided bs lbs -> lbs <> [] -> label_interpreter lower bs ds = Ok i -> built d ->
  (forall s, In s (dsents d) -> predicted F get_features predict d s []) ->
  tag_document i d = from_document d [].
Proof.
  intros Pv Ne Ei B Hp. pose proof (built_inv _ B) as I.
  destruct (interpreter_spec lower bs lbs ds i Pv Ei) as [(-> & _)|(_ & ls & ti & M & -> & _)]; [congruence|].
  destruct (over_sentences d (fun v => do xs <- tag_sentence (IIter (IIter ti)) v; Ok (map dt_tok xs)) (fun s l => l = []) I) as (ss & tss & E1 & E2 & H).
  { intros s v vs Hs V1 V2 V3. exists []. split; auto. unfold Model_Neural.tag_sentence. rewrite (sentence_obj_ok v vs (dtext d) V1 V3). cbn [bind]. rewrite V2.
    destruct (Hp s Hs) as (f & Ef & Ep). unfold as_batch in Ef. rewrite Ef. cbn [bind]. rewrite Ep. reflexivity. }
  rewrite tag_document_eq, E1. cbn [bind]. rewrite E2. cbn [bind]. f_equal. clear -H. induction H; subst; auto.
Qed.

Theorem neural_lost bs lbs ds i d : provided bs lbs -> lbs <> [] -> label_interpreter lower bs ds = Ok i -> built d ->
  (forall s, In s (dsents d) -> predicted F get_features predict d s []) ->
  exists d', tag_document i d = Ok d' /\ dtokens d' = [] /\ dsents d' = [].
Proof.
  intros Pv Ne Ei B Hp. rewrite (neural_no_columns bs lbs ds i d Pv Ne Ei B Hp).
  unfold from_document. change (sort_tokens []) with (@nil token). rewrite new_document_empty.
  destruct (dtokens d); cbn [combine existsb]; eauto.
Qed.
End Model.
