(* The final statements about documents, assembled from the lemmas. *)
From Coq Require Import String ZArith NArith Bool Lia Permutation Sorted List.
From Verif Require Import Base BaseFacts Model_Datamodel Spec_Datamodel
  Proofs_Datamodel Proofs_Syntax Proofs_Datamodel2 Proofs_Datamodel3.
Import ListNotations.
Open Scope Z_scope.

Lemma new_document_any_false text ts o v d : new_document text ts o v = Ok d -> new_document text ts o false = Ok d.
Proof. destruct v; auto. rewrite new_document_true_ok. tauto. Qed.

Lemma tokens_never_overlap text ts o v d :
  Forall token_wf ts -> sents_wf o -> new_document text ts o v = Ok d ->
  dtext d = text /\ in_text_order (dtokens d) /\
  exists ts', Permutation ts ts' /\ Forall2 same_but_heads ts' (dtokens d).
Proof.
  intros W Wo H. pose proof (new_document_inv _ _ _ _ _ W Wo H) as I.
  apply new_document_any_false in H. destruct ts as [|t ts].
  - rewrite new_document_empty in H. inversion H; subst. simpl. split; auto. split; [constructor|].
    exists []. split; constructor.
  - apply new_document_false_ok in H; auto; [|congruence]. cbv zeta in H.
    destruct H as (H1 & H2 & H3 & H4 & ->). simpl. split; auto. split; [apply I|].
    exists (sort_tokens (t :: ts)). split; [apply sort_tokens_perm|].
    apply fill_all_same. rewrite zlen_sort. auto.
Qed.

Lemma sentences_tile text ts o v d :
  Forall token_wf ts -> sents_wf o -> ts <> [] -> new_document text ts o v = Ok d ->
  tiles 0 (zlen ts) (dsents d) /\ zlen (dtokens d) = zlen ts /\
  concat (map (tokens_of (dtokens d)) (dsents d)) = dtokens d /\
  Permutation (match o with None => [mkSent 0 (zlen ts)] | Some ss => ss end) (dsents d).
Proof.
  intros W Wo NE H. pose proof (new_document_inv _ _ _ _ _ W Wo H) as I.
  apply new_document_any_false in H. apply new_document_false_ok in H; auto. cbv zeta in H.
  destruct H as (H1 & H2 & H3 & H4 & E). rewrite (concat_tokens_of d I).
  rewrite E. simpl. split; auto. split.
  - rewrite zlen_fill_all; rewrite zlen_sort; auto.
  - split; auto. apply sort_sents_perm.
Qed.

Lemma both_views_present d s t : doc_inv d -> In s (dsents d) -> In t (tokens_of (dtokens d) s) ->
  (thdoc t = None /\ thsent t = None) \/
  exists dh sh, thdoc t = Some dh /\ thsent t = Some sh /\ ((dh = -1 /\ sh = -1) \/ dh = sh + sstart s).
Proof.
  intros I Hs Ht. pose proof (inv_filled _ I _ Hs) as F. rewrite Forall_forall in F.
  destruct (F _ Ht) as [|(a & b & E1 & E2 & E3)]; auto. right. exists a, b. tauto.
Qed.

Lemma contradiction_rejected text ts ss v s i t dh sh d :
  Forall token_wf ts -> Forall sent_wf ss -> in_text_order ts ->
  In s ss -> nth_error ts i = Some t -> sstart s <= Z.of_nat i < send s ->
  thdoc t = Some dh -> thsent t = Some sh -> dh <> sh + sstart s -> dh <> -1 -> sh <> -1 ->
  new_document text ts (Some ss) v <> Ok d.
Proof.
  intros W Ws O Hs Hi Hr Hd Hh N N1 N2 H.
  assert (NE : ts <> []) by (intros ->; destruct i; discriminate).
  apply new_document_any_false in H. apply new_document_false_ok in H; auto. cbv zeta in H.
  rewrite in_text_order_sort in H by auto. simpl given_sents in H. destruct H as (_ & _ & T & A & _).
  assert (Hs' : In s (sort_sents ss)) by (eapply Permutation_in; [apply sort_sents_perm|auto]).
  specialize (A _ Hs'). pose proof (tiles_in _ _ _ _ T Hs') as B.
  assert (Hin : In t (tokens_of ts s)).
  { apply nth_error_In with (n := (i - Z.to_nat (sstart s))%nat). rewrite tokens_of_nth by lia.
    replace (Z.to_nat (sstart s) + (i - Z.to_nat (sstart s)))%nat with i by lia. auto. }
  rewrite Forall_forall in A. specialize (A _ Hin _ _ Hd Hh N1 N2). congruence.
Qed.

Lemma accepts_exactly_trees text ts o d :
  Forall token_wf ts -> sents_wf o ->
  (new_document text ts o true = Ok d <->
   new_document text ts o false = Ok d /\ forall s, In s (dsents d) -> well_parsed (tokens_of (dtokens d) s)).
Proof.
  intros W Wo. rewrite new_document_true_ok.
  split; intros [H V]; (split; [auto|]); pose proof (new_document_inv _ _ _ _ _ W Wo H) as I;
    apply (validate_all_iff _ _ (doc_inv_sentences _ I)); auto.
Qed.

Lemma check_terminates text ts o d :
  Forall token_wf ts -> sents_wf o -> new_document text ts o false = Ok d ->
  new_document text ts o true = Ok d \/ new_document text ts o true = Err EValue.
Proof.
  intros W Wo H. pose proof (new_document_inv _ _ _ _ _ W Wo H) as I.
  destruct (validate_all_outcome _ _ (doc_inv_sentences _ I)) as [V|V].
  - left. apply new_document_true_ok. auto.
  - right. clear I. revert H V. unfold new_document. destruct ts as [|t ts].
    + intros H V. apply bind_ok_iff in H. destruct H as (r & _ & H). inversion H; subst. discriminate.
    + destruct (match o with None => _ | Some ss => Ok ss end) as [ss0|]; simpl; [|discriminate].
      destruct (new_wordlist (t :: ts) (Some (sort_sents ss0))) as [r|]; simpl; [|discriminate].
      destruct (check_sentences (zlen (t :: ts)) (sort_sents ss0)); simpl; [|discriminate].
      intros H V. inversion H; subst. simpl in V. rewrite V. auto.
Qed.

Lemma rebuild text ts o v d :
  Forall token_wf ts -> sents_wf o -> new_document text ts o v = Ok d ->
  ((new_document (dtext d) (dtokens d) (Some (dsents d)) v = Ok d <-> forall t, In t (dtokens d) -> minus1_agree t) /\
   (from_document d (dtokens d) = Ok d <-> forall t, In t (dtokens d) -> minus1_agree t)).
Proof.
  intros W Wo H. pose proof (new_document_inv _ _ _ _ _ W Wo H) as I. split.
  - destruct v; [|apply rebuild_iff; auto]. rewrite new_document_true_ok, rebuild_iff by auto.
    apply new_document_true_ok in H. tauto.
  - rewrite from_document_self by auto. apply rebuild_iff; auto.
Qed.

Lemma fill_normal st n t m : 0 <= st -> head_means st n (thdoc t) (thsent t) m -> minus1_agree (fill st t).
Proof.
  intros Hs H. unfold minus1_agree, fill. rewrite (head_means_fill _ _ _ _ _ Hs H). simpl.
  destruct m as [k|]; simpl; [|split; discriminate].
  destruct (Z.eqb_spec k (-1)); simpl; [tauto|].
  assert (0 <= k) by (inversion H; subst; lia).
  split; intros E; inversion E; lia.
Qed.

Lemma rebuild_normal text ts ss v d :
  Forall token_wf ts -> Forall sent_wf ss -> in_text_order ts ->
  (forall s, In s ss -> Forall (fun t => exists m, head_means (sstart s) (send s - sstart s) (thdoc t) (thsent t) m) (tokens_of ts s)) ->
  new_document text ts (Some ss) v = Ok d ->
  new_document (dtext d) (dtokens d) (Some (dsents d)) v = Ok d /\ from_document d (dtokens d) = Ok d.
Proof.
  intros W Ws O M H. pose proof (rebuild text ts (Some ss) v d W Ws H) as [R1 R2].
  rewrite R1, R2. cut (forall t, In t (dtokens d) -> minus1_agree t); [auto|].
  pose proof (new_document_inv text ts (Some ss) v d W Ws H) as I.
  apply new_document_any_false in H. destruct ts as [|t0 ts].
  { rewrite new_document_empty in H. inversion H; subst. simpl. tauto. }
  apply new_document_false_ok in H; auto; [|congruence]. cbv zeta in H. rewrite in_text_order_sort in H by auto.
  simpl given_sents in H. destruct H as (_ & _ & T & _ & ->).
  intros t Ht. destruct (in_dtokens_sent _ _ I Ht) as (s & Hs & Hts). simpl in Hs, Hts.
  rewrite fill_all_tokens_of in Hts by auto. apply in_map_iff in Hts. destruct Hts as (u & <- & Hu).
  assert (Hs' : In s ss) by (eapply Permutation_in; [apply Permutation_sym, sort_sents_perm|auto]).
  specialize (M _ Hs'). rewrite Forall_forall in M. destruct (M _ Hu) as [m Hm].
  eapply fill_normal; eauto. rewrite Forall_forall in Ws. apply Ws in Hs'. unfold sent_wf in Hs'. lia.
Qed.

Lemma with_morphology_ok t p l : token_wf t ->
  with_morphology t p l = Ok (mkToken (tstart t) (tend t) p l (tdeprel t) (tsub t) (trepl t) (thdoc t) (thsent t) (textras t)).
Proof. intros W. unfold with_morphology. apply new_token_ok. split; [exact W|reflexivity]. Qed.

Lemma with_extras_ok t e : token_wf t ->
  with_extras t (Some e) = Ok (mkToken (tstart t) (tend t) (tpos t) (tlemma t) (tdeprel t) (tsub t) (trepl t) (thdoc t) (thsent t) e).
Proof. intros W. unfold with_extras. apply new_token_ok. split; [exact W|reflexivity]. Qed.

Lemma extras_update_get e u k : dict_ok u ->
  dict_get (extras_update e u) k = match dict_get u k with Some v => Some v | None => dict_get e k end.
Proof.
  intros O. unfold extras_update. destruct u as [|x u]; auto. apply dict_get_update; auto.
Qed.

Lemma setters_frame t p lemma deprel hd hs e u :
  token_wf t -> dict_ok u ->
  (exists t', with_morphology t p lemma = Ok t' /\ token_wf t' /\
     t' = mkToken (tstart t) (tend t) p lemma (tdeprel t) (tsub t) (trepl t) (thdoc t) (thsent t) (textras t)) /\
  (exists t', with_syntax t deprel hd hs = Ok t' /\ token_wf t' /\
     t' = mkToken (tstart t) (tend t) (tpos t) (tlemma t) deprel (tsub t) (trepl t) hd hs (textras t)) /\
  (exists t', with_extras t (Some e) = Ok t' /\ token_wf t' /\
     t' = mkToken (tstart t) (tend t) (tpos t) (tlemma t) (tdeprel t) (tsub t) (trepl t) (thdoc t) (thsent t) e) /\
  (exists t' e', update_extras t (Some u) = Ok t' /\ token_wf t' /\
     t' = mkToken (tstart t) (tend t) (tpos t) (tlemma t) (tdeprel t) (tsub t) (trepl t) (thdoc t) (thsent t) e' /\
     forall k, dict_get e' k = match dict_get u k with Some v => Some v | None => dict_get (textras t) k end) /\
  update_extras t None = Ok t.
Proof.
  intros W O. unfold update_extras. rewrite with_morphology_ok, with_syntax_ok, !with_extras_ok by auto.
  repeat split; eexists; try (split; [reflexivity|]; split; [exact W|]; reflexivity).
  eexists. split; [reflexivity|]. split; [exact W|]. split; [reflexivity|]. intros k. apply extras_update_get; auto.
Qed.

Lemma setters_commute t p lemma deprel hd hs u :
  token_wf t ->
  (do a <- with_morphology t p lemma; with_syntax a deprel hd hs) = (do a <- with_syntax t deprel hd hs; with_morphology a p lemma) /\
  (do a <- with_morphology t p lemma; update_extras a u) = (do a <- update_extras t u; with_morphology a p lemma) /\
  (do a <- with_syntax t deprel hd hs; update_extras a u) = (do a <- update_extras t u; with_syntax a deprel hd hs) /\
  is_ok (do a <- with_morphology t p lemma; with_syntax a deprel hd hs) = true.
Proof.
  intros W. unfold update_extras. rewrite with_morphology_ok, with_syntax_ok by auto. cbn [bind].
  destruct u as [u|].
  - rewrite !with_extras_ok by auto. cbn [bind].
    rewrite !with_morphology_ok, !with_syntax_ok by auto. cbn [bind]. rewrite ?with_syntax_ok by auto. simpl. auto.
  - cbn [bind]. rewrite !with_morphology_ok, !with_syntax_ok by auto. simpl. auto.
Qed.

(* navigation *)
Lemma token_index d i :
  (- zlen (dtokens d) <= i < zlen (dtokens d) ->
   exists v t, doc_get_token d i = Ok v /\ doc_get_token d (i mod zlen (dtokens d)) = Ok v /\
     nth_error (dtokens d) (Z.to_nat (i mod zlen (dtokens d))) = Some t /\
     nv_token v = t /\ nv_index v = i mod zlen (dtokens d)) /\
  (i < - zlen (dtokens d) \/ zlen (dtokens d) <= i -> doc_get_token d i = Err EIndex).
Proof.
  split; [|apply get_token_out]. intros H. unfold doc_get_token. rewrite (get_token_mod _ _ _ i) by auto.
  assert (B : 0 <= i mod zlen (dtokens d) < zlen (dtokens d)) by (apply Z.mod_pos_bound; lia).
  destruct (get_token_ok (dtext d) (dtokens d) true _ B) as (t & Ht & E). rewrite E. eauto 10.
Qed.

Lemma token_walk d : dtokens d <> [] ->
  (exists v l, doc_get_token d 0 = Ok v /\ visits nav_next v l /\ map nv_token l = dtokens d) /\
  (forall i v, 0 <= i < zlen (dtokens d) -> doc_get_token d i = Ok v ->
     (nav_is_first v = true <-> i = 0) /\ (nav_is_last v = true <-> i = zlen (dtokens d) - 1) /\
     (i = zlen (dtokens d) - 1 -> nav_next v = Ok None) /\ (i = 0 -> nav_previous v = Ok None) /\
     (i < zlen (dtokens d) - 1 -> exists w, nav_next v = Ok (Some w) /\ doc_get_token d (i + 1) = Ok w /\ nav_previous w = Ok (Some v)) /\
     (0 < i -> exists w, nav_previous v = Ok (Some w) /\ doc_get_token d (i - 1) = Ok w /\ nav_next w = Ok (Some v))).
Proof.
  intros NE. assert (P : 0 < zlen (dtokens d)) by (unfold zlen; destruct (dtokens d); [congruence|simpl; lia]).
  split.
  - destruct (visits_tokens (dtext d) (dtokens d) true (Z.to_nat (zlen (dtokens d))) 0) as (v & l & H1 & H2 & H3 & _); try lia.
    exists v, l. auto.
  - unfold doc_get_token. intros i v Hi Hv.
    destruct (get_token_ok (dtext d) (dtokens d) true i Hi) as (t & Ht & E). rewrite E in Hv.
    assert (Ev : v = mkNav (dtext d) (dtokens d) true t i) by congruence. subst v.
    unfold nav_next, nav_previous, nav_is_first, nav_is_last, nav_get. cbn [nv_index nv_tokens nv_text nv_docview].
    rewrite !Z.eqb_eq. repeat split; auto.
    + intros ->. rewrite Z.eqb_refl. auto.
    + intros ->. auto.
    + intros L. destruct (get_token_ok (dtext d) (dtokens d) true (i + 1)) as (t' & Ht' & E'); [lia|]. rewrite E'.
      destruct (Z.eqb_spec i (zlen (dtokens d) - 1)); [lia|]. eexists. split; [reflexivity|]. split; [reflexivity|].
      cbn [nv_index nv_tokens nv_text nv_docview]. destruct (Z.eqb_spec (i + 1) 0); [lia|].
      replace (i + 1 - 1) with i by lia. rewrite E. auto.
    + intros L. destruct (get_token_ok (dtext d) (dtokens d) true (i - 1)) as (t' & Ht' & E'); [lia|]. rewrite E'.
      destruct (Z.eqb_spec i 0); [lia|]. eexists. split; [reflexivity|]. split; [reflexivity|].
      cbn [nv_index nv_tokens nv_text nv_docview]. destruct (Z.eqb_spec (i - 1) (zlen (dtokens d) - 1)); [lia|].
      replace (i - 1 + 1) with i by lia. rewrite E. auto.
Qed.

Lemma get_sentence_in d i : doc_inv d -> 0 <= i < zlen (dsents d) ->
  exists s, nth_error (dsents d) (Z.to_nat i) = Some s /\ get_sentence d i = Ok (mkNavS d (tokens_of (dtokens d) s) i).
Proof.
  intros I H. destruct (nth_error (dsents d) (Z.to_nat i)) as [s|] eqn:E.
  - exists s. split; auto. rewrite <- (Z2Nat.id i) at 1 by lia. rewrite (get_sentence_ok d _ s I E). rewrite Z2Nat.id by lia. auto.
  - apply nth_error_None in E. unfold zlen in H. lia.
Qed.

Lemma sentence_index d i : doc_inv d ->
  (- zlen (dsents d) <= i < zlen (dsents d) ->
   exists v, get_sentence d i = Ok v /\ get_sentence d (i mod zlen (dsents d)) = Ok v /\ ns_index v = i mod zlen (dsents d)) /\
  (i < - zlen (dsents d) \/ zlen (dsents d) <= i -> get_sentence d i = Err EIndex).
Proof.
  intros I. split.
  - intros H. rewrite (get_sentence_mod d i) by auto.
    assert (B : 0 <= i mod zlen (dsents d) < zlen (dsents d)) by (apply Z.mod_pos_bound; lia).
    destruct (get_sentence_in d _ I B) as (s & Hs & E). rewrite E. eauto 10.
  - intros H. unfold get_sentence. rewrite py_index_out by auto. auto.
Qed.

Lemma sentence_walk d : doc_inv d -> dtokens d <> [] ->
  (exists v l, get_sentence d 0 = Ok v /\ visits ns_next v l /\
     map ns_tokens l = map (tokens_of (dtokens d)) (dsents d)) /\
  (forall i v, 0 <= i < zlen (dsents d) -> get_sentence d i = Ok v ->
     (ns_is_first v = true <-> i = 0) /\ (ns_is_last v = true <-> i = zlen (dsents d) - 1) /\
     (i = zlen (dsents d) - 1 -> ns_next v = Ok None) /\ (i = 0 -> ns_previous v = Ok None) /\
     (i < zlen (dsents d) - 1 -> exists w, ns_next v = Ok (Some w) /\ get_sentence d (i + 1) = Ok w /\ ns_previous w = Ok (Some v)) /\
     (0 < i -> exists w, ns_previous v = Ok (Some w) /\ get_sentence d (i - 1) = Ok w /\ ns_next w = Ok (Some v))).
Proof.
  intros I NE. assert (P : (0 < length (dsents d))%nat).
  { pose proof (inv_tiles _ I) as T. destruct (dsents d) as [|s l]; [|simpl; lia].
    assert (E : zlen (dtokens d) = 0) by (inversion T; auto). destruct (dtokens d); [congruence|]. unfold zlen in E; simpl in E. lia. }
  split.
  - destruct (visits_sentences d (length (dsents d) - 1) I 0) as (v & l & H1 & H2 & H3); [lia|].
    exists v, l. auto.
  - intros i v Hi Hv. destruct (get_sentence_in d i I Hi) as (s & Hs & E). rewrite E in Hv.
    assert (Ev : v = mkNavS d (tokens_of (dtokens d) s) i) by congruence. subst v.
    unfold ns_next, ns_previous, ns_is_first, ns_is_last. cbn [ns_index ns_doc].
    rewrite !Z.eqb_eq. repeat split; auto.
    + intros ->. rewrite Z.eqb_refl. auto.
    + intros ->. auto.
    + intros L. destruct (get_sentence_in d (i + 1) I) as (s' & Hs' & E'); [lia|]. rewrite E'.
      destruct (Z.eqb_spec i (zlen (dsents d) - 1)); [lia|]. eexists. split; [reflexivity|]. split; [reflexivity|].
      cbn [ns_index ns_doc]. destruct (Z.eqb_spec (i + 1) 0); [lia|].
      replace (i + 1 - 1) with i by lia. rewrite E. auto.
    + intros L. destruct (get_sentence_in d (i - 1) I) as (s' & Hs' & E'); [lia|]. rewrite E'.
      destruct (Z.eqb_spec i 0); [lia|]. eexists. split; [reflexivity|]. split; [reflexivity|].
      cbn [ns_index ns_doc]. destruct (Z.eqb_spec (i - 1) (zlen (dsents d) - 1)); [lia|].
      replace (i - 1 + 1) with i by lia. rewrite E. auto.
Qed.

Lemma head_reaches_root text ts o d k s j t :
  Forall token_wf ts -> sents_wf o -> new_document text ts o true = Ok d ->
  nth_error (dsents d) k = Some s -> nth_error (tokens_of (dtokens d) s) j = Some t ->
  (thdoc t <> None \/ thsent t <> None) ->
  exists v c sv v' c',
    doc_get_token d (sstart s + Z.of_nat j) = Ok v /\ nv_token v = t /\ head_chain v c /\
    (length c < Z.to_nat (send s - sstart s))%nat /\
    Forall (fun u => sstart s <= nv_index u < send s) c /\
    get_sentence d (Z.of_nat k) = Ok sv /\ ns_get_token sv (Z.of_nat j) = Ok v' /\ nv_token v' = t /\
    head_chain v' c' /\ map nv_token c' = map nv_token c.
Proof.
  intros W Wo H Hk Hj HH. pose proof (new_document_inv _ _ _ _ _ W Wo H) as I.
  apply accepts_exactly_trees in H; auto. destruct H as [_ WP].
  pose proof (nth_error_In _ _ Hk) as Hs. specialize (WP _ Hs).
  destruct (doc_inv_sentences _ I _ Hs) as (Ws & He & Fi).
  pose proof (tokens_of_length (dtokens d) s) as L. unfold sent_wf, zlen in Ws, He, L.
  assert (Hjl : (j < length (tokens_of (dtokens d) s))%nat) by (apply nth_error_Some; congruence).
  set (heads := map shown_head (tokens_of (dtokens d) s)) in *.
  assert (Hlen : length heads = length (tokens_of (dtokens d) s)) by (apply map_length).
  assert (Tr : dependency_tree heads).
  { destruct WP as [U|D]; auto. exfalso. unfold unparsed in U. rewrite Forall_forall in U.
    destruct (head_cases (dtokens d) s Fi j t Hj) as [(E & _ & _)|[(_ & _ & E)|(_ & _ & h & _ & _ & _ & E)]].
    - unfold has_head in E. destruct (thdoc t), (thsent t); simpl in E; try discriminate. destruct HH; congruence.
    - apply nth_error_In in E. apply U in E. discriminate.
    - apply nth_error_In in E. apply U in E. discriminate. }
  destruct Tr as (_ & _ & _ & RR). destruct (reaches_up _ _ (RR j ltac:(lia))) as [l Hl].
  pose proof (up_path_short _ _ _ Hl) as Sh. pose proof (up_path_range _ _ _ Hl) as [_ Rg].
  destruct (head_chain_path (dtext d) (dtokens d) s true Ws He Fi j l Hl t Hj) as (c & C1 & C2 & C3).
  destruct (head_chain_path (dtext d) (dtokens d) s false Ws He Fi j l Hl t Hj) as (c' & C1' & C2' & C3').
  cbv zeta in *.
  exists (mkNav (dtext d) (dtokens d) true t (sstart s + Z.of_nat j)), c, (mkNavS d (tokens_of (dtokens d) s) (Z.of_nat k)),
    (mkNav (dtext d) (tokens_of (dtokens d) s) false t (0 + Z.of_nat j)), c'.
  split.
  { unfold doc_get_token. destruct (get_token_ok (dtext d) (dtokens d) true (sstart s + Z.of_nat j)) as (t' & Ht' & E); [unfold zlen; lia|].
    rewrite E. rewrite tokens_of_nth in Hj by lia.
    replace (Z.to_nat (sstart s + Z.of_nat j)) with (Z.to_nat (sstart s) + j)%nat in Ht' by lia. congruence. }
  split; [reflexivity|]. split; [exact C1|]. split.
  { rewrite <- (map_length nv_index), C2, map_length. lia. }
  split.
  { apply Forall_forall. intros u Hu. apply (in_map nv_index) in Hu. rewrite C2 in Hu. apply in_map_iff in Hu.
    destruct Hu as (h & Eh & Hh). rewrite Forall_forall in Rg. specialize (Rg _ Hh). lia. }
  split; [apply get_sentence_ok; auto|]. split.
  { unfold ns_get_token. cbn [ns_doc ns_tokens].
    destruct (get_token_ok (dtext d) (tokens_of (dtokens d) s) false (Z.of_nat j)) as (t' & Ht' & E); [unfold zlen; lia|].
    rewrite E. rewrite Nat2Z.id in Ht'. simpl. congruence. }
  split; [reflexivity|]. split; [exact C1'|].
  assert (X : map (@Some token) (map nv_token c') = map (@Some token) (map nv_token c)).
  { rewrite !map_map. congruence. }
  clear -X. revert X. generalize (map nv_token c) as b. generalize (map nv_token c') as a.
  induction a as [|x a IH]; intros [|y b] E; simpl in *; try discriminate; auto. inversion E. f_equal. auto.
Qed.

Lemma sentence_views d k s : doc_inv d -> nth_error (dsents d) k = Some s ->
  exists v f l, get_sentence d (Z.of_nat k) = Ok v /\ ns_tokens v = tokens_of (dtokens d) s /\
    nth_error (dtokens d) (Z.to_nat (sstart s)) = Some f /\
    nth_error (dtokens d) (Z.to_nat (send s) - 1) = Some l /\
    ns_text v = Ok (py_slice (dtext d) (tstart f) (tend l)) /\
    forall j, 0 <= j < send s - sstart s ->
      exists u w, ns_get_token v j = Ok u /\ doc_get_token d (sstart s + j) = Ok w /\
        nv_token u = nv_token w /\ nv_text u = nv_text w /\
        nth_error (dtokens d) (Z.to_nat (sstart s + j)) = Some (nv_token u) /\ nv_text u = dtext d.
Proof.
  intros I Hk. pose proof (nth_error_In _ _ Hk) as Hs.
  destruct (doc_inv_sentences _ I _ Hs) as (Ws & He & Fi).
  pose proof (tokens_of_length (dtokens d) s) as L. unfold sent_wf, zlen in Ws, He, L.
  destruct (nth_error (dtokens d) (Z.to_nat (sstart s))) as [f|] eqn:Ef; [|apply nth_error_None in Ef; lia].
  destruct (nth_error (dtokens d) (Z.to_nat (send s) - 1)) as [l|] eqn:El; [|apply nth_error_None in El; lia].
  exists (mkNavS d (tokens_of (dtokens d) s) (Z.of_nat k)), f, l.
  split; [apply get_sentence_ok; auto|]. split; [reflexivity|]. split; [reflexivity|]. split; [reflexivity|]. split.
  - unfold ns_text. cbn [ns_tokens ns_doc].
    rewrite py_index_nonneg by lia. rewrite py_index_neg by (unfold zlen; lia). rewrite py_index_nonneg by (unfold zlen; lia).
    rewrite !tokens_of_nth by (unfold zlen; lia).
    change (Z.to_nat 0) with 0%nat. rewrite Nat.add_0_r, Ef.
    replace (Z.to_nat (sstart s) + Z.to_nat (-1 + zlen (tokens_of (dtokens d) s)))%nat with (Z.to_nat (send s) - 1)%nat by (unfold zlen; lia).
    rewrite El. auto.
  - intros j Hj.
    destruct (get_token_ok (dtext d) (tokens_of (dtokens d) s) false j) as (t & Ht & E); [unfold zlen; lia|].
    destruct (get_token_ok (dtext d) (dtokens d) true (sstart s + j)) as (t' & Ht' & E'); [unfold zlen; lia|].
    unfold ns_get_token, doc_get_token. cbn [ns_doc ns_tokens]. rewrite E, E'. do 2 eexists.
    split; [reflexivity|]. split; [reflexivity|]. simpl.
    rewrite tokens_of_nth in Ht by lia.
    replace (Z.to_nat (sstart s) + Z.to_nat j)%nat with (Z.to_nat (sstart s + j)) in Ht by lia.
    assert (t = t') by congruence. subst. auto.
Qed.

(* numbering: the group of t is not the first one, or the first one starts with 0 *)
Lemma numbered_tail_group t l : token_wf t -> Forall token_wf l -> in_text_order l -> numbered l ->
  (forall f, nth_error l 0 = Some f -> ~ same_span t f) -> multiword t -> In t l ->
  map tsub (filter (span_eqb t) l) = map Z.of_nat (seq 0 (length (filter (span_eqb t) l))).
Proof.
  intros Wt W O N F Mt Ht.
  (* replace the first token by one numbered 0 *)
  destruct l as [|f l]; [destruct Ht|].
  assert (Nf : ~ same_span t f) by (apply F; auto).
  set (f' := mkToken (tstart f) (tend f) None None None 0 (trepl f) None None []).
  assert (E : filter (span_eqb t) (f :: l) = filter (span_eqb t) (f' :: l)).
  { simpl. replace (span_eqb t f') with (span_eqb t f) by reflexivity.
    destruct (span_eqb t f) eqn:X; auto. apply span_eqb_iff in X. contradiction. }
  destruct Ht as [->|Ht]; [exfalso; apply Nf; split; auto|].
  (* the rest of the list after the group of f *)
  inversion W as [|? ? Wf Wl]; subst. inversion O as [|? ? Of Ol]; subst.
  clear E f' Nf.
  assert (G : forall l f, Forall token_wf (f :: l) -> in_text_order (f :: l) -> numbered (f :: l) -> ~ same_span t f -> In t l ->
    map tsub (filter (span_eqb t) (f :: l)) = map Z.of_nat (seq 0 (length (filter (span_eqb t) (f :: l))))).
  { clear f l W O N F Ht Wf Wl Of Ol.
    induction l as [|g l IH]; intros f W O N Nf Ht; [destruct Ht|].
    inversion W as [|? ? Wf Wl]; subst. inversion O as [|? ? Of Ol]; subst.
    assert (Nl : numbered (g :: l)) by (intros i a b Ha' Hb'; apply (N (S i)); auto).
    assert (Ef : span_eqb t f = false).
    { destruct (span_eqb t f) eqn:X; auto. apply span_eqb_iff in X. contradiction. }
    cbn [filter]. rewrite Ef.
    change (if span_eqb t g then g :: filter (span_eqb t) l else filter (span_eqb t) l) with (filter (span_eqb t) (g :: l)).
    destruct (span_eqb t g) eqn:Eg.
    - apply span_eqb_iff in Eg.
      (* the group of t starts here *)
      assert (Hg : multiword g /\ tsub g = 0).
      { destruct (trepl g) as [r|] eqn:Er.
        - assert (Mg : multiword g) by (unfold multiword; congruence). split; auto.
          destruct (N 0%nat f g eq_refl eq_refl Mg) as [(_ & S & _)|(_ & Z0)]; auto.
          exfalso. apply Nf. unfold same_span in *. lia.
        - inversion Wl as [|? ? Wg _]; subst. assert (Z0 : tsub g = 0) by (apply Wg; auto). split; auto.
          (* g single-word with the span of t: impossible when t is a later multiword token *)
          exfalso. assert (M : multiword g).
          { apply (numbered_multiword (g :: l) Wl Ol Nl) with (t := t); simpl; auto.
            intros x Hx. inversion Hx; subst; auto. }
          apply M; auto. }
      destruct Hg as [Mg Zg]. apply numbered_from_zero; auto.
      intros x Hx. inversion Hx; subst; auto.
    - apply IH; auto.
      + rewrite <- span_eqb_iff. congruence.
      + destruct Ht as [->|]; auto. exfalso. assert (span_eqb t t = true) by (apply span_eqb_iff; split; auto). congruence. }
  apply G; auto.
Qed.

Lemma numbering d t : doc_inv d ->
  (forall f, nth_error (dtokens d) 0 = Some f -> tsub f = 0 \/ ~ same_span t f) ->
  In t (dtokens d) -> multiword t ->
  map tsub (filter (span_eqb t) (dtokens d)) = map Z.of_nat (seq 0 (length (filter (span_eqb t) (dtokens d)))).
Proof.
  intros I F Ht Mt.
  assert (Wt : token_wf t) by (pose proof (inv_wf _ I) as W; rewrite Forall_forall in W; auto).
  destruct (nth_error (dtokens d) 0) as [f|] eqn:E.
  - destruct (F f eq_refl) as [Z0|Nf].
    + apply numbered_from_zero; try apply I; auto. intros x Hx. congruence.
    + apply numbered_tail_group; try apply I; auto. intros x Hx. congruence.
  - destruct (dtokens d); [destruct Ht|discriminate].
Qed.

Lemma pos_ltb_trans p q r : pos_ltb p q = Ok true -> pos_ltb q r = Ok true -> pos_ltb p r = Ok true.
Proof.
  unfold pos_ltb. destruct (pos_cmp p q) as [[]|] eqn:E1; simpl; try discriminate.
  destruct (pos_cmp q r) as [[]|] eqn:E2; simpl; try discriminate.
  rewrite (pos_cmp_trans _ _ _ E1 E2). auto.
Qed.

Lemma equality_hash_order p q : pos_wf p -> pos_wf q ->
  (pos_eqb p q = true <-> pos_same p q) /\
  (pos_eqb p q = true -> forall h : (option str * option str * list (str * str)) -> Z, h (tuple_view p) = h (tuple_view q)) /\
  (pos_eqb p q = true -> pos_ltb p q = Ok false /\ pos_gtb p q = Ok false /\ pos_leb p q = Ok true /\ pos_geb p q = Ok true).
Proof.
  intros Wp Wq. split; [apply pos_eqb_same; auto|]. split.
  - intros E h. f_equal. apply tuple_view_iff; auto. apply pos_eqb_same; auto.
  - intros E. unfold pos_gtb, pos_leb, pos_geb. unfold pos_ltb.
    pose proof (proj1 (pos_eqb_same p q Wp Wq) E) as S. apply (pos_cmp_eq p q Wp Wq) in S. rewrite S, E. simpl. auto.
Qed.

Lemma trichotomy p q : pos_wf p -> pos_wf q -> same_shape p q ->
  (pos_ltb p q = Ok true /\ pos_eqb p q = false /\ pos_gtb p q = Ok false /\ pos_gtb q p = Ok true) \/
  (pos_ltb p q = Ok false /\ pos_eqb p q = true /\ pos_gtb p q = Ok false /\ pos_gtb q p = Ok false) \/
  (pos_ltb p q = Ok false /\ pos_eqb p q = false /\ pos_gtb p q = Ok true /\ pos_ltb q p = Ok true).
Proof.
  intros Wp Wq S. destruct (same_shape_cmp _ _ S) as [c Hc]. pose proof (pos_cmp_sym p q) as Hs. rewrite Hc in Hs.
  assert (E : pos_eqb p q = true <-> c = Eq).
  { rewrite pos_eqb_same by auto. rewrite <- pos_cmp_eq by auto. rewrite Hc. split; congruence. }
  assert (E' : pos_eqb q p = true <-> c = Eq).
  { rewrite pos_eqb_same by auto. rewrite <- pos_cmp_eq by auto. rewrite Hs. destruct c; simpl; split; congruence. }
  unfold pos_gtb, pos_ltb. rewrite Hc, Hs.
  destruct (pos_eqb p q), (pos_eqb q p), c; simpl; auto 10; exfalso; intuition congruence.
Qed.

Lemma order_total p q :
  (pos_ltb p q = Err EType \/ exists b, pos_ltb p q = Ok b) /\
  ((exists b, pos_ltb p q = Ok b) <->
   (upos p = None <-> upos q = None) /\ (upos p = upos q -> (xpos p = None <-> xpos q = None))).
Proof.
  assert (X : (exists b, pos_ltb p q = Ok b) <-> exists c, pos_cmp p q = Ok c).
  { unfold pos_ltb. destruct (pos_cmp p q) as [c|e]; simpl; split; intros [x H]; eauto; discriminate. }
  split.
  - destruct (pos_cmp_outcome p q) as [H|H].
    + right. apply X. auto.
    + left. unfold pos_ltb. rewrite H. auto.
  - rewrite X. apply pos_cmp_ok_iff.
Qed.

Lemma doc_str_works sp d : doc_inv d -> dtokens d <> [] ->
  exists ps, doc_str_pieces sp d = Ok ps /\ doc_str sp d = Ok (concat (map piece_str ps)) /\
    ((forall i j a b, i <> j -> nth_error (dtokens d) i = Some a -> nth_error (dtokens d) j = Some b -> ~ same_span a b) ->
     copied ps = dtext d).
Proof.
  intros I NE. destruct (doc_str_total sp d I NE) as [ps H]. exists ps. split; auto. split.
  - unfold doc_str. rewrite H. auto.
  - intros D. eapply doc_str_copied; eauto.
Qed.
