(* Rebuilding, navigation, multiword numbering, equality, printing. *)
From Coq Require Import ZArith NArith Bool Lia Permutation Sorted List.
From Verif Require Import Base BaseFacts Model_Datamodel Spec_Datamodel Proofs_Datamodel Proofs_Syntax.
Import ListNotations.
Open Scope Z_scope.

(* ------------------------------------------------------------------ *)
(* C02, C03: which inputs are accepted *)

Lemma concat_tokens_of d : doc_inv d -> concat (map (tokens_of (dtokens d)) (dsents d)) = dtokens d.
Proof.
  intros I. rewrite (tiles_concat _ 0 (zlen (dtokens d))).
  - apply py_slice_all.
  - lia.
  - lia.
  - apply (inv_tiles _ I).
Qed.

Lemma in_dtokens_sent d t : doc_inv d -> In t (dtokens d) -> exists s, In s (dsents d) /\ In t (tokens_of (dtokens d) s).
Proof.
  intros I H. rewrite <- (concat_tokens_of d I) in H. apply in_concat in H.
  destruct H as (l & Hl & Ht). apply in_map_iff in Hl. destruct Hl as (s & <- & Hs). eauto.
Qed.

Lemma tokens_of_incl ts s t : In t (tokens_of ts s) -> In t ts.
Proof.
  unfold tokens_of. intros H.
  assert (forall n (l : list token), In t (firstn n l) -> In t l).
  { induction n; destruct l; simpl; try tauto. intros [|]; auto. }
  assert (forall n (l : list token), In t (skipn n l) -> In t l).
  { induction n; destruct l; simpl; try tauto. auto. }
  eauto.
Qed.

Lemma tiles_end_unique a ss b b' : tiles a b ss -> tiles a b' ss -> b = b'.
Proof. intros H. revert b'. induction H; intros b' H'; inversion H'; subst; auto. Qed.

Lemma accepts_iff text ts ss :
  Forall token_wf ts -> Forall sent_wf ss -> ts <> [] ->
  ((exists d, new_document text ts (Some ss) false = Ok d) <->
   exists ts' ss', Permutation ts ts' /\ Permutation ss ss' /\
     in_text_order ts' /\ numbered ts' /\ tiles 0 (zlen ts) ss' /\
     forall s, In s ss' -> Forall (heads_agree (sstart s)) (tokens_of ts' s)).
Proof.
  intros W Ws NE. split.
  - intros (d & H). apply new_document_false_ok in H; auto. simpl in H.
    destruct H as (H1 & H2 & H3 & H4 & _).
    exists (sort_tokens ts), (sort_sents ss). repeat split; auto using sort_tokens_perm, sort_sents_perm.
  - intros (ts' & ss' & P1 & P2 & H1 & H2 & H3 & H4).
    assert (W' : Forall token_wf ts') by (eapply Permutation_Forall; eauto).
    assert (E1 : sort_tokens ts = ts').
    { pose proof (in_text_order_sort ts' W' H1) as E. rewrite <- E at 1. symmetry.
      apply sort_tokens_perm_eq; auto. congruence. apply Permutation_sym; auto. }
    assert (E2 : sort_sents ss = ss').
    { rewrite <- (tiles_sorted _ _ _ H3). apply sort_sents_perm_eq; auto. }
    eexists. apply new_document_false_ok; simpl; auto. rewrite E1, E2. auto 10.
Qed.

Lemma order_irrelevant_false text ts ts' o o' d :
  Forall token_wf ts -> sents_wf o -> Permutation ts ts' -> same_sents o o' ->
  new_document text ts o false = Ok d -> new_document text ts' o' false = Ok d.
Proof.
  intros W Wo P So H.
  assert (W' : Forall token_wf ts') by (eapply Permutation_Forall; eauto).
  assert (Wo' : sents_wf o').
  { destruct o, o'; simpl in *; auto; try tauto. eapply Permutation_Forall; eauto. }
  destruct ts as [|t ts].
  { apply Permutation_nil in P. subst. rewrite !new_document_empty in *. auto. }
  assert (NE : ts' <> []).
  { intros ->. apply Permutation_sym, Permutation_nil in P. discriminate. }
  apply new_document_false_ok in H; auto; [|congruence]. cbv zeta in H.
  apply new_document_false_ok; auto. cbv zeta.
  assert (El : zlen ts' = zlen (t :: ts)) by (unfold zlen; rewrite (Permutation_length P); auto).
  destruct H as (H1 & H2 & H3).
  rewrite <- (sort_tokens_perm_eq (t :: ts) ts') by auto. rewrite El.
  replace (sort_sents (given_sents (zlen (t :: ts)) o')) with (sort_sents (given_sents (zlen (t :: ts)) o)).
  - auto.
  - destruct o, o'; simpl in *; try tauto. apply sort_sents_perm_eq; auto.
Qed.

Lemma order_irrelevant text ts ts' o o' v d :
  Forall token_wf ts -> sents_wf o -> Permutation ts ts' -> same_sents o o' ->
  (new_document text ts o v = Ok d <-> new_document text ts' o' v = Ok d).
Proof.
  intros W Wo P So.
  assert (W' : Forall token_wf ts') by (eapply Permutation_Forall; eauto).
  assert (Wo' : sents_wf o').
  { destruct o, o'; simpl in *; auto; try tauto. eapply Permutation_Forall; eauto. }
  assert (So' : same_sents o' o) by (destruct o, o'; simpl in *; auto; try tauto; apply Permutation_sym; auto).
  assert (E : new_document text ts o false = Ok d <-> new_document text ts' o' false = Ok d).
  { split; intros H; [apply (order_irrelevant_false text ts ts' o o')|apply (order_irrelevant_false text ts' ts o' o)]; auto. apply Permutation_sym; auto. }
  destruct v; auto. rewrite !new_document_true_ok. tauto.
Qed.

(* ------------------------------------------------------------------ *)
(* C04: head notations *)

Lemma head_means_fill st n d h m : 0 <= st -> head_means st n d h m ->
  filled_pair st d h = match m with
                       | None => (None, None)
                       | Some k => if k =? -1 then (Some (-1), Some (-1)) else (Some (k + st), Some k)
                       end.
Proof.
  intros Hst H.
  destruct H as [ | | | |h H|h H|h H]; simpl; auto; unfold filled_pair, is_minus1.
  - destruct (Z.eqb_spec h (-1)); simpl; auto; lia.
  - destruct (Z.eqb_spec (st + h) (-1)); [lia|]; simpl. destruct (Z.eqb_spec h (-1)); [lia|].
    f_equal; f_equal; lia.
  - destruct (Z.eqb_spec h (-1)); [lia|]. destruct (Z.eqb_spec (st + h) (-1)); [lia|]. simpl.
    f_equal; f_equal; lia.
Qed.

Lemma head_means_agree st n t m : 0 <= st -> head_means st n (thdoc t) (thsent t) m -> heads_agree st t.
Proof.
  intros Hst H. unfold heads_agree. intros d h Ed Eh N1 N2. rewrite Ed, Eh in H. inversion H; subst; try congruence; lia.
Qed.

Lemma set_heads_eq t t' hd hs : same_but_heads t t' -> set_heads t hd hs = set_heads t' hd hs.
Proof. unfold same_but_heads, set_heads. intros (->&->&->&->&->&->&->&->). auto. Qed.

Lemma mapM_fill_eq st n l l' :
  0 <= st -> Forall token_wf l ->
  Forall2 (fun t t' => same_but_heads t t' /\
            exists m, head_means st n (thdoc t) (thsent t) m /\ head_means st n (thdoc t') (thsent t') m) l l' ->
  mapM (fun t => fill_heads t st) l = mapM (fun t => fill_heads t st) l'.
Proof.
  intros Hst W F. induction F as [|t t' l l' (S & m & M1 & M2) F IH]; simpl; auto.
  inversion W as [|? ? Wt Wl]; subst.
  assert (Wt' : token_wf t') by (eapply same_wf; eauto).
  assert (E1 : fill_heads t st = Ok (fill st t)) by (apply fill_heads_ok; auto; split; auto; eapply head_means_agree; eauto).
  assert (E2 : fill_heads t' st = Ok (fill st t')) by (apply fill_heads_ok; auto; split; auto; eapply head_means_agree; eauto).
  rewrite E1, E2, IH by auto.
  replace (fill st t') with (fill st t); auto.
  unfold fill. rewrite (head_means_fill _ _ _ _ _ Hst M1), (head_means_fill _ _ _ _ _ Hst M2).
  apply set_heads_eq; auto.
Qed.

Lemma notations_equal text ts ts' ss v :
  Forall token_wf ts -> Forall sent_wf ss -> in_text_order ts ->
  Forall2 same_but_heads ts ts' ->
  (forall s, In s ss -> Forall2 (fun t t' => exists m,
       head_means (sstart s) (send s - sstart s) (thdoc t) (thsent t) m /\
       head_means (sstart s) (send s - sstart s) (thdoc t') (thsent t') m)
     (tokens_of ts s) (tokens_of ts' s)) ->
  new_document text ts (Some ss) v = new_document text ts' (Some ss) v.
Proof.
  intros W Ws O S H.
  assert (W' : Forall token_wf ts').
  { clear -S W. induction S; inversion W; subst; constructor; eauto using same_wf. }
  assert (O' := same_in_text_order _ _ S O).
  assert (EL : zlen ts' = zlen ts) by (unfold zlen; rewrite (Forall2_length' _ _ _ S); auto).
  unfold new_document. destruct S as [|t t' l l' St S]; auto.
  cbn [bind]. rewrite EL.
  destruct (sort_sents ss) as [|s0 ss0] eqn:Ess.
  { unfold new_wordlist. rewrite !in_text_order_sort by auto.
    assert (A : check_for_sequence intersects (t :: l) = true).
    { rewrite <- (in_text_order_sort (t :: l)) by auto. apply check_intersects_iff; auto. rewrite in_text_order_sort; auto. }
    assert (B : check_for_sequence intersects (t' :: l') = true).
    { rewrite <- (in_text_order_sort (t' :: l')) by auto. apply check_intersects_iff; auto. rewrite in_text_order_sort; auto. }
    rewrite A, B. cbn [negb raise_if bind].
    assert (X : numbered (t :: l) <-> numbered (t' :: l')).
    { split; apply same_numbered; [constructor; auto|].
      constructor; [apply same_but_heads_sym; auto|]. clear -S. induction S; constructor; auto using same_but_heads_sym. }
    rewrite <- !check_skipped_iff in X.
    destruct (check_for_sequence skipped_token (t :: l)), (check_for_sequence skipped_token (t' :: l')); try (exfalso; intuition congruence);
      cbn [negb raise_if bind]; reflexivity. }
  rewrite <- Ess.
  assert (EW : new_wordlist (t :: l) (Some (sort_sents ss)) = new_wordlist (t' :: l') (Some (sort_sents ss))).
  { unfold new_wordlist. rewrite !in_text_order_sort by auto.
    assert (C1 : check_for_sequence intersects (t :: l) = check_for_sequence intersects (t' :: l')).
    { assert (A : check_for_sequence intersects (t :: l) = true).
      { rewrite <- (in_text_order_sort (t :: l)) by auto. apply check_intersects_iff; auto. rewrite in_text_order_sort; auto. }
      assert (B : check_for_sequence intersects (t' :: l') = true).
      { rewrite <- (in_text_order_sort (t' :: l')) by auto. apply check_intersects_iff; auto. rewrite in_text_order_sort; auto. }
      congruence. }
    assert (C2 : check_for_sequence skipped_token (t :: l) = check_for_sequence skipped_token (t' :: l')).
    { assert (X : numbered (t :: l) <-> numbered (t' :: l')).
      { split; apply same_numbered; [constructor; auto|].
        constructor; [apply same_but_heads_sym; auto|]. clear -S. induction S; constructor; auto using same_but_heads_sym. }
      rewrite <- !check_skipped_iff in X.
      destruct (check_for_sequence skipped_token (t :: l)), (check_for_sequence skipped_token (t' :: l')); intuition congruence. }
    rewrite C1, C2.
    assert (C3 : fill_token_heads (t :: l) (sort_sents ss) = fill_token_heads (t' :: l') (sort_sents ss)).
    { assert (H' : forall s, In s (sort_sents ss) -> In s ss).
      { intros s Hs. eapply Permutation_in; [apply Permutation_sym, sort_sents_perm|auto]. }
      assert (Ws' : Forall sent_wf (sort_sents ss)) by (eapply Permutation_Forall; [apply sort_sents_perm|auto]).
      revert H' Ws'. generalize (sort_sents ss) as ss'. intros ss' H' Ws'.
      induction ss' as [|s ss' IH]; [reflexivity|]. inversion Ws' as [|? ? Wss Wss']; subst.
      assert (E : fill_sentence_heads (t :: l) s = fill_sentence_heads (t' :: l') s).
      { unfold fill_sentence_heads. unfold sent_wf in Wss. rewrite !tokens_of_slice by lia.
        apply (mapM_fill_eq _ (send s - sstart s)); [lia|apply Forall_firstn, Forall_skipn; auto|].
        assert (F1 : Forall2 same_but_heads (tokens_of (t :: l) s) (tokens_of (t' :: l') s)).
        { apply Forall2_firstn, Forall2_skipn. constructor; auto. }
        specialize (H s (H' s (or_introl eq_refl))).
        clear -F1 H. induction F1; inversion H; subst; constructor; auto. }
      cbn [fill_token_heads]. rewrite E, IH; auto. intros x Hx; apply H'; simpl; auto. }
    rewrite Ess in *. rewrite C3. auto. }
  rewrite EW. reflexivity.
Qed.

(* ------------------------------------------------------------------ *)
(* C07: rebuilding *)

Lemma fill_id_iff st t : filled st t -> (fill st t = t <-> minus1_agree t).
Proof.
  intros F. unfold fill, filled_pair, minus1_agree, set_heads, is_minus1.
  destruct t as [a b p l dr sub rp hd hs ex]; simpl in *.
  destruct F as [(E1 & E2)|(d & h & E1 & E2 & F)]; simpl in E1, E2; subst; simpl.
  - split; auto. intros _. split; discriminate.
  - destruct (Z.eqb_spec h (-1)); destruct (Z.eqb_spec d (-1)); subst; simpl.
    + split; auto. intros _; tauto.
    + split; [intros E; inversion E; congruence|]. intros [_ H]. specialize (H eq_refl). congruence.
    + split; [intros E; inversion E; congruence|]. intros [H _]. specialize (H eq_refl). congruence.
    + split; auto. intros _. split; congruence.
Qed.

Lemma filled_agree st t : filled st t -> heads_agree st t.
Proof.
  unfold filled, heads_agree. intros [(E & _)|(d & h & E1 & E2 & F)] d' h' H1 H2 N1 N2; try congruence.
  rewrite E1 in H1. rewrite E2 in H2. inversion H1; inversion H2; subst. lia.
Qed.

Lemma doc_inv_sent_agree d : doc_inv d -> forall s, In s (dsents d) -> Forall (heads_agree (sstart s)) (tokens_of (dtokens d) s).
Proof.
  intros I s Hs. eapply Forall_impl; [|apply (inv_filled _ I); auto]. simpl. intros t. apply filled_agree.
Qed.

Lemma fill_all_id_iff d : doc_inv d ->
  (fill_all (dtokens d) (dsents d) = dtokens d <-> forall t, In t (dtokens d) -> minus1_agree t).
Proof.
  intros I. split.
  - intros E t Ht. destruct (in_dtokens_sent _ _ I Ht) as (s & Hs & Hts).
    pose proof (fill_all_tokens_of _ _ _ (inv_tiles _ I) Hs) as F. rewrite E in F.
    pose proof (inv_filled _ I _ Hs) as Fi. rewrite Forall_forall in Fi.
    apply (fill_id_iff (sstart s)); auto.
    clear -F Hts. induction (tokens_of (dtokens d) s) as [|x l IH]; simpl in *; [tauto|].
    injection F as E1 E2. destruct Hts as [<-|]; auto.
  - intros H. transitivity (concat (map (tokens_of (dtokens d)) (dsents d))); [|apply concat_tokens_of; auto]. unfold fill_all. f_equal.
    apply map_ext_in. intros s Hs. rewrite <- map_id. apply map_ext_in. intros t Ht.
    apply fill_id_iff.
    + pose proof (inv_filled _ I _ Hs) as Fi. rewrite Forall_forall in Fi. auto.
    + apply H. eapply tokens_of_incl; eauto.
Qed.

Lemma rebuild_iff d : doc_inv d ->
  (new_document (dtext d) (dtokens d) (Some (dsents d)) false = Ok d <->
   forall t, In t (dtokens d) -> minus1_agree t).
Proof.
  intros I. rewrite <- fill_all_id_iff by auto.
  destruct (dtokens d) as [|t l] eqn:Et.
  - rewrite new_document_empty. destruct d as [x ts ss]; simpl in *; subst.
    pose proof (inv_tiles _ I) as T. simpl in T.
    assert (ss = []).
    { destruct ss as [|s ss]; auto. inversion T as [|? ? ? ? E L H]; subst. apply tiles_le in H. unfold zlen in H; simpl in H. lia. }
    subst. simpl. tauto.
  - rewrite <- Et. rewrite new_document_false_ok.
    + cbv zeta. rewrite in_text_order_sort by apply I.
      simpl given_sents. rewrite (tiles_sorted _ _ _ (inv_tiles _ I)). split.
      * intros (_ & _ & _ & _ & E). destruct d as [x ts ss]; simpl in *. injection E as E'. auto.
      * intros E. repeat split; try apply I.
        -- apply doc_inv_sent_agree; auto.
        -- destruct d; simpl in *. rewrite E. auto.
    + apply I.
    + simpl. eapply tiles_wf; [|apply (inv_tiles _ I)]. lia.
    + congruence.
Qed.

Lemma combine_self_coincides l :
  existsb (fun p : token * token => negb (coincides (fst p) (snd p))) (combine l l) = false.
Proof.
  induction l as [|t l IH]; simpl; auto. rewrite IH. unfold coincides. rewrite !Z.eqb_refl. auto.
Qed.

Lemma from_document_self d : doc_inv d ->
  from_document d (dtokens d) = new_document (dtext d) (dtokens d) (Some (dsents d)) false.
Proof.
  intros I. unfold from_document. rewrite in_text_order_sort by apply I. rewrite combine_self_coincides. auto.
Qed.

(* ------------------------------------------------------------------ *)
(* C09: from_document *)

Lemma existsb_combine_coincides l l' : length l = length l' ->
  existsb (fun p : token * token => negb (coincides (fst p) (snd p))) (combine l l') = false ->
  Forall2 same_span l l'.
Proof.
  revert l'; induction l as [|t l IH]; destruct l' as [|t' l']; simpl; intros L H; try discriminate; constructor.
  - apply orb_false_iff in H. destruct H as [H _]. apply negb_false_iff in H.
    unfold coincides in H. apply andb_true_iff in H. unfold same_span. lia.
  - apply orb_false_iff in H. apply IH; [lia|tauto].
Qed.

Lemma from_document_ok d ts d' : doc_inv d -> Forall token_wf ts -> ts <> [] ->
  from_document d ts = Ok d' ->
  dtext d' = dtext d /\ dsents d' = dsents d /\ Forall2 same_span (dtokens d) (dtokens d').
Proof.
  intros I W NE H. unfold from_document in H.
  destruct (existsb _ _) eqn:E; [discriminate|].
  assert (Ws := sort_tokens_wf _ W).
  assert (NE' : sort_tokens ts <> []).
  { intros C. assert (X := zlen_sort ts). rewrite C in X. symmetry in X. apply zlen_zero in X. auto. }
  apply new_document_false_ok in H; auto.
  2:{ simpl. eapply tiles_wf; [|apply (inv_tiles _ I)]. lia. }
  cbv zeta in H. simpl given_sents in H. rewrite (tiles_sorted _ _ _ (inv_tiles _ I)) in H.
  destruct H as (H1 & H2 & H3 & H4 & ->). simpl.
  assert (L : zlen (sort_tokens ts) = zlen (dtokens d)) by (eapply tiles_end_unique; eauto; apply (inv_tiles _ I)).
  assert (Hss : sort_tokens (sort_tokens ts) = sort_tokens ts) by apply isort_idem, token_leb_ok.
  rewrite Hss in *.
  split; [auto|]. split; [auto|].
  assert (F1 : Forall2 same_span (dtokens d) (sort_tokens ts)).
  { apply existsb_combine_coincides; auto. unfold zlen in L. lia. }
  assert (F2 := fill_all_same _ _ H3).
  revert F1 F2. generalize (fill_all (sort_tokens ts) (dsents d)). clear.
  intros m F1. revert m. induction F1; intros m F2; inversion F2; subst; constructor; auto.
  unfold same_span, same_but_heads in *. intuition congruence.
Qed.

(* ------------------------------------------------------------------ *)
(* C10: navigation *)

Lemma get_token_ok text ts dv i :
  0 <= i < zlen ts -> exists t, nth_error ts (Z.to_nat i) = Some t /\ get_token text ts dv i = Ok (mkNav text ts dv t i).
Proof.
  intros H. destruct (py_index_ok ts i H) as (t & H1 & H2). exists t. split; auto.
  unfold get_token. rewrite H1. simpl. unfold nav_index, raise_if.
  destruct (Z.leb_spec (zlen ts) i); [lia|]. simpl. destruct (Z.eqb_spec (zlen ts) 0); [lia|]. simpl.
  rewrite Z.mod_small by lia. auto.
Qed.

Lemma get_token_mod text ts dv i :
  - zlen ts <= i < zlen ts -> get_token text ts dv i = get_token text ts dv (i mod zlen ts).
Proof.
  intros H. destruct (Z.lt_ge_cases i 0).
  - replace (i mod zlen ts) with (i + zlen ts).
    2:{ replace i with (i + zlen ts + (-1) * zlen ts) at 2 by lia. rewrite Z.mod_add by lia. rewrite Z.mod_small; lia. }
    unfold get_token. rewrite py_index_neg by lia. destruct (py_index ts (i + zlen ts)); simpl; auto.
    unfold nav_index, raise_if. destruct (Z.leb_spec (zlen ts) i); [lia|]. destruct (Z.leb_spec (zlen ts) (i + zlen ts)); [lia|].
    simpl. destruct (zlen ts =? 0); auto.
    replace (i + zlen ts) with (i + 1 * zlen ts) by lia. rewrite Z.mod_add by lia. auto.
  - rewrite Z.mod_small by lia. auto.
Qed.

Lemma get_token_out text ts dv i : i < - zlen ts \/ zlen ts <= i -> get_token text ts dv i = Err EIndex.
Proof. intros H. unfold get_token. rewrite py_index_out by auto. auto. Qed.

Lemma nav_next_ok text ts dv t i :
  0 <= i < zlen ts ->
  nav_next (mkNav text ts dv t i) = if i =? zlen ts - 1 then Ok None else rmap Some (get_token text ts dv (i + 1)).
Proof. intros H. unfold nav_next, nav_is_last, nav_get; simpl. auto. Qed.

Lemma visits_tokens text ts dv m : forall i, Z.of_nat m = zlen ts - i -> 0 <= i < zlen ts ->
  exists v l, get_token text ts dv i = Ok v /\ visits nav_next v l /\ map nv_token l = skipn (Z.to_nat i) ts /\
              map nv_index l = map (fun k => i + Z.of_nat k) (seq 0 m).
Proof.
  induction m as [|m IH]; intros i Hm Hi; [lia|].
  destruct (get_token_ok text ts dv i Hi) as (t & Hn & Hg).
  exists (mkNav text ts dv t i).
  assert (Hsk : skipn (Z.to_nat i) ts = t :: skipn (Z.to_nat (i + 1)) ts).
  { replace (Z.to_nat (i + 1)) with (S (Z.to_nat i)) by lia. clear -Hn.
    revert ts Hn. induction (Z.to_nat i) as [|k IH]; intros [|x ts]; simpl; intros H; try discriminate.
    - congruence.
    - rewrite (IH ts) by auto. auto. }
  destruct (Z.eq_dec i (zlen ts - 1)) as [E|E].
  - exists [mkNav text ts dv t i]. repeat split; auto.
    + constructor. rewrite nav_next_ok by auto. rewrite E, Z.eqb_refl. auto.
    + simpl. rewrite Hsk. rewrite skipn_all2 by (unfold zlen in *; lia). auto.
    + assert (m = 0%nat) by lia. subst. simpl. f_equal. lia.
  - destruct (IH (i + 1)) as (w & l & Hw & V & M & MI); try lia.
    exists (mkNav text ts dv t i :: l). repeat split; auto.
    + econstructor; eauto. rewrite nav_next_ok by auto. destruct (Z.eqb_spec i (zlen ts - 1)); [lia|].
      rewrite Hw. auto.
    + simpl. rewrite M, Hsk. auto.
    + simpl. f_equal; [lia|]. rewrite MI, <- seq_shift, map_map. apply map_ext. intros; lia.
Qed.

Lemma skipn_cons {A} (l : list A) k x : nth_error l k = Some x -> skipn k l = x :: skipn (S k) l.
Proof.
  revert l. induction k as [|k IH]; intros [|y l]; simpl; intros H; try discriminate.
  - congruence.
  - rewrite (IH l) by auto. destruct l; auto.
Qed.

(* sentences *)
Lemma get_sentence_ok d k s : doc_inv d -> nth_error (dsents d) k = Some s ->
  get_sentence d (Z.of_nat k) = Ok (mkNavS d (tokens_of (dtokens d) s) (Z.of_nat k)).
Proof.
  intros I Hk. unfold get_sentence.
  assert (Hlt : (k < length (dsents d))%nat) by (apply nth_error_Some; congruence).
  rewrite py_index_nonneg by lia. rewrite Nat2Z.id, Hk. cbn [of_option bind].
  pose proof (doc_inv_sentences _ I s (nth_error_In _ _ Hk)) as (Ws & He & Fi).
  unfold sent_wf in Ws. rewrite tokens_of_slice by lia.
  assert (Wt : Forall token_wf (tokens_of (dtokens d) s)) by (apply Forall_firstn, Forall_skipn, I).
  assert (Ot : in_text_order (tokens_of (dtokens d) s)).
  { unfold tokens_of. assert (O := inv_order _ I). unfold in_text_order in *.
    assert (X : forall n (l : list token), ForallOrdPairs before l -> ForallOrdPairs before (skipn n l)).
    { induction n; destruct l; simpl; auto. intros H; inversion H; auto. }
    assert (Y : forall n (l : list token), ForallOrdPairs before l -> ForallOrdPairs before (firstn n l)).
    { induction n; destruct l; simpl; intros H; try constructor; inversion H; subst; auto. apply Forall_firstn; auto. }
    auto. }
  assert (Nt : numbered (tokens_of (dtokens d) s)).
  { assert (Nm := inv_numbered _ I). unfold numbered in *. intros i a b Ha Hb.
    assert (L12 : (i < Z.to_nat (send s - sstart s))%nat /\ (S i < Z.to_nat (send s - sstart s))%nat).
    { assert (X : (S i < length (tokens_of (dtokens d) s))%nat) by (apply nth_error_Some; congruence).
      pose proof (tokens_of_length (dtokens d) s) as Y. unfold zlen in *. lia. }
    destruct L12 as [L1 L2].
    rewrite tokens_of_nth in Ha, Hb by lia. rewrite Nat.add_succ_r in Hb. eapply Nm; eauto. }
  unfold new_wordlist. rewrite in_text_order_sort by auto.
  assert (C1 : check_for_sequence intersects (tokens_of (dtokens d) s) = true).
  { rewrite <- (in_text_order_sort (tokens_of (dtokens d) s)) by auto.
    apply check_intersects_iff; auto. rewrite in_text_order_sort; auto. }
  assert (C2 : check_for_sequence skipped_token (tokens_of (dtokens d) s) = true) by (apply check_skipped_iff; auto).
  rewrite C1, C2. cbn [raise_if negb bind]. unfold nav_index, raise_if, zlen.
  destruct (Z.leb_spec (Z.of_nat (length (dsents d))) (Z.of_nat k)); [lia|]. cbn [bind].
  destruct (Z.eqb_spec (Z.of_nat (length (dsents d))) 0); [lia|]. cbn [bind].
  rewrite Z.mod_small by lia. auto.
Qed.

Lemma get_sentence_mod d i : doc_inv d -> - zlen (dsents d) <= i < zlen (dsents d) ->
  get_sentence d i = get_sentence d (i mod zlen (dsents d)).
Proof.
  intros I H. destruct (Z.lt_ge_cases i 0).
  - replace (i mod zlen (dsents d)) with (i + zlen (dsents d)).
    2:{ replace i with (i + zlen (dsents d) + (-1) * zlen (dsents d)) at 2 by lia. rewrite Z.mod_add by lia. rewrite Z.mod_small; lia. }
    unfold get_sentence. rewrite py_index_neg by lia. destruct (py_index (dsents d) (i + zlen (dsents d))); simpl; auto.
    destruct (new_wordlist _ _); simpl; auto.
    unfold nav_index, raise_if. destruct (Z.leb_spec (zlen (dsents d)) i); [lia|].
    destruct (Z.leb_spec (zlen (dsents d)) (i + zlen (dsents d))); [lia|].
    simpl. destruct (zlen (dsents d) =? 0); auto.
    replace (i + zlen (dsents d)) with (i + 1 * zlen (dsents d)) by lia. rewrite Z.mod_add by lia. auto.
  - rewrite Z.mod_small by lia. auto.
Qed.

Lemma visits_sentences d m : doc_inv d -> forall k, (k + S m = length (dsents d))%nat ->
  exists v l, get_sentence d (Z.of_nat k) = Ok v /\ visits ns_next v l /\
              map ns_tokens l = map (tokens_of (dtokens d)) (skipn k (dsents d)).
Proof.
  intros I. induction m as [|m IH]; intros k Hk.
  - destruct (nth_error (dsents d) k) as [s|] eqn:E; [|apply nth_error_None in E; lia].
    rewrite (get_sentence_ok _ _ _ I E). eexists. exists [mkNavS d (tokens_of (dtokens d) s) (Z.of_nat k)].
    repeat split; auto.
    + constructor. unfold ns_next, ns_is_last; simpl. unfold zlen.
      destruct (Z.eqb_spec (Z.of_nat k) (Z.of_nat (length (dsents d)) - 1)); auto; lia.
    + simpl. rewrite (skipn_cons _ _ _ E), skipn_all2 by lia. auto.
  - destruct (nth_error (dsents d) k) as [s|] eqn:E; [|apply nth_error_None in E; lia].
    rewrite (get_sentence_ok _ _ _ I E). eexists.
    destruct (IH (S k)) as (w & l & Hw & V & M); [lia|].
    exists (mkNavS d (tokens_of (dtokens d) s) (Z.of_nat k) :: l). repeat split.
    + econstructor; eauto. unfold ns_next, ns_is_last; simpl. unfold zlen.
      destruct (Z.eqb_spec (Z.of_nat k) (Z.of_nat (length (dsents d)) - 1)); [lia|].
      replace (Z.of_nat k + 1) with (Z.of_nat (S k)) by lia. rewrite Hw. auto.
    + simpl. rewrite M, (skipn_cons _ _ _ E). auto.
Qed.

(* ------------------------------------------------------------------ *)
(* C11: heads *)

(* indices visited on the way to the root *)
Inductive up_path (heads : list (option Z)) : nat -> list nat -> Prop :=
| up_root k : nth_error heads k = Some (Some (-1)) -> up_path heads k []
| up_step k h l : nth_error heads k = Some (Some (Z.of_nat h)) -> up_path heads h l -> up_path heads k (h :: l).

Lemma reaches_up heads k : reaches_root heads k -> exists l, up_path heads k l.
Proof. induction 1 as [|k h H R [l IH]]; eauto using up_path. Qed.

Lemma up_path_rank heads k l : up_path heads k l -> rank heads (length l) k.
Proof. induction 1; simpl; eauto using rank. Qed.

Lemma up_path_range heads k l : up_path heads k l -> (k < length heads)%nat /\ Forall (fun h => (h < length heads)%nat) l.
Proof.
  induction 1 as [k H|k h l H U [IH1 IH2]].
  - split; auto. apply nth_error_Some. congruence.
  - split; [apply nth_error_Some; congruence|constructor; auto].
Qed.

Lemma up_path_in heads k l x : up_path heads k l -> In x l -> exists r, rank heads r x /\ (r < length l)%nat.
Proof.
  induction 1 as [|k h l H U IH]; simpl; [tauto|]. intros [->|Hx].
  - exists (length l). split; [apply up_path_rank; auto|lia].
  - destruct (IH Hx) as (r & Hr & L). exists r. split; auto; lia.
Qed.

Lemma up_path_nodup heads k l : up_path heads k l -> NoDup (k :: l).
Proof.
  intros U. assert (R := up_path_rank _ _ _ U). revert R. induction U as [k H|k h l H U IH]; intros R.
  - repeat constructor. simpl; tauto.
  - assert (R' := up_path_rank _ _ _ U). constructor; [|apply IH; auto].
    intros C. destruct (up_path_in heads k (h :: l) k) as (r & Hr & L); [econstructor; eauto|auto|].
    pose proof (rank_unique _ _ _ R _ Hr). simpl in *. lia.
Qed.

Lemma up_path_short heads k l : up_path heads k l -> (length l < length heads)%nat.
Proof.
  intros U. pose proof (up_path_nodup _ _ _ U) as N. pose proof (up_path_range _ _ _ U) as [R1 R2].
  assert (I : incl (k :: l) (seq 0 (length heads))).
  { intros x [<-|Hx]; apply in_seq; [lia|]. rewrite Forall_forall in R2. specialize (R2 _ Hx). lia. }
  apply NoDup_incl_length in I; auto. rewrite seq_length in I. simpl in I. lia.
Qed.

Lemma head_chain_path text ts s (dv : bool) :
  sent_wf s -> send s <= zlen ts -> Forall (filled (sstart s)) (tokens_of ts s) ->
  forall k l, up_path (map shown_head (tokens_of ts s)) k l ->
  forall t, nth_error (tokens_of ts s) k = Some t ->
  let base := if dv then sstart s else 0 in
  let cont := if dv then ts else tokens_of ts s in
  exists c, head_chain (mkNav text cont dv t (base + Z.of_nat k)) c /\
            map nv_index c = map (fun h => base + Z.of_nat h) l /\
            map (fun u => Some (nv_token u)) c = map (nth_error (tokens_of ts s)) l.
Proof.
  intros Ws He Fi k l U. induction U as [k H|k h l H U IH]; intros t Ht base cont.
  - exists []. repeat split; auto. constructor. unfold nav_head. simpl.
    destruct (head_cases ts s Fi k t Ht) as [(_ & _ & E)|[(_ & -> & E)|(_ & _ & hh & _ & _ & N & E)]]; auto;
      rewrite H in E; inversion E; congruence.
  - assert (Hh : (h < length (tokens_of ts s))%nat).
    { pose proof (up_path_range _ _ _ U) as [R _]. rewrite map_length in R. auto. }
    destruct (nth_error (tokens_of ts s) h) as [th|] eqn:Eth; [|apply nth_error_None in Eth; lia].
    destruct (IH th eq_refl) as (c & HC & M1 & M2).
    exists (mkNav text cont dv th (base + Z.of_nat h) :: c). repeat split.
    + econstructor; [|exact HC]. unfold nav_head, head_index, nav_get. cbn [nv_token nv_docview nv_text nv_tokens].
      destruct (head_cases ts s Fi k t Ht) as [(_ & _ & E)|[(_ & _ & E)|(_ & -> & hh & E1 & E2 & N & E)]];
        try (rewrite H in E; inversion E; lia).
      rewrite E1, E2. assert (hh = Z.of_nat h) by (rewrite H in E; congruence). subst hh.
      assert (Ll := tokens_of_length ts s). unfold sent_wf, zlen in *.
      assert (Hb : py_index cont (base + Z.of_nat h) = Ok th).
      { unfold cont, base. destruct dv.
        - rewrite py_index_nonneg by lia. rewrite tokens_of_nth in Eth by lia.
          replace (Z.to_nat (sstart s + Z.of_nat h)) with (Z.to_nat (sstart s) + h)%nat by lia. rewrite Eth. auto.
        - simpl. rewrite py_index_nonneg by lia. rewrite Nat2Z.id, Eth. auto. }
      replace (if dv then Some (Z.of_nat h + sstart s) else Some (Z.of_nat h)) with (Some (base + Z.of_nat h)).
      2:{ unfold base. destruct dv; f_equal; lia. }
      unfold get_token. rewrite Hb. cbn [bind rmap].
      assert (Hlt : 0 <= base + Z.of_nat h < zlen cont) by (unfold base, cont, zlen; destruct dv; lia).
      unfold nav_index, raise_if. destruct (Z.leb_spec (zlen cont) (base + Z.of_nat h)); [lia|]. cbn [bind].
      destruct (Z.eqb_spec (zlen cont) 0); [lia|]. rewrite Z.mod_small by lia. auto.
    + simpl. f_equal. auto.
    + simpl. rewrite M2, Eth. auto.
Qed.

(* ------------------------------------------------------------------ *)
(* C13: numbering of multiword tokens *)

Lemma span_eqb_iff a b : span_eqb a b = true <-> same_span a b.
Proof. unfold span_eqb, same_span. rewrite andb_true_iff. lia. Qed.

Lemma filter_none {A} (p : A -> bool) l : Forall (fun x => p x = false) l -> filter p l = [].
Proof. induction 1 as [|x l H F IH]; simpl; auto. rewrite H; auto. Qed.

(* in text order, tokens with a given span form one block *)
Lemma block_numbers t l : token_wf t -> Forall token_wf l -> in_text_order l -> numbered l ->
  forall a0, (forall x, nth_error l 0 = Some x -> same_span t x -> multiword x -> tsub x = a0) ->
  (forall x, In x l -> same_span t x -> multiword x) ->
  (a0 = 0 \/ exists x, nth_error l 0 = Some x /\ same_span t x) ->
  map tsub (filter (span_eqb t) l) = map (fun k => a0 + Z.of_nat k) (seq 0 (length (filter (span_eqb t) l))).
Proof.
  intros Wt W O N. induction l as [|x l IH]; intros a0 H0 Hm Ha; [reflexivity|].
  inversion W as [|? ? Wx Wl]; subst. inversion O as [|? ? Ox Ol]; subst.
  assert (Nl : numbered l) by (intros i a b Ha' Hb'; apply (N (S i)); auto).
  simpl. destruct (span_eqb t x) eqn:E.
  - apply span_eqb_iff in E. simpl.
    assert (Mx : multiword x) by (apply Hm; simpl; auto).
    assert (Hx : tsub x = a0) by (apply (H0 x); auto).
    rewrite Hx. f_equal; [lia|].
    destruct l as [|y l'].
    { reflexivity. }
    destruct (span_eqb t y) eqn:Ey.
    + rewrite (IH Wl Ol Nl (a0 + 1)).
      * rewrite <- seq_shift, map_map. apply map_ext. intros; lia.
      * simpl. intros z Hz S M. inversion Hz; subst z.
        destruct (N 0%nat x y eq_refl eq_refl M) as [(_ & _ & Hs)|(Hn & _)]; [lia|].
        exfalso. apply Hn. split; auto. unfold same_span in *; lia.
      * intros z Hz. apply Hm. simpl; auto.
      * right. exists y. split; auto. apply span_eqb_iff; auto.
    + (* the block ended *)
      assert (F : filter (span_eqb t) (y :: l') = []).
      { apply filter_none. inversion Ox as [|? ? Oxy Oxl]; subst. inversion Ol as [|? ? Oy _]; subst.
        constructor; auto. inversion Wl as [|? ? Wy Wl']; subst. apply Forall_forall. intros z Hz.
        pose proof (proj1 (Forall_forall _ _) Oy _ Hz) as Oyz.
        pose proof (proj1 (Forall_forall _ _) Oxl _ Hz) as Oxz.
        destruct (span_eqb t z) eqn:Ez; auto. apply span_eqb_iff in Ez.
        pose proof (proj1 (Forall_forall _ _) Wl' _ Hz) as Wz.
        assert (Ny : ~ same_span t y) by (rewrite <- span_eqb_iff; congruence).
        exfalso. unfold before, same_span, token_wf in *. lia. }
      rewrite F. reflexivity.
  - assert (Nx : ~ same_span t x) by (rewrite <- span_eqb_iff; congruence).
    destruct Ha as [->|(x' & E' & S')].
    2:{ simpl in E'. inversion E'; subst. contradiction. }
    apply IH; auto.
    + intros y Hy S M. destruct l as [|y' l']; simpl in Hy; [discriminate|]. inversion Hy; subst y'.
      destruct (N 0%nat x y eq_refl eq_refl M) as [(_ & Sp & _)|(_ & Hz)]; auto.
      exfalso. apply Nx. unfold same_span in *; lia.
    + intros y Hy. apply Hm. simpl; auto.
Qed.

Lemma ord_pairs_nth {A} (R : A -> A -> Prop) l : ForallOrdPairs R l ->
  forall i j x y, (i < j)%nat -> nth_error l i = Some x -> nth_error l j = Some y -> R x y.
Proof.
  induction 1 as [|z l F O IH]; intros i j x y L Hi Hj.
  - destruct i; discriminate.
  - destruct j as [|j]; [lia|]. simpl in Hj. destruct i as [|i]; simpl in Hi.
    + inversion Hi; subst. rewrite Forall_forall in F. apply F. eapply nth_error_In; eauto.
    + eapply (IH i j); eauto. lia.
Qed.

(* a token sharing the span of a multiword token is itself multiword, unless it is in the first group *)
Lemma numbered_multiword l : Forall token_wf l -> in_text_order l -> numbered l ->
  (forall f, nth_error l 0 = Some f -> tsub f = 0) ->
  forall t x, In t l -> In x l -> multiword t -> same_span t x -> multiword x.
Proof.
  intros W O N F.
  (* any two neighbours with one span: both multiword or ... *)
  assert (P : forall i a b, nth_error l i = Some a -> nth_error l (S i) = Some b -> same_span a b ->
              0 <= tsub a -> multiword a /\ multiword b /\ 0 <= tsub b).
  { intros i a b Ha Hb Sab Sa.
    assert (Bab : before a b).
    { apply (ord_pairs_nth before l O i (S i)); auto. }
    assert (Wa : token_wf a) by (rewrite Forall_forall in W; apply W; eapply nth_error_In; eauto).
    assert (Wb : token_wf b) by (rewrite Forall_forall in W; apply W; eapply nth_error_In; eauto).
    assert (Lt : tsub a < tsub b) by (unfold before, same_span, token_wf in *; lia).
    assert (Mb : multiword b).
    { intros C. destruct Wb as [_ Wb]. specialize (Wb C). lia. }
    destruct (N i a b Ha Hb Mb) as [(Ma & _ & _)|(_ & Z0)]; [auto with zarith|lia]. }
  assert (Q : forall i a, nth_error l i = Some a -> 0 <= tsub a).
  { induction i as [|i IH]; intros a Ha.
    - rewrite (F a Ha). lia.
    - destruct (nth_error l i) as [p|] eqn:Ep.
      2:{ apply nth_error_None in Ep. assert (S i < length l)%nat by (apply nth_error_Some; congruence). lia. }
      specialize (IH p eq_refl).
      destruct (trepl a) as [r|] eqn:Er.
      + assert (Ma : multiword a) by (unfold multiword; congruence).
        destruct (N i p a Ep Ha Ma) as [(_ & _ & ?)|(_ & ?)]; lia.
      + assert (Wa : token_wf a) by (rewrite Forall_forall in W; apply W; eapply nth_error_In; eauto).
        destruct Wa as [_ Wa]. rewrite (Wa Er). lia. }
  (* walk between two positions of one span *)
  assert (R : forall m i a b, nth_error l i = Some a -> nth_error l (i + m) = Some b -> same_span a b ->
              (multiword a <-> multiword b)).
  { induction m as [|m IH]; intros i a b Ha Hb Sab.
    - rewrite Nat.add_0_r in Hb. assert (a = b) by congruence. subst; tauto.
    - destruct (nth_error l (S i)) as [c|] eqn:Ec.
      2:{ apply nth_error_None in Ec. assert (i + S m < length l)%nat by (apply nth_error_Some; congruence). lia. }
      rewrite Nat.add_succ_r in Hb.
      assert (Sc : same_span a c).
      { destruct m as [|m].
        - rewrite Nat.add_0_r in Hb. assert (c = b) by congruence. subst; auto.
        - assert (Ord := ord_pairs_nth before l O).
          assert (B1 : before a c) by (apply (Ord i (S i)); auto).
          assert (B2 : before c b) by (apply (Ord (S i) (S (i + S m))); auto; lia).
          assert (Wa : token_wf a) by (rewrite Forall_forall in W; apply W; eapply nth_error_In; eauto).
          assert (Wc : token_wf c) by (rewrite Forall_forall in W; apply W; eapply nth_error_In; eauto).
          assert (Wb : token_wf b) by (rewrite Forall_forall in W; apply W; eapply nth_error_In; eauto).
          unfold before, same_span, token_wf in *. lia. }
      destruct (P i a c Ha Ec Sc (Q i a Ha)) as (Ma & Mc & _).
      rewrite <- (IH (S i) c b Ec).
      + tauto.
      + rewrite Nat.add_succ_l. auto.
      + unfold same_span in *; lia. }
  intros t x Ht Hx Mt Stx.
  apply In_nth_error in Ht. destruct Ht as [i Hi]. apply In_nth_error in Hx. destruct Hx as [j Hj].
  destruct (Nat.le_gt_cases i j) as [L|L].
  - apply (R (j - i)%nat i t x Hi); auto. replace (i + (j - i))%nat with j by lia. auto.
  - apply (R (i - j)%nat j x t Hj); auto.
    + replace (j + (i - j))%nat with i by lia. auto.
    + unfold same_span in *; lia.
Qed.

Lemma numbered_from_zero l : Forall token_wf l -> in_text_order l -> numbered l ->
  (forall f, nth_error l 0 = Some f -> tsub f = 0) ->
  forall t, In t l -> multiword t ->
  map tsub (filter (span_eqb t) l) = map Z.of_nat (seq 0 (length (filter (span_eqb t) l))).
Proof.
  intros W O N F t Ht Mt.
  apply (block_numbers t l) with (a0 := 0); auto.
  - rewrite Forall_forall in W; auto.
  - intros x Hx S. exact (numbered_multiword l W O N F t x Ht Hx Mt S).
Qed.
