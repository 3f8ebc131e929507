(* Lemmas about the data model: construction, layout, heads. *)
From Coq Require Import ZArith NArith Bool Lia Permutation Sorted List.
From Verif Require Import Base BaseFacts Model_Datamodel Spec_Datamodel.
Import ListNotations.
Open Scope Z_scope.

(* ------------------------------------------------------------------ *)
(* generic list facts *)

Lemma strongly_sorted_ord_pairs {A} (R : A -> A -> Prop) l : StronglySorted R l <-> ForallOrdPairs R l.
Proof.
  split; induction 1; constructor; auto.
Qed.

Lemma check_for_sequence_iff {A} (fail : A -> A -> bool) l :
  check_for_sequence fail l = true <->
  forall i a b, nth_error l i = Some a -> nth_error l (S i) = Some b -> fail a b = false.
Proof.
  induction l as [|x l IH].
  - split; auto. intros _ [|i] a b; simpl; discriminate.
  - destruct l as [|y l].
    + split; auto. intros _ [|i] a b; simpl; try discriminate; destruct i; discriminate.
    + change (check_for_sequence fail (x :: y :: l))
        with (if fail x y then false else check_for_sequence fail (y :: l)).
      destruct (fail x y) eqn:E.
      * split; try discriminate. intros H. specialize (H 0%nat x y eq_refl eq_refl). congruence.
      * rewrite IH. split; intros H.
        -- intros [|i] a b Ha Hb.
           ++ simpl in Ha, Hb. congruence.
           ++ apply (H i a b); auto.
        -- intros i a b Ha Hb. apply (H (S i) a b); auto.
Qed.

Lemma check_for_sequence_sorted {A} (fail : A -> A -> bool) l :
  check_for_sequence fail l = true <-> Sorted (fun a b => fail a b = false) l.
Proof.
  induction l as [|x l IH]; [split; auto|].
  destruct l as [|y l].
  - split; auto.
  - change (check_for_sequence fail (x :: y :: l))
      with (if fail x y then false else check_for_sequence fail (y :: l)).
    destruct (fail x y) eqn:E.
    + split; try discriminate. intros H. inversion H as [|? ? _ Hd]; subst. inversion Hd; subst. congruence.
    + rewrite IH. split; intros H.
      * constructor; auto.
      * inversion H; auto.
Qed.

Lemma Forall2_nth {A B} (R : A -> B -> Prop) l1 l2 i x :
  Forall2 R l1 l2 -> nth_error l1 i = Some x -> exists y, nth_error l2 i = Some y /\ R x y.
Proof.
  intros H. revert i. induction H; intros [|i]; simpl; try discriminate; eauto.
  intros E; inversion E; subst; eauto.
Qed.

Lemma Forall2_nth_r {A B} (R : A -> B -> Prop) l1 l2 i y :
  Forall2 R l1 l2 -> nth_error l2 i = Some y -> exists x, nth_error l1 i = Some x /\ R x y.
Proof.
  intros H. revert i. induction H; intros [|i]; simpl; try discriminate; eauto.
  intros E; inversion E; subst; eauto.
Qed.

Lemma Forall2_firstn {A B} (R : A -> B -> Prop) n l1 l2 : Forall2 R l1 l2 -> Forall2 R (firstn n l1) (firstn n l2).
Proof. intros H; revert n; induction H; destruct n; simpl; constructor; auto. Qed.

Lemma Forall2_skipn {A B} (R : A -> B -> Prop) n l1 l2 : Forall2 R l1 l2 -> Forall2 R (skipn n l1) (skipn n l2).
Proof. intros H; revert n; induction H; destruct n; simpl; auto. Qed.

Lemma Forall2_concat {A B} (R : A -> B -> Prop) ls1 ls2 :
  Forall2 (Forall2 R) ls1 ls2 -> Forall2 R (concat ls1) (concat ls2).
Proof. induction 1; simpl; auto. apply Forall2_app; auto. Qed.

Lemma Forall2_map_l {A B C} (f : A -> B) (R : B -> C -> Prop) l1 l2 :
  Forall2 R (map f l1) l2 <-> Forall2 (fun a c => R (f a) c) l1 l2.
Proof.
  split.
  - revert l2; induction l1; simpl; intros l2 H; inversion H; subst; constructor; auto.
  - induction 1; simpl; constructor; auto.
Qed.

Lemma Forall2_map_r {A B C} (f : A -> B) (R : C -> B -> Prop) l1 l2 :
  Forall2 R l1 (map f l2) <-> Forall2 (fun c a => R c (f a)) l1 l2.
Proof.
  split.
  - revert l1; induction l2; simpl; intros l1 H; inversion H; subst; constructor; auto.
  - induction 1; simpl; constructor; auto.
Qed.

Lemma Forall2_impl {A B} (R S : A -> B -> Prop) l1 l2 :
  (forall x y, R x y -> S x y) -> Forall2 R l1 l2 -> Forall2 S l1 l2.
Proof. induction 2; constructor; auto. Qed.

Lemma Forall2_eq {A} (l1 l2 : list A) : Forall2 eq l1 l2 <-> l1 = l2.
Proof.
  split; [induction 1; congruence|]. intros ->. induction l2; constructor; auto.
Qed.

Lemma Forall2_length' {A B} (R : A -> B -> Prop) l1 l2 : Forall2 R l1 l2 -> length l1 = length l2.
Proof. induction 1; simpl; auto. Qed.

Lemma Forall_firstn {A} (P : A -> Prop) n l : Forall P l -> Forall P (firstn n l).
Proof. intros H; revert n; induction H; destruct n; simpl; constructor; auto. Qed.

Lemma Forall_skipn {A} (P : A -> Prop) n l : Forall P l -> Forall P (skipn n l).
Proof. intros H; revert n; induction H; destruct n; simpl; auto. Qed.

Lemma nth_error_ext {A} (l1 l2 : list A) : (forall i, nth_error l1 i = nth_error l2 i) -> l1 = l2.
Proof.
  revert l2; induction l1 as [|x l1 IH]; destruct l2 as [|y l2]; intros H; auto;
    try (specialize (H 0%nat); discriminate).
  f_equal.
  - specialize (H 0%nat); simpl in H; congruence.
  - apply IH. intros i. apply (H (S i)).
Qed.

Lemma py_slice_nonneg {A} (l : list A) a b :
  0 <= a <= b -> py_slice l a b = firstn (Z.to_nat (b - a)) (skipn (Z.to_nat a) l).
Proof.
  intros H. unfold py_slice, clamp_index.
  destruct (a <? 0) eqn:E1; [lia|]. destruct (b <? 0) eqn:E2; [lia|].
  pose proof (zlen_nonneg l).
  destruct (Z.le_gt_cases a (zlen l)) as [Ha|Ha].
  - replace (Z.max 0 (Z.min a (zlen l))) with a by lia.
    destruct (Z.le_gt_cases b (zlen l)) as [Hb|Hb].
    + replace (Z.max 0 (Z.min b (zlen l))) with b by lia. auto.
    + replace (Z.max 0 (Z.min b (zlen l))) with (zlen l) by lia.
      rewrite firstn_all2 by (rewrite skipn_length; unfold zlen in *; lia).
      rewrite firstn_all2 by (rewrite skipn_length; unfold zlen in *; lia). auto.
  - rewrite (skipn_all2 l (n := Z.to_nat a)) by (unfold zlen in *; lia).
    rewrite firstn_nil.
    rewrite skipn_all2 by (unfold zlen in *; lia). apply firstn_nil.
Qed.

Lemma py_slice_split_nonneg {A} (l : list A) a b c :
  0 <= a <= b -> b <= c -> py_slice l a c = py_slice l a b ++ py_slice l b c.
Proof.
  intros H1 H2. rewrite !py_slice_nonneg by lia.
  replace (Z.to_nat (c - a)) with (Z.to_nat (b - a) + Z.to_nat (c - b))%nat by lia.
  replace (skipn (Z.to_nat b) l) with (skipn (Z.to_nat (b - a)) (skipn (Z.to_nat a) l)).
  - generalize (skipn (Z.to_nat a) l) as l'. generalize (Z.to_nat (c - b)) as k. generalize (Z.to_nat (b - a)) as m.
    clear. intros m k l'. revert l'. induction m as [|m IH]; intros l'; simpl; auto.
    destruct l' as [|x l']; simpl; [destruct k; auto|]. f_equal. auto.
  - rewrite skipn_skipn'. f_equal. lia.
Qed.

Lemma tokens_of_slice ts s : 0 <= sstart s <= send s -> py_slice ts (sstart s) (send s) = tokens_of ts s.
Proof. intros H. unfold tokens_of. apply py_slice_nonneg; lia. Qed.

(* ------------------------------------------------------------------ *)
(* tokens: constructor, order *)

Lemma new_token_ok s e p l dr sub repl hd hs ex t :
  new_token s e p l dr sub repl hd hs ex = Ok t <->
  (0 <= s < e /\ (repl = None -> sub = 0)) /\
  t = mkToken s e p l dr sub repl hd hs (match ex with Some x => x | None => [] end).
Proof.
  unfold new_token, assert.
  destruct (0 <=? s) eqn:E1; simpl; [|split; [discriminate|intros [[? ?] _]; lia]].
  destruct (s <? e) eqn:E2; simpl; [|split; [discriminate|intros [[? ?] _]; lia]].
  destruct repl as [r|]; simpl.
  - split; [intros H; inversion H; repeat split; try lia; discriminate|intros [_ ->]; auto].
  - destruct (sub =? 0) eqn:E3; simpl.
    + split; [intros H; inversion H; repeat split; auto; lia|intros [_ ->]; auto].
    + split; [discriminate|]. intros [[? Hs] _]. specialize (Hs eq_refl). lia.
Qed.

Lemma new_token_wf s e p l dr sub repl hd hs ex t :
  new_token s e p l dr sub repl hd hs ex = Ok t -> token_wf t.
Proof. rewrite new_token_ok. intros [H ->]. exact H. Qed.

(* and conversely every well formed token is one the constructor returns *)
Lemma token_wf_new t :
  token_wf t ->
  new_token (tstart t) (tend t) (tpos t) (tlemma t) (tdeprel t) (tsub t) (trepl t) (thdoc t) (thsent t)
            (Some (textras t)) = Ok t.
Proof. intros H. apply new_token_ok. split; [exact H|]. destruct t; reflexivity. Qed.

Lemma new_sentence_ok a b s : new_sentence a b = Ok s <-> 0 <= a < b /\ s = mkSent a b.
Proof.
  unfold new_sentence, assert. destruct (0 <=? a) eqn:E1; simpl.
  - destruct (a <? b) eqn:E2; simpl.
    + split; [intros H; inversion H; repeat split; auto; lia|intros [_ ->]; auto].
    + split; [discriminate|]. intros [? _]; lia.
  - split; [discriminate|]. intros [? _]; lia.
Qed.

Definition key_le (a b : token) : Prop :=
  tstart a < tstart b \/
  (tstart a = tstart b /\ (tend a < tend b \/ (tend a = tend b /\ tsub a <= tsub b))).

Lemma token_leb_iff a b : token_leb a b = true <-> key_le a b.
Proof.
  unfold token_leb, token_cmp, key_le.
  destruct (Z.compare_spec (tstart a) (tstart b)); destruct (Z.compare_spec (tend a) (tend b));
    destruct (Z.compare_spec (tsub a) (tsub b)); simpl; split; intros; try discriminate; auto; lia.
Qed.

Lemma token_leb_ok : leb_ok token_leb.
Proof.
  split; intros.
  - rewrite !token_leb_iff. unfold key_le. lia.
  - rewrite token_leb_iff in *. unfold key_le in *. lia.
Qed.

Lemma before_key_le a b : token_wf a -> before a b -> key_le a b.
Proof. unfold token_wf, before, same_span, key_le. lia. Qed.

Lemma before_not_sym a b : token_wf a -> token_wf b -> before a b -> ~ before b a.
Proof. unfold token_wf, before, same_span. lia. Qed.

Lemma before_trans a b c : token_wf a -> token_wf b -> token_wf c -> before a b -> before b c -> before a c.
Proof. unfold token_wf, before, same_span. lia. Qed.

Lemma intersects_false_before a b :
  token_wf a -> token_wf b -> key_le a b -> (intersects a b = false <-> before a b).
Proof.
  unfold token_wf, key_le, before, same_span, intersects. intros.
  destruct (Z.leb_spec (tend b) (tstart a)); destruct (Z.leb_spec (tend a) (tstart b)); simpl;
    try (split; auto; lia).
  destruct (Z.eqb_spec (tstart a) (tstart b)); destruct (Z.eqb_spec (tend a) (tend b)); simpl;
    try (split; [discriminate|lia]).
  destruct (Z.eqb_spec (tsub a) (tsub b)); split; try discriminate; auto; lia.
Qed.

Lemma sort_tokens_perm ts : Permutation ts (sort_tokens ts).
Proof. apply isort_perm. Qed.

Lemma sort_tokens_wf ts : Forall token_wf ts -> Forall token_wf (sort_tokens ts).
Proof. apply Permutation_Forall, sort_tokens_perm. Qed.

(* the neighbour check on the sorted list is the check for all pairs *)
Lemma check_intersects_iff ts :
  Forall token_wf ts ->
  (check_for_sequence intersects (sort_tokens ts) = true <-> in_text_order (sort_tokens ts)).
Proof.
  intros W. assert (Ws := sort_tokens_wf _ W).
  assert (S : StronglySorted (leR token_leb) (sort_tokens ts)) by apply isort_sorted, token_leb_ok.
  unfold in_text_order. rewrite <- strongly_sorted_ord_pairs, check_for_sequence_sorted.
  revert Ws S. generalize (sort_tokens ts) as l. clear. intros l W S. split; intros H.
  - set (R := fun a b => token_wf a /\ token_wf b /\ before a b).
    assert (T : forall x y z, R x y -> R y z -> R x z).
    { unfold R; intros x y z (? & ? & ?) (? & ? & ?). repeat split; try apply H0; try apply H4; eauto using before_trans. }
    assert (SR : StronglySorted R l).
    { apply Sorted_StronglySorted; [exact T|].
      induction H as [|x l Hl IH Hd]; constructor.
      - inversion W; inversion S; subst; auto.
      - destruct Hd as [|y l Hxy]; constructor.
        inversion W as [|? ? Wx W']; subst. inversion W' as [|? ? Wy ?]; subst.
        inversion S as [|? ? _ F]; subst. inversion F as [|? ? Fy ?]; subst.
        unfold R. repeat split; try apply Wx; try apply Wy. apply intersects_false_before; auto. apply token_leb_iff; auto. }
    clear -SR. induction SR as [|x l SR IH F]; constructor; auto.
    eapply Forall_impl; [|exact F]. intros y (_ & _ & Hb); auto.
  - apply StronglySorted_Sorted in H. induction H as [|x l Hl IH Hd]; constructor.
    + inversion W; inversion S; subst; auto.
    + destruct Hd as [|y l Hxy]; constructor.
      inversion W as [|? ? Wx W']; subst. inversion W' as [|? ? Wy ?]; subst.
      apply intersects_false_before; auto. apply before_key_le; auto.
Qed.

Lemma in_text_order_sort ts : Forall token_wf ts -> in_text_order ts -> sort_tokens ts = ts.
Proof.
  intros W H. apply isort_id. unfold in_text_order in H. rewrite <- strongly_sorted_ord_pairs in H.
  induction H as [|x l Hl IH F]; constructor; inversion W; subst; auto.
  rewrite Forall_forall in *. intros y Hy. apply token_leb_iff, before_key_le; auto.
Qed.

(* a list in text order has no two tokens with the same key *)
Lemma in_text_order_key_inj ts x y :
  in_text_order ts -> In x ts -> In y ts -> key_le x y -> key_le y x -> token_wf x -> token_wf y -> x = y.
Proof.
  unfold in_text_order. intros H. induction H as [|z l F H IH]; simpl; [tauto|].
  rewrite Forall_forall in F.
  intros [->|Hx] [->|Hy] K1 K2 W1 W2; auto.
  - exfalso. specialize (F _ Hy). unfold before, same_span, key_le, token_wf in *. lia.
  - exfalso. specialize (F _ Hx). unfold before, same_span, key_le, token_wf in *. lia.
Qed.

(* order of the input list is irrelevant *)
Lemma sort_tokens_perm_eq ts ts' :
  Forall token_wf ts -> in_text_order (sort_tokens ts) -> Permutation ts ts' -> sort_tokens ts = sort_tokens ts'.
Proof.
  intros W O P. apply isort_perm_eq; auto using token_leb_ok.
  intros x y Hx Hy H1 H2. rewrite Forall_forall in W. eapply in_text_order_key_inj; eauto.
  - eapply Permutation_in; [apply sort_tokens_perm|auto].
  - eapply Permutation_in; [apply sort_tokens_perm|auto].
  - apply token_leb_iff; auto.
  - apply token_leb_iff; auto.
Qed.

Lemma skipped_iff a b :
  skipped_token a b = false <->
  (multiword b ->
    (multiword a /\ same_span a b /\ tsub b = tsub a + 1) \/
    (~ (multiword a /\ same_span a b) /\ tsub b = 0)).
Proof.
  unfold skipped_token, multiword, same_span, is_multiword, coincides.
  destruct (trepl b) as [rb|]; simpl.
  2:{ split; auto. intros _ H; congruence. }
  destruct (trepl a) as [ra|]; simpl.
  - destruct (Z.eqb_spec (tstart b) (tstart a)); destruct (Z.eqb_spec (tend b) (tend a)); simpl.
    + destruct (Z.eqb_spec (tsub b) (tsub a + 1)); simpl; split; try discriminate; auto.
      * intros _ _. left. repeat split; auto; congruence.
      * intros H. exfalso. destruct H as [(?&?&?)|(H & ?)]; try congruence.
        apply H. repeat split; auto; congruence.
    + destruct (Z.eqb_spec (tsub b) 0); simpl; split; try discriminate; auto.
      * intros _ _. right. split; auto. intros (?&?&?); congruence.
      * intros H. exfalso. destruct H as [(?&(?&?)&?)|(H & ?)]; congruence.
    + destruct (Z.eqb_spec (tsub b) 0); simpl; split; try discriminate; auto.
      * intros _ _. right. split; auto. intros (?&?&?); congruence.
      * intros H. exfalso. destruct H as [(?&(?&?)&?)|(H & ?)]; congruence.
    + destruct (Z.eqb_spec (tsub b) 0); simpl; split; try discriminate; auto.
      * intros _ _. right. split; auto. intros (?&?&?); congruence.
      * intros H. exfalso. destruct H as [(?&(?&?)&?)|(H & ?)]; congruence.
  - destruct (Z.eqb_spec (tsub b) 0); simpl; split; try discriminate; auto.
    + intros _ _. right. split; auto. intros (?&?&?); congruence.
    + intros H. exfalso. destruct H as [(?&(?&?)&?)|(H & ?)]; congruence.
Qed.

Lemma check_skipped_iff ts : check_for_sequence skipped_token ts = true <-> numbered ts.
Proof.
  rewrite check_for_sequence_iff. unfold numbered.
  split; intros H i a b Ha Hb; apply skipped_iff; eapply H; eauto.
Qed.

(* ------------------------------------------------------------------ *)
(* heads *)

Definition set_heads (t : token) (hd hs : option Z) : token :=
  mkToken (tstart t) (tend t) (tpos t) (tlemma t) (tdeprel t) (tsub t) (trepl t) hd hs (textras t).

(* the head indices after filling *)
Definition filled_pair (st : Z) (hd hs : option Z) : option Z * option Z :=
  match hs, hd with
  | None, None => (None, None)
  | _, _ =>
      if is_minus1 hs || is_minus1 hd then (Some (-1), Some (-1))
      else match hs, hd with
           | Some s, None => (Some (s + st), Some s)
           | None, Some d => (Some d, Some (d - st))
           | Some s, Some d => (Some d, Some s)
           | None, None => (None, None)
           end
  end.

Definition fill (st : Z) (t : token) : token :=
  set_heads t (fst (filled_pair st (thdoc t) (thsent t))) (snd (filled_pair st (thdoc t) (thsent t))).

Lemma with_syntax_ok t dr hd hs : token_wf t ->
  with_syntax t dr hd hs =
  Ok (mkToken (tstart t) (tend t) (tpos t) (tlemma t) dr (tsub t) (trepl t) hd hs (textras t)).
Proof. intros W. unfold with_syntax. apply new_token_ok. split; [exact W|reflexivity]. Qed.

Lemma fill_heads_ok t st t' : token_wf t ->
  (fill_heads t st = Ok t' <-> heads_agree st t /\ t' = fill st t).
Proof.
  intros W. unfold fill_heads, heads_agree, fill, filled_pair, set_heads.
  destruct (thsent t) as [s|] eqn:Es; destruct (thdoc t) as [d|] eqn:Ed; simpl.
  - destruct (Z.eqb_spec s (-1)); destruct (Z.eqb_spec d (-1)); simpl; rewrite ?with_syntax_ok by auto; simpl.
    + split; [intros H; inversion H; split; auto; intros; congruence|intros [_ ->]; auto].
    + split; [intros H; inversion H; split; auto; intros; congruence|intros [_ ->]; auto].
    + split; [intros H; inversion H; split; auto; intros; congruence|intros [_ ->]; auto].
    + destruct (Z.eqb_spec d (s + st)); simpl; rewrite ?with_syntax_ok by auto; simpl.
      * split; [intros H; inversion H; split; auto; intros; congruence|intros [_ ->]; auto].
      * split; [discriminate|]. intros [H _]. exfalso. apply n1. apply H; auto.
  - rewrite orb_false_r. destruct (Z.eqb_spec s (-1)); simpl; rewrite ?with_syntax_ok by auto; simpl.
    + split; [intros H; inversion H; split; auto; intros; congruence|intros [_ ->]; auto].
    + split; [intros H; inversion H; split; auto; intros; congruence|intros [_ ->]; auto].
  - destruct (Z.eqb_spec d (-1)); simpl; rewrite ?with_syntax_ok by auto; simpl.
    + split; [intros H; inversion H; split; auto; intros; congruence|intros [_ ->]; auto].
    + split; [intros H; inversion H; split; auto; intros; congruence|intros [_ ->]; auto].
  - split.
    + intros H; inversion H as [E]. split; [intros; congruence|].
      clear - Es Ed E. subst t'. destruct t; cbn in *; subst; auto.
    + intros [_ ->]. f_equal. clear - Es Ed. destruct t; cbn in *; subst; auto.
Qed.

(* shape of the heads of a token of a constructed document *)
Definition filled (st : Z) (t : token) : Prop :=
  (thdoc t = None /\ thsent t = None) \/
  (exists d h, thdoc t = Some d /\ thsent t = Some h /\ (d = h + st \/ (d = -1 /\ h = -1))).

Lemma fill_filled st t : heads_agree st t -> filled st (fill st t).
Proof.
  unfold heads_agree, filled, fill, filled_pair, set_heads. simpl.
  destruct (thsent t) as [s|] eqn:Es; destruct (thdoc t) as [d|] eqn:Ed; simpl; intros H; auto; right.
  - destruct (Z.eqb_spec s (-1)); destruct (Z.eqb_spec d (-1)); simpl; eauto 8.
  - rewrite orb_false_r. destruct (Z.eqb_spec s (-1)); simpl; eauto 8.
  - destruct (Z.eqb_spec d (-1)); simpl; eauto 8.
    do 2 eexists. repeat split; eauto. lia.
Qed.

Lemma fill_same st t : same_but_heads t (fill st t).
Proof. unfold same_but_heads, fill, set_heads; simpl. auto 10. Qed.

Lemma fill_wf st t : token_wf t -> token_wf (fill st t).
Proof. unfold token_wf, fill, set_heads; simpl. auto. Qed.

Lemma same_but_heads_sym a b : same_but_heads a b -> same_but_heads b a.
Proof. unfold same_but_heads. intuition congruence. Qed.

Lemma same_but_heads_trans a b c : same_but_heads a b -> same_but_heads b c -> same_but_heads a c.
Proof. unfold same_but_heads. intuition congruence. Qed.

Lemma same_but_heads_refl a : same_but_heads a a.
Proof. unfold same_but_heads. auto 10. Qed.

Lemma same_wf a b : same_but_heads a b -> token_wf a -> token_wf b.
Proof.
  unfold same_but_heads, token_wf. intros (E1&E2&E3&E4&E5&E6&E7&E8). rewrite <- E1, <- E2, <- E6, <- E7. auto.
Qed.

Lemma same_before a b a' b' : same_but_heads a a' -> same_but_heads b b' -> before a b -> before a' b'.
Proof.
  unfold same_but_heads, before, same_span.
  intros (E1&E2&_&_&_&E6&_) (F1&F2&_&_&_&F6&_). rewrite E1, E2, E6, F1, F2, F6. auto.
Qed.

Lemma same_in_text_order ts ts' : Forall2 same_but_heads ts ts' -> in_text_order ts -> in_text_order ts'.
Proof.
  unfold in_text_order. intros F H. revert ts' F.
  induction H as [|x l Hx H IH]; intros ts' F; inversion F as [|? y ? l' Hxy F']; subst; constructor; auto.
  rewrite Forall_forall in *. intros z Hz.
  apply In_nth_error in Hz. destruct Hz as [i Hz].
  destruct (Forall2_nth_r _ _ _ _ _ F' Hz) as (w & Hw & E).
  eapply same_before; eauto. apply Hx. eapply nth_error_In; eauto.
Qed.

Lemma same_numbered ts ts' : Forall2 same_but_heads ts ts' -> numbered ts -> numbered ts'.
Proof.
  unfold numbered. intros F H i a b Ha Hb Hm.
  destruct (Forall2_nth_r _ _ _ _ _ F Ha) as (a0 & Ha0 & Ea).
  destruct (Forall2_nth_r _ _ _ _ _ F Hb) as (b0 & Hb0 & Eb).
  unfold same_but_heads, multiword, same_span in *.
  destruct Ea as (E1&E2&_&_&_&E6&E7&_). destruct Eb as (F1&F2&_&_&_&F6&F7&_).
  specialize (H i a0 b0 Ha0 Hb0). rewrite <- E1, <- E2, <- E6, <- E7, <- F1, <- F2, <- F6.
  apply H. congruence.
Qed.

(* ------------------------------------------------------------------ *)
(* tilings *)

Lemma tiles_le a b ss : tiles a b ss -> a <= b.
Proof. induction 1; lia. Qed.

Lemma tiles_app a b c s1 s2 : tiles a b s1 -> tiles b c s2 -> tiles a c (s1 ++ s2).
Proof. induction 1; simpl; auto. intros; constructor; auto. Qed.

Lemma tiles_in a b ss s : tiles a b ss -> In s ss -> a <= sstart s < send s /\ send s <= b.
Proof.
  induction 1 as [|a b s' ss E L H IH]; simpl; [tauto|].
  apply tiles_le in H as H'. intros [->|Hs]; [lia|]. apply IH in Hs. lia.
Qed.

Lemma tiles_wf a b ss : 0 <= a -> tiles a b ss -> Forall sent_wf ss.
Proof.
  intros Ha H. rewrite Forall_forall. intros s Hs. apply (tiles_in _ _ _ _ H) in Hs. unfold sent_wf; lia.
Qed.

Lemma tiles_nil_iff a b : tiles a b [] <-> a = b.
Proof. split; [inversion 1; auto|intros ->; constructor]. Qed.

Lemma tokens_of_length ts s : 0 <= sstart s < send s -> send s <= zlen ts ->
  zlen (tokens_of ts s) = send s - sstart s.
Proof. intros. rewrite <- tokens_of_slice by lia. apply py_slice_length; lia. Qed.

Lemma tokens_of_nth ts s i :
  0 <= sstart s -> (i < Z.to_nat (send s - sstart s))%nat ->
  nth_error (tokens_of ts s) i = nth_error ts (Z.to_nat (sstart s) + i).
Proof.
  intros H1 H2. unfold tokens_of. rewrite nth_error_firstn by lia. apply nth_error_skipn.
Qed.

Lemma tiles_concat ts a b ss : 0 <= a -> b <= zlen ts -> tiles a b ss ->
  concat (map (tokens_of ts) ss) = py_slice ts a b.
Proof.
  intros Ha Hb H. induction H as [a|a b s ss E L H IH]; simpl.
  - rewrite py_slice_empty; auto.
  - rewrite IH by lia. apply tiles_le in H. rewrite <- tokens_of_slice by lia. subst.
    symmetry. apply py_slice_split; lia.
Qed.

(* conversely: concatenating pieces of the right lengths and cutting again *)
Lemma tiles_tokens_of_concat (fss : list (list token)) pre a b ss :
  0 <= a -> tiles a b ss -> zlen pre = a ->
  Forall2 (fun s f => zlen f = send s - sstart s) ss fss ->
  Forall2 (fun s f => tokens_of (pre ++ concat fss) s = f) ss fss.
Proof.
  intros Ha H. revert pre fss. induction H as [a|a b s ss E L H IH]; intros pre fss Hp F;
    inversion F as [|? f ? fss' Hf F']; subst; constructor.
  - rewrite <- tokens_of_slice by lia. simpl. rewrite <- Hp.
    replace (send s) with (zlen pre + zlen f) by lia. apply py_slice_app.
  - assert (Hs : 0 <= send s) by lia.
    specialize (IH Hs (pre ++ f) fss'). simpl.
    rewrite zlen_app in IH. rewrite <- app_assoc in IH. apply IH; auto. lia.
Qed.

Lemma check_sentences_ok n ss :
  Forall sent_wf ss -> (check_sentences n ss = Ok tt <-> (ss <> [] /\ tiles 0 n ss)).
Proof.
  intros W. unfold check_sentences.
  destruct ss as [|s ss]; [simpl; split; [discriminate|tauto]|].
  assert (L : exists l, py_index (s :: ss) (-1) = Ok l /\ l = last (s :: ss) s).
  { eexists. split; [apply py_index_last; congruence|reflexivity]. }
  destruct L as (l & Hl & El). rewrite Hl. cbn [bind].
  assert (Hcheck2 : forall l', check_for_sequence (fun x y : sentence => negb (send x =? sstart y)) l' = true ->
            check_for_sequence (fun x y : sentence => sstart y <? send x) l' = true).
  { intros l'. rewrite !check_for_sequence_iff. intros H i a b Ha Hb. specialize (H i a b Ha Hb).
    apply negb_false_iff in H. lia. }
  assert (Htiles : forall l0 a n, l0 <> [] -> Forall sent_wf l0 ->
            (tiles a n l0 <->
             sstart (hd s l0) = a /\ send (last l0 s) = n /\
             check_for_sequence (fun x y : sentence => negb (send x =? sstart y)) l0 = true)).
  { clear. induction l0 as [|x l0 IH]; intros a n NE W; [congruence|].
    inversion W as [|? ? Wx Wl]; subst.
    destruct l0 as [|y l0].
    - simpl. split.
      + intros H; inversion H as [|? ? ? ? E L T]; subst. inversion T; subst. auto.
      + intros (E1 & E2 & _). subst. constructor; auto; [apply Wx|constructor].
    - change (last (x :: y :: l0) s) with (last (y :: l0) s).
      change (check_for_sequence (fun x0 y0 : sentence => negb (send x0 =? sstart y0)) (x :: y :: l0))
        with (if negb (send x =? sstart y) then false
              else check_for_sequence (fun x0 y0 : sentence => negb (send x0 =? sstart y0)) (y :: l0)).
      change (hd s (x :: y :: l0)) with x.
      split.
      + intros H; inversion H as [|? ? ? ? E L T]; subst.
        apply IH in T; auto; try congruence. destruct T as (T1 & T2 & T3). simpl in T1.
        destruct (Z.eqb_spec (send x) (sstart y)); simpl; [auto|congruence].
      + intros (E1 & E2 & E3). destruct (Z.eqb_spec (send x) (sstart y)); simpl in E3; [|discriminate].
        constructor; auto; [unfold sent_wf in Wx; lia|]. apply IH; auto; congruence. }
  change (py_index (s :: ss) 0) with (Ok s). unfold raise_if. cbn [bind]. rewrite (Htiles (s :: ss) 0 n) by (auto; congruence). rewrite <- El. cbn [hd].
  assert (Ws : sent_wf s) by (inversion W; auto). unfold sent_wf in Ws.
  destruct (n <? send l) eqn:E1; cbn [bind]; [split; [discriminate|intros (_ & _ & ? & _); lia]|].
  destruct (0 <? sstart s) eqn:E2; cbn [bind]; [split; [discriminate|intros (_ & ? & _); lia]|].
  destruct (send l <? n) eqn:E3; cbn [bind]; [split; [discriminate|intros (_ & _ & ? & _); lia]|].
  destruct (check_for_sequence (fun x y : sentence => negb (send x =? sstart y)) (s :: ss)) eqn:E4.
  - rewrite (Hcheck2 _ E4). cbn. split; auto. intros _. repeat split; auto; try congruence; lia.
  - cbn [bind negb]. split; [discriminate|]. intros (_ & _ & _ & ?); congruence.
Qed.

Lemma sort_sents_perm ss : Permutation ss (sort_sents ss).
Proof. apply isort_perm. Qed.

Lemma sent_leb_iff a b : sent_leb a b = true <->
  sstart a < sstart b \/ (sstart a = sstart b /\ send a <= send b).
Proof.
  unfold sent_leb, sent_cmp.
  destruct (Z.compare_spec (sstart a) (sstart b)); destruct (Z.compare_spec (send a) (send b));
    split; intros; try discriminate; auto; lia.
Qed.

Lemma sent_leb_ok : leb_ok sent_leb.
Proof. split; intros; rewrite ?sent_leb_iff in *; lia. Qed.

Lemma sort_sents_perm_eq ss ss' : Permutation ss ss' -> sort_sents ss = sort_sents ss'.
Proof.
  intros P. apply isort_perm_eq; auto using sent_leb_ok.
  intros [a b] [c d] _ _. rewrite !sent_leb_iff. simpl. intros. f_equal; lia.
Qed.

Lemma tiles_sorted a b ss : tiles a b ss -> sort_sents ss = ss.
Proof.
  intros H. apply isort_id. induction H as [|a b s ss E L H IH]; constructor; auto.
  rewrite Forall_forall. intros x Hx. apply (tiles_in _ _ _ _ H) in Hx. apply sent_leb_iff. lia.
Qed.

(* ------------------------------------------------------------------ *)
(* filling a whole document *)

Lemma fill_sentence_ok ts s f : Forall token_wf ts -> sent_wf s ->
  (fill_sentence_heads ts s = Ok f <->
   Forall (heads_agree (sstart s)) (tokens_of ts s) /\ f = map (fill (sstart s)) (tokens_of ts s)).
Proof.
  intros W Ws. unfold fill_sentence_heads, sent_wf in *. rewrite tokens_of_slice by lia.
  rewrite mapM_ok.
  assert (Wt : Forall token_wf (tokens_of ts s)) by (apply Forall_firstn, Forall_skipn; auto).
  revert f Wt. generalize (tokens_of ts s) as l. induction l as [|t l IH]; intros f Wt; simpl.
  - split; [inversion 1; auto|intros [_ ->]; auto].
  - inversion Wt as [|? ? Wt1 Wt2]; subst. split.
    + intros H; inversion H as [|? y ? l' Hy H']; subst.
      apply fill_heads_ok in Hy; auto. apply IH in H'; auto. destruct Hy, H'; subst. auto.
    + intros [Ha ->]. inversion Ha; subst. constructor; [apply fill_heads_ok; auto|apply IH; auto].
Qed.

Lemma fill_token_heads_ok ts ss fs : Forall token_wf ts -> Forall sent_wf ss ->
  (fill_token_heads ts ss = Ok fs <->
   (forall s, In s ss -> Forall (heads_agree (sstart s)) (tokens_of ts s)) /\
   fs = concat (map (fun s => map (fill (sstart s)) (tokens_of ts s)) ss)).
Proof.
  intros W Ws. revert fs. induction Ws as [|s ss Hs Ws IH]; intros fs; simpl.
  - split; [intros H; inversion H; split; [tauto|auto]|intros [_ ->]; auto].
  - rewrite bind_ok_iff. split.
    + intros (f & Hf & H). apply bind_ok_iff in H. destruct H as (fs' & Hfs & H).
      inversion H; subst. apply fill_sentence_ok in Hf; auto. apply IH in Hfs.
      destruct Hf as [H1 ->]. destruct Hfs as [H2 ->]. split; auto. intros x [->|]; auto.
    + intros [H ->]. exists (map (fill (sstart s)) (tokens_of ts s)). split.
      * apply fill_sentence_ok; auto.
      * apply bind_ok_iff. eexists. split; [apply IH; split; auto|reflexivity].
Qed.

(* the filled list of a tiled document *)
Definition fill_all (ts : list token) (ss : list sentence) : list token :=
  concat (map (fun s => map (fill (sstart s)) (tokens_of ts s)) ss).

Lemma fill_all_same ts ss : tiles 0 (zlen ts) ss -> Forall2 same_but_heads ts (fill_all ts ss).
Proof.
  intros H. pose proof (tiles_concat ts 0 (zlen ts) ss) as C.
  rewrite py_slice_all in C. rewrite <- C at 1; auto; try lia.
  unfold fill_all. apply Forall2_concat. clear. induction ss as [|s ss IH]; simpl; constructor; auto.
  induction (tokens_of ts s); simpl; constructor; auto. apply fill_same.
Qed.

Lemma fill_all_tokens_of ts ss s : tiles 0 (zlen ts) ss -> In s ss ->
  tokens_of (fill_all ts ss) s = map (fill (sstart s)) (tokens_of ts s).
Proof.
  intros H Hs.
  assert (F : Forall2 (fun s f => tokens_of ([] ++ fill_all ts ss) s = f) ss
                      (map (fun s => map (fill (sstart s)) (tokens_of ts s)) ss)).
  { unfold fill_all. apply tiles_tokens_of_concat with (a := 0) (b := zlen ts); auto; try lia.
    apply Forall2_map_r.
    assert (I : forall s, In s ss -> 0 <= sstart s < send s /\ send s <= zlen ts)
      by (intros s' Hs'; apply (tiles_in _ _ _ _ H Hs')).
    clear -I. induction ss as [|s ss IH]; constructor.
    - rewrite zlen_map. apply tokens_of_length; apply I; simpl; auto.
    - apply IH. intros; apply I; simpl; auto. }
  simpl in F. apply Forall2_map_r in F.
  apply In_nth_error in Hs. destruct Hs as [i Hi].
  destruct (Forall2_nth _ _ _ _ _ F Hi) as (s' & Hs' & E). congruence.
Qed.

Lemma fill_all_length ts ss : tiles 0 (zlen ts) ss -> length (fill_all ts ss) = length ts.
Proof. intros H. symmetry. eapply Forall2_length', fill_all_same; auto. Qed.

(* ------------------------------------------------------------------ *)
(* the document constructor *)

Lemma new_wordlist_ok ts ss res : Forall token_wf ts -> Forall sent_wf ss -> ss <> [] ->
  (new_wordlist ts (Some ss) = Ok res <->
   in_text_order (sort_tokens ts) /\ numbered (sort_tokens ts) /\
   (forall s, In s ss -> Forall (heads_agree (sstart s)) (tokens_of (sort_tokens ts) s)) /\
   res = fill_all (sort_tokens ts) ss).
Proof.
  intros W Ws NE. unfold new_wordlist. destruct ss as [|s ss]; [congruence|].
  unfold raise_if.
  pose proof (check_intersects_iff ts W) as HI. pose proof (check_skipped_iff (sort_tokens ts)) as HS.
  destruct (check_for_sequence intersects (sort_tokens ts)); cbn [bind negb].
  2:{ split; [discriminate|]. intros (H & _). apply HI in H. discriminate. }
  destruct (check_for_sequence skipped_token (sort_tokens ts)); cbn [bind negb].
  2:{ split; [discriminate|]. intros (_ & H & _). apply HS in H. discriminate. }
  rewrite fill_token_heads_ok by (auto using sort_tokens_wf).
  unfold fill_all. split.
  - intros [H1 H2]. repeat split; auto; [apply HI|apply HS]; auto.
  - intros (_ & _ & H1 & H2). auto.
Qed.

(* the sentences Document uses *)
Definition given_sents (n : Z) (o : option (list sentence)) : list sentence :=
  match o with None => [mkSent 0 n] | Some ss => ss end.

Lemma new_document_false_ok text ts o d : Forall token_wf ts -> sents_wf o -> ts <> [] ->
  (new_document text ts o false = Ok d <->
   let st := sort_tokens ts in
   let ss := sort_sents (given_sents (zlen ts) o) in
   in_text_order st /\ numbered st /\ tiles 0 (zlen ts) ss /\
   (forall s, In s ss -> Forall (heads_agree (sstart s)) (tokens_of st s)) /\
   d = mkDoc text (fill_all st ss) ss).
Proof.
  intros W Wo NE. unfold new_document. destruct ts as [|t ts]; [congruence|].
  set (tl := t :: ts) in *.
  assert (Hn : 0 < zlen tl) by (unfold tl; rewrite zlen_cons; pose proof (zlen_nonneg ts); lia).
  assert (G : (match o with
               | None => do s <- new_sentence 0 (zlen tl); Ok [s]
               | Some ss => Ok ss
               end) = Ok (given_sents (zlen tl) o)).
  { destruct o; [reflexivity|]. assert (E : new_sentence 0 (zlen tl) = Ok (mkSent 0 (zlen tl))).
    { apply new_sentence_ok. split; auto; lia. }
    rewrite E. reflexivity. }
  rewrite G. cbn [bind].
  assert (Wg : Forall sent_wf (sort_sents (given_sents (zlen tl) o))).
  { eapply Permutation_Forall; [apply sort_sents_perm|]. destruct o; simpl; auto.
    repeat constructor; simpl; lia. }
  set (ss := sort_sents (given_sents (zlen tl) o)) in *.
  destruct ss as [|s ss'] eqn:Ess.
  - split.
    + intros H. apply bind_ok_iff in H. destruct H as (r & _ & H). simpl in H. discriminate.
    + intros (_ & _ & H & _). inversion H.
  - rewrite bind_ok_iff. rewrite <- Ess in *. split.
    + intros (r & Hr & H). apply new_wordlist_ok in Hr; auto; [|congruence].
      destruct Hr as (H1 & H2 & H3 & H4).
      apply bind_ok_iff in H. destruct H as (u & Hu & H). destruct u.
      apply check_sentences_ok in Hu; auto. inversion H; subst. tauto.
    + intros (H1 & H2 & H3 & H4 & H5). exists (fill_all (sort_tokens tl) ss). split.
      * apply new_wordlist_ok; auto. congruence.
      * apply bind_ok_iff. exists tt. split; [apply check_sentences_ok; auto; split; auto; congruence|].
        simpl. congruence.
Qed.

Lemma new_document_true_ok text ts o d :
  new_document text ts o true = Ok d <->
  new_document text ts o false = Ok d /\ validate_all (dtokens d) (dsents d) = Ok tt.
Proof.
  unfold new_document. destruct ts as [|t ts].
  - split; [|tauto]. intros H. split; auto. apply bind_ok_iff in H. destruct H as (r & _ & H).
    inversion H; subst. reflexivity.
  - destruct (match o with None => _ | Some ss => Ok ss end) as [ss0|]; simpl; [|split; [discriminate|tauto]].
    destruct (new_wordlist (t :: ts) (Some (sort_sents ss0))) as [r|]; simpl; [|split; [discriminate|tauto]].
    destruct (check_sentences (zlen (t :: ts)) (sort_sents ss0)); simpl; [|split; [discriminate|tauto]].
    destruct (validate_all r (sort_sents ss0)) as [[]|] eqn:V; simpl.
    + split; [intros H; inversion H; subst; auto|intros [H _]; auto].
    + split; [discriminate|]. intros [H V']. inversion H; subst. simpl in V'. congruence.
Qed.

Lemma new_document_empty text o v : new_document text [] o v = Ok (mkDoc text [] []).
Proof.
  assert (H : forall l, fill_token_heads [] l = Ok []).
  { induction l as [|x l IH]; simpl; auto.
    unfold fill_sentence_heads. replace (py_slice [] (sstart x) (send x)) with (@nil token).
    - simpl. rewrite IH. auto.
    - unfold py_slice. rewrite skipn_nil, firstn_nil. auto. }
  unfold new_document, new_wordlist. change (sort_tokens []) with (@nil token).
  destruct o as [[|s ss]|]; cbn -[fill_token_heads]; auto. rewrite H. auto.
Qed.

(* what is known of every document the constructor returns *)
Record doc_inv (d : document) : Prop := {
  inv_wf : Forall token_wf (dtokens d);
  inv_order : in_text_order (dtokens d);
  inv_numbered : numbered (dtokens d);
  inv_tiles : tiles 0 (zlen (dtokens d)) (dsents d);
  inv_filled : forall s, In s (dsents d) -> Forall (filled (sstart s)) (tokens_of (dtokens d) s)
}.

Lemma zlen_fill_all ts ss : tiles 0 (zlen ts) ss -> zlen (fill_all ts ss) = zlen ts.
Proof. intros H. unfold zlen. rewrite fill_all_length; auto. Qed.

Lemma zlen_sort ts : zlen (sort_tokens ts) = zlen ts.
Proof. unfold zlen, sort_tokens. rewrite isort_length. auto. Qed.

Lemma new_document_inv text ts o v d : Forall token_wf ts -> sents_wf o ->
  new_document text ts o v = Ok d -> doc_inv d.
Proof.
  intros W Wo H.
  assert (H' : new_document text ts o false = Ok d).
  { destruct v; auto. apply new_document_true_ok in H. tauto. }
  clear H. destruct ts as [|t ts].
  { rewrite new_document_empty in H'. inversion H'; subst. split; simpl; try tauto; try solve [constructor].
    unfold numbered. intros [|i] a b; simpl; discriminate. }
  apply new_document_false_ok in H'; auto; [|congruence].
  cbv zeta in H'. revert H'. set (tl := t :: ts) in *. generalize (sort_sents (given_sents (zlen tl) o)) as ss.
  intros ss (H1 & H2 & H3 & H4 & ->).
  assert (Z1 := zlen_sort tl). rewrite <- Z1 in H3.
  assert (S := fill_all_same _ _ H3). split; simpl.
  - apply sort_tokens_wf in W. clear -S W. induction S; inversion W; subst; constructor; eauto using same_wf.
  - eapply same_in_text_order; eauto.
  - eapply same_numbered; eauto.
  - rewrite zlen_fill_all; auto.
  - intros s Hs. rewrite fill_all_tokens_of by auto. specialize (H4 _ Hs).
    clear -H4. induction H4; simpl; constructor; auto. apply fill_filled; auto.
Qed.
