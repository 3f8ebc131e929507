(* Documents assembled from sentence blocks. *)
From Coq Require Import String ZArith NArith Bool Lia Permutation Sorted List.
From Verif Require Import Base BaseFacts Model_Datamodel Model_Conllu Spec_Datamodel Spec_Conllu
  Proofs_Datamodel Proofs_Syntax Proofs_Datamodel2 Proofs_Datamodel4 Proofs_Conllu.
Import ListNotations.
Open Scope Z_scope.

Notation block := (list (group irow)) (only parsing).
Definition block_ok (b : block) : Prop := b <> [] /\ Forall group_ok b.

(* ------------------------------------------------------------------ *)
(* Facts about the layout                                               *)

Lemma group_text_len g : zlen (i_text (surface_row g)) <= zlen (group_text g).
Proof. unfold group_text. rewrite zlen_app. pose proof (zlen_nonneg (if i_space (surface_row g) then [chSP] else [])). lia. Qed.

Lemma zlen_pos {A} (l : list A) : l <> [] -> 0 < zlen l.
Proof. destruct l; [congruence|]. intros _. rewrite zlen_cons. pose proof (zlen_nonneg l). lia. Qed.

Lemma range_tokens_in a b sub ws t : In t (range_tokens a b sub ws) ->
  tstart t = a /\ tend t = b /\ thdoc t = None /\ trepl t <> None /\ sub <= tsub t < sub + zlen ws.
Proof.
  revert sub; induction ws as [|w ws IH]; intros sub; simpl; [tauto|].
  rewrite zlen_cons. pose proof (zlen_nonneg ws).
  intros [<-|H']; [simpl; repeat split; auto; try discriminate; lia|].
  apply IH in H'. destruct H' as (?&?&?&?&?). repeat split; auto; lia.
Qed.

Lemma group_tokens_in off g t : In t (group_tokens off g) ->
  tstart t = off /\ tend t = off + zlen (i_text (surface_row g)) /\ thdoc t = None /\ (trepl t = None -> tsub t = 0) /\ 0 <= tsub t.
Proof.
  destruct g as [r|r ws]; simpl.
  - intros [<-|[]]. simpl. repeat split; auto; lia.
  - intros H. apply range_tokens_in in H. destruct H as (?&?&?&?&?). repeat split; auto; try congruence; lia.
Qed.

Lemma layout_in off gs t : In t (layout off gs) -> Forall group_ok gs -> 
  off <= tstart t < tend t /\ tend t <= off + zlen (surface gs) /\ thdoc t = None /\ (trepl t = None -> tsub t = 0).
Proof.
  revert off; induction gs as [|g gs IH]; intros off; simpl; [tauto|].
  intros H F. inversion F as [|? ? [G1 G2] F']; subst.
  assert (ES : surface (g :: gs) = group_text g ++ surface gs) by reflexivity. rewrite ES, zlen_app.
  pose proof (group_text_len g). pose proof (zlen_nonneg (surface gs)). apply zlen_pos in G1.
  apply in_app_or in H. destruct H as [H|H].
  - apply group_tokens_in in H. destruct H as (?&?&?&?&?). repeat split; auto; lia.
  - apply IH in H; auto. destruct H as (?&?&?&?). repeat split; auto; lia.
Qed.

Lemma layout_wf off gs : 0 <= off -> Forall group_ok gs -> Forall token_wf (layout off gs).
Proof.
  intros H F. apply Forall_forall. intros t Ht. apply layout_in in Ht; auto. unfold token_wf. destruct Ht as (?&?&?&?).
  split; [lia|auto].
Qed.

Lemma ord_pairs_app {A} (R : A -> A -> Prop) l1 l2 :
  ForallOrdPairs R l1 -> ForallOrdPairs R l2 -> (forall x y, In x l1 -> In y l2 -> R x y) -> ForallOrdPairs R (l1 ++ l2).
Proof.
  induction 1 as [|x l1 F H IH]; simpl; auto. intros H2 C. constructor.
  - apply Forall_app; split; auto. apply Forall_forall. auto.
  - apply IH; auto.
Qed.

Lemma range_tokens_order a b sub ws : in_text_order (range_tokens a b sub ws).
Proof.
  revert sub; induction ws as [|w ws IH]; intros sub; simpl; constructor; [|apply IH].
  apply Forall_forall. intros t H. apply range_tokens_in in H. right. unfold same_span. simpl. lia.
Qed.

Lemma layout_order off gs : Forall group_ok gs -> in_text_order (layout off gs).
Proof.
  intros F. revert off. induction F as [|g gs G F IH]; intros off; simpl; [constructor|].
  apply ord_pairs_app; auto.
  - destruct g; simpl; [repeat constructor|apply range_tokens_order].
  - apply IH.
  - intros x y Hx Hy. apply group_tokens_in in Hx. apply layout_in in Hy; auto. pose proof (group_text_len g).
    left. lia.
Qed.

Lemma Sorted_app' {A} (R : A -> A -> Prop) l1 l2 :
  Sorted R l1 -> Sorted R l2 -> (forall x, In x l1 -> HdRel R x l2) -> Sorted R (l1 ++ l2).
Proof.
  induction 1 as [|x l1 S IH H]; simpl; auto. intros S2 C. constructor; auto.
  destruct l1 as [|y l1]; simpl; [apply C; auto|]. inversion H; subst. constructor; auto.
Qed.

Lemma range_tokens_numbered a b sub ws : Sorted (fun x y => skipped_token x y = false) (range_tokens a b sub ws).
Proof.
  revert sub; induction ws as [|w ws IH]; intros sub; simpl; constructor; [apply IH|].
  destruct ws as [|w' ws]; simpl; constructor. apply skipped_iff. intros _. left.
  unfold multiword, same_span; simpl. repeat split; auto; discriminate.
Qed.

Lemma layout_hd off gs t l : Forall group_ok gs -> layout off gs = t :: l -> tsub t = 0 /\ tstart t = off.
Proof.
  intros F. destruct gs as [|g gs]; simpl; [discriminate|]. inversion F as [|? ? [G1 G2] F']; subst.
  destruct g as [r|r [|w ws]]; simpl; try congruence; intros E; inversion E; subst; simpl; auto.
Qed.

Lemma layout_numbered off gs : Forall group_ok gs -> numbered (layout off gs).
Proof.
  intros F. apply check_skipped_iff, check_for_sequence_sorted.
  revert off. induction F as [|g gs G F IH]; intros off; simpl; [constructor|].
  apply Sorted_app'; auto.
  - destruct g; simpl; [repeat constructor|apply range_tokens_numbered].
  - intros x Hx. apply group_tokens_in in Hx. destruct (layout _ gs) as [|y l] eqn:E; constructor.
    apply skipped_iff. intros M. right. destruct (layout_hd _ _ _ _ F E) as [S1 S2]. split; auto.
    intros (_ & E1 & E2). pose proof (group_text_len g). destruct G as [G _]. apply zlen_pos in G. lia.
Qed.

(* ------------------------------------------------------------------ *)
(* Bounds                                                               *)

Lemma block_ok_count b : block_ok b -> 0 < count b.
Proof. intros [N F]. apply count_pos; auto. Qed.

Lemma bounds_tiles a acc : Forall block_ok acc -> tiles a (a + count (concat acc)) (bounds a acc).
Proof.
  intros F. revert a. induction F as [|b acc B F IH]; intros a; simpl.
  - change (count []) with 0. rewrite Z.add_0_r. constructor.
  - rewrite count_app. apply block_ok_count in B as C. constructor; simpl; auto; try lia.
    replace (a + (count b + count (concat acc))) with (a + count b + count (concat acc)) by lia. apply IH.
Qed.

Lemma blocks_groups acc : Forall block_ok acc -> Forall group_ok (concat acc).
Proof. induction 1 as [|b acc [_ B] F IH]; simpl; auto. apply Forall_app; auto. Qed.

Definition sent_at (acc1 : list block) (b : block) : sentence :=
  mkSent (count (concat acc1)) (count (concat acc1) + count b).

Lemma bounds_split acc1 b acc2 :
  bounds 0 (acc1 ++ b :: acc2) = bounds 0 acc1 ++ sent_at acc1 b :: bounds (count (concat acc1) + count b) acc2.
Proof. rewrite bounds_app. simpl. reflexivity. Qed.

Lemma in_bounds acc s : In s (bounds 0 acc) -> exists acc1 b acc2, acc = acc1 ++ b :: acc2 /\ s = sent_at acc1 b.
Proof.
  assert (G : forall acc pre, In s (bounds (count (concat pre)) acc) ->
              exists acc1 b acc2, pre ++ acc = acc1 ++ b :: acc2 /\ s = sent_at acc1 b).
  { clear acc. induction acc as [|b acc IH]; intros pre; simpl; [tauto|]. intros [<-|H].
    - exists pre, b, acc. auto.
    - specialize (IH (pre ++ [b])). rewrite concat_app, count_app in IH. simpl in IH. rewrite app_nil_r in IH.
      destruct (IH H) as (a1 & b' & a2 & E & Es). exists a1, b', a2. rewrite <- app_assoc in E. auto. }
  intros H. destruct (G acc [] H) as (a1 & b & a2 & E & Es). eauto.
Qed.

Lemma tokens_of_block acc1 b acc2 :
  tokens_of (layout 0 (concat (acc1 ++ b :: acc2))) (sent_at acc1 b) = layout (zlen (surface (concat acc1))) b.
Proof.
  rewrite concat_app. simpl. rewrite !layout_app. unfold tokens_of, sent_at. simpl.
  pose proof (count_nonneg (concat acc1)). pose proof (count_nonneg b).
  replace (Z.to_nat (count (concat acc1))) with (length (layout 0 (concat acc1))) by (unfold count, zlen; lia).
  rewrite skipn_app, skipn_all, Nat.sub_diag. simpl.
  replace (Z.to_nat (count (concat acc1) + count b - count (concat acc1)))
    with (length (layout (zlen (surface (concat acc1))) b)).
  2:{ rewrite (layout_length _ 0). unfold count, zlen in *. lia. }
  rewrite firstn_app, firstn_all, Nat.sub_diag. simpl. apply app_nil_r.
Qed.

(* ------------------------------------------------------------------ *)
(* The document of some blocks                                          *)

Definition raw_doc (acc : list block) : document :=
  mkDoc (surface (concat acc)) (fill_all (layout 0 (concat acc)) (bounds 0 acc)) (bounds 0 acc).

Lemma layout_nonempty acc off : Forall block_ok acc -> acc <> [] -> layout off (concat acc) <> [].
Proof.
  intros F N E. destruct acc as [|b acc]; [congruence|]. inversion F as [|? ? B F']; subst.
  apply block_ok_count in B. pose proof (count_layout off (concat (b :: acc))) as C. rewrite E in C.
  simpl in C. rewrite count_app in C. pose proof (count_nonneg (concat acc)). change (zlen (@nil token)) with 0 in C. lia.
Qed.

Lemma heads_agree_nodoc st t : thdoc t = None -> heads_agree st t.
Proof. unfold heads_agree. congruence. Qed.

Lemma doc_of_false acc : Forall block_ok acc -> acc <> [] ->
  new_document (surface (concat acc)) (layout 0 (concat acc)) (Some (bounds 0 acc)) false = Ok (raw_doc acc).
Proof.
  intros F N. pose proof (blocks_groups _ F) as G. pose proof (bounds_tiles 0 acc F) as T. simpl in T.
  assert (W : Forall token_wf (layout 0 (concat acc))) by (apply layout_wf; auto; lia).
  apply new_document_false_ok; auto.
  - apply (tiles_wf 0 _ _ ltac:(lia) T).
  - apply layout_nonempty; auto.
  - cbv zeta. simpl given_sents. rewrite in_text_order_sort by (auto using layout_order).
    rewrite (tiles_sorted _ _ _ T). repeat split; auto using layout_order, layout_numbered.
    intros s Hs. apply Forall_forall. intros t Ht. apply heads_agree_nodoc.
    apply tokens_of_incl in Ht. apply layout_in in Ht; tauto.
Qed.

Lemma raw_doc_inv acc : Forall block_ok acc -> acc <> [] -> doc_inv (raw_doc acc).
Proof.
  intros F N. pose proof (doc_of_false acc F N) as H. pose proof (blocks_groups _ F) as G.
  pose proof (bounds_tiles 0 acc F) as T. simpl in T.
  eapply new_document_inv in H; auto.
  - apply layout_wf; auto; lia.
  - apply (tiles_wf 0 _ _ ltac:(lia) T).
Qed.

Lemma raw_doc_tokens_of acc1 b acc2 : Forall block_ok (acc1 ++ b :: acc2) ->
  tokens_of (dtokens (raw_doc (acc1 ++ b :: acc2))) (sent_at acc1 b) =
  map (fill (count (concat acc1))) (layout (zlen (surface (concat acc1))) b).
Proof.
  intros F. unfold raw_doc. cbn [dtokens]. rewrite fill_all_tokens_of.
  - rewrite tokens_of_block. auto.
  - apply (bounds_tiles 0 _ F).
  - rewrite bounds_split. apply in_or_app. right. left. auto.
Qed.

Lemma doc_of_ok acc d : Forall block_ok acc -> acc <> [] ->
  (doc_of acc [] = Ok d <->
   d = raw_doc acc /\
   forall acc1 b acc2, acc = acc1 ++ b :: acc2 ->
     well_parsed (map (fill (count (concat acc1))) (layout (zlen (surface (concat acc1))) b))).
Proof.
  intros F N. unfold doc_of. rewrite app_nil_r. pose proof (doc_of_false acc F N) as H0.
  pose proof (blocks_groups _ F) as G. pose proof (bounds_tiles 0 acc F) as T. simpl in T.
  rewrite accepts_exactly_trees.
  2:{ apply layout_wf; auto; lia. }
  2:{ apply (tiles_wf 0 _ _ ltac:(lia) T). }
  rewrite H0. split.
  - intros [E V]. assert (d = raw_doc acc) by congruence. subst d. split; auto.
    intros acc1 b acc2 ->. rewrite <- (raw_doc_tokens_of acc1 b acc2 F). apply V.
    unfold raw_doc. cbn [dsents]. rewrite bounds_split. apply in_or_app. right. left. auto.
  - intros [-> V]. split; auto. intros s Hs. unfold raw_doc in Hs. cbn [dsents] in Hs.
    apply in_bounds in Hs. destruct Hs as (acc1 & b & acc2 & -> & ->).
    rewrite raw_doc_tokens_of by auto. apply (V acc1 b acc2). auto.
Qed.

(* words without a sentence are refused *)
Lemma doc_of_left acc lf : Forall block_ok acc -> Forall group_ok lf -> lf <> [] -> exists e, doc_of acc lf = Err e.
Proof.
  intros F G N. destruct (doc_of acc lf) as [d|e] eqn:E; [|eauto]. exfalso.
  unfold doc_of in E. pose proof (blocks_groups _ F) as G'. pose proof (bounds_tiles 0 acc F) as T. simpl in T.
  pose proof (count_pos lf G N) as P.
  assert (NE : layout 0 (concat acc ++ lf) <> []).
  { intros X. pose proof (count_app (concat acc) lf) as C. unfold count at 1 in C. rewrite X in C.
    pose proof (count_nonneg (concat acc)). change (zlen (@nil token)) with 0 in C. lia. }
  apply new_document_any_false in E. apply new_document_false_ok in E; auto.
  - cbv zeta in E. simpl given_sents in E. destruct E as (_ & _ & T' & _).
    rewrite (tiles_sorted _ _ _ T) in T'. pose proof (tiles_end_unique _ _ _ _ T T') as X.
    change (zlen (layout 0 (concat acc ++ lf))) with (count (concat acc ++ lf)) in X.
    rewrite count_app in X. lia.
  - apply layout_wf; [lia|]. apply Forall_app; auto.
  - apply (tiles_wf 0 _ _ ltac:(lia) T).
Qed.

(* ------------------------------------------------------------------ *)
(* What a sentence shows                                                *)

Definition shift (off : Z) (t : token) : token :=
  mkToken (tstart t + off) (tend t + off) (tpos t) (tlemma t) (tdeprel t) (tsub t) (trepl t) (thdoc t) (thsent t) (textras t).

Lemma range_tokens_shift k a b sub ws : range_tokens (a + k) (b + k) sub ws = map (shift k) (range_tokens a b sub ws).
Proof. revert sub; induction ws as [|w ws IH]; intros; simpl; auto. rewrite IH. auto. Qed.

Lemma layout_shift k off gs : layout (off + k) gs = map (shift k) (layout off gs).
Proof.
  revert off; induction gs as [|g gs IH]; intros off; simpl; auto. rewrite map_app. f_equal.
  - destruct g as [r|r ws]; simpl.
    + unfold shift, row_token; simpl. do 2 f_equal; lia.
    + rewrite <- range_tokens_shift. f_equal; lia.
  - rewrite <- IH. f_equal; lia.
Qed.

Lemma layout_shift0 off gs : layout off gs = map (shift off) (layout 0 gs).
Proof. rewrite <- layout_shift. f_equal. Qed.

Lemma py_slice_mid {A} (pre m post : list A) x y : 0 <= x <= y -> y <= zlen m ->
  py_slice (pre ++ m ++ post) (x + zlen pre) (y + zlen pre) = py_slice m x y.
Proof.
  intros H1 H2. pose proof (zlen_nonneg pre). pose proof (zlen_nonneg post).
  rewrite !py_slice_inside by (rewrite ?zlen_app; lia).
  replace (Z.to_nat (y + zlen pre) - Z.to_nat (x + zlen pre))%nat with (Z.to_nat y - Z.to_nat x)%nat by lia.
  replace (Z.to_nat (x + zlen pre)) with (length pre + Z.to_nat x)%nat by (unfold zlen in *; lia).
  rewrite skipn_app. replace (length pre + Z.to_nat x - length pre)%nat with (Z.to_nat x) by lia.
  rewrite skipn_all2 by lia. simpl. rewrite skipn_app.
  replace (Z.to_nat x - length m)%nat with 0%nat by (unfold zlen in *; lia). simpl.
  rewrite firstn_app, skipn_length. unfold zlen in *.
  replace (Z.to_nat y - Z.to_nat x - (length m - Z.to_nat x))%nat with 0%nat by lia. simpl. apply app_nil_r.
Qed.

Definition block_view (b : block) :=
  (map (token_view 0) (layout 0 b), map (text_of (surface b)) (layout 0 b),
   py_slice (surface b) 0 (match rev (layout 0 b) with [] => 0 | t :: _ => tend t end)).

Lemma fill_thsent st t : thdoc t = None -> thsent (fill st t) = thsent t.
Proof.
  intros H. unfold fill, filled_pair. rewrite H. simpl. destruct (thsent t) as [h|]; simpl; auto.
  rewrite orb_false_r. destruct (Z.eqb_spec h (-1)); subst; auto.
Qed.

Lemma view_of_fill_shift base st off t : thdoc t = None ->
  token_view (base + off) (fill st (shift off t)) = token_view base t.
Proof.
  intros H. pose proof (fill_thsent st (shift off t) H) as E.
  unfold token_view. rewrite E. unfold fill, shift; simpl.
  replace (tstart t + off - (base + off)) with (tstart t - base) by lia.
  replace (tend t + off - (base + off)) with (tend t - base) by lia. auto.
Qed.

Lemma sentence_view_block acc1 b acc2 : Forall block_ok (acc1 ++ b :: acc2) ->
  sentence_view (raw_doc (acc1 ++ b :: acc2)) (sent_at acc1 b) = block_view b.
Proof.
  intros F. unfold sentence_view. cbv zeta. rewrite raw_doc_tokens_of by auto.
  assert (B : block_ok b) by (rewrite Forall_forall in F; apply F, in_or_app; simpl; auto).
  rewrite layout_shift0. set (off := zlen (surface (concat acc1))). set (st := count (concat acc1)).
  unfold raw_doc. cbn [dtext].
  assert (ES : surface (concat (acc1 ++ b :: acc2)) = surface (concat acc1) ++ surface b ++ surface (concat acc2)).
  { rewrite concat_app. simpl. rewrite !surface_app. auto. }
  rewrite ES.
  assert (IN : forall t, In t (layout 0 b) -> 0 <= tstart t < tend t /\ tend t <= zlen (surface b) /\ thdoc t = None).
  { intros t Ht. apply layout_in in Ht; [|apply B]. simpl in Ht. tauto. }
  assert (HD : match layout 0 b with [] => 0 | t :: _ => tstart t end = 0).
  { destruct (layout 0 b) as [|t l] eqn:E; auto. apply layout_hd in E; [tauto|apply B]. }
  assert (BASE : match map (fill st) (map (shift off) (layout 0 b)) with [] => 0 | t :: _ => tstart t end
                 = match layout 0 b with [] => 0 | _ => off end).
  { destruct (layout 0 b) as [|t l] eqn:E; auto. simpl. simpl in HD. lia. }
  rewrite BASE.
  assert (NE : layout 0 b <> []).
  { intros E. apply block_ok_count in B. unfold count in B. rewrite E in B. change (zlen (@nil token)) with 0 in B. lia. }
  replace (match layout 0 b with [] => 0 | _ => off end) with off by (destruct (layout 0 b); congruence).
  unfold block_view. f_equal; [f_equal|].
  - rewrite !map_map. apply map_ext_in. intros t Ht.
    rewrite <- (view_of_fill_shift 0 st off t) by (apply IN; auto). simpl. auto.
  - rewrite !map_map. apply map_ext_in. intros t Ht. unfold text_of, doc_text_of, fill, shift; simpl.
    destruct (trepl t); auto. unfold off. apply py_slice_mid; apply IN in Ht; lia.
  - rewrite <- !map_rev. destruct (rev (layout 0 b)) as [|t l] eqn:E.
    { exfalso. apply NE. rewrite <- (rev_involutive (layout 0 b)), E. auto. }
    simpl. assert (Ht : In t (layout 0 b)) by (apply in_rev; rewrite E; simpl; auto).
    replace off with (0 + off) at 1 by lia. unfold off. apply py_slice_mid; apply IN in Ht; lia.
Qed.

Lemma bounds_views acc : Forall block_ok acc -> document_views (raw_doc acc) = map block_view acc.
Proof.
  intros F. unfold document_views. change (dsents (raw_doc acc)) with (bounds 0 acc).
  assert (G : forall acc2 acc1, acc1 ++ acc2 = acc ->
    map (sentence_view (raw_doc acc)) (bounds (count (concat acc1)) acc2) = map block_view acc2).
  { induction acc2 as [|b acc2 IH]; intros acc1 E; simpl; auto. f_equal.
    - rewrite <- E. apply sentence_view_block. rewrite E; auto.
    - specialize (IH (acc1 ++ [b])). rewrite concat_app, count_app in IH. simpl in IH. rewrite app_nil_r in IH.
      apply IH. rewrite <- app_assoc. auto. }
  apply (G acc []). auto.
Qed.

(* ------------------------------------------------------------------ *)
(* Acceptance without negative heads does not depend on the place       *)

Definition row_nonneg (r : irow) : Prop := forall h, i_head r = Some h -> 0 <= h.
Definition group_nonneg (g : group irow) : Prop :=
  match g with GWord r => row_nonneg r | GRange _ ws => Forall row_nonneg ws end.

Definition block_heads (b : block) : list (option Z) := map thsent (layout 0 b).
Definition block_good (b : block) : Prop := unparsed (block_heads b) \/ dependency_tree (block_heads b).

Lemma compute_head_nonneg r h : row_nonneg r -> compute_head (i_head r) = Some h -> -1 <= h.
Proof.
  unfold row_nonneg, compute_head. destruct (i_head r) as [x|]; [|discriminate]. intros H.
  specialize (H x eq_refl). destruct (x =? 0); intros E; inversion E; lia.
Qed.

Lemma layout_nonneg off gs t h : Forall group_nonneg gs -> In t (layout off gs) -> thsent t = Some h -> -1 <= h.
Proof.
  intros F. revert off. induction F as [|g gs G F IH]; intros off; simpl; [tauto|].
  intros H E. apply in_app_or in H. destruct H as [H|H]; [|eapply IH; eauto].
  destruct g as [r|r ws]; simpl in *.
  - destruct H as [<-|[]]. simpl in E. eapply compute_head_nonneg; eauto.
  - revert H. generalize (off + zlen (i_text r)) as e. generalize 0 as sub. 
    induction G as [|w ws W G IHw]; simpl; intros sub e; [tauto|].
    intros [<-|H]; [simpl in E; eapply compute_head_nonneg; eauto|eauto].
Qed.

Lemma shown_head_fill st t : 0 <= st -> thdoc t = None -> (forall h, thsent t = Some h -> -1 <= h) ->
  shown_head (fill st t) = thsent t.
Proof.
  intros Hs Hd Hh. unfold shown_head, fill, filled_pair. rewrite Hd. simpl.
  destruct (thsent t) as [h|]; simpl; auto. specialize (Hh h eq_refl). rewrite orb_false_r.
  destruct (Z.eqb_spec h (-1)); simpl; [subst; auto|]. destruct (Z.eqb_spec (h + st) (-1)); auto. lia.
Qed.

Lemma well_parsed_block st off b : 0 <= st -> Forall group_ok b -> Forall group_nonneg b ->
  (well_parsed (map (fill st) (layout off b)) <-> block_good b).
Proof.
  intros Hs G NN. unfold well_parsed, block_good.
  replace (map shown_head (map (fill st) (layout off b))) with (block_heads b); [tauto|].
  unfold block_heads. rewrite (layout_shift0 off), !map_map. apply map_ext_in. intros t Ht. symmetry.
  change (thsent t) with (thsent (shift off t)). apply shown_head_fill; auto.
  - simpl. apply layout_in in Ht; tauto.
  - intros h E. apply (layout_nonneg 0 b t h); auto.
Qed.

Lemma doc_of_good acc : Forall block_ok acc -> acc <> [] -> Forall (Forall group_nonneg) acc ->
  ((exists d, doc_of acc [] = Ok d) <-> Forall block_good acc).
Proof.
  intros F N NN. split.
  - intros [d H]. apply doc_of_ok in H; auto. destruct H as [_ H]. apply Forall_forall. intros b Hb.
    apply in_split in Hb. destruct Hb as (a1 & a2 & ->). specialize (H a1 b a2 eq_refl).
    rewrite well_parsed_block in H; auto.
    + apply count_nonneg.
    + rewrite Forall_forall in F. apply F. apply in_or_app; simpl; auto.
    + rewrite Forall_forall in NN. apply NN. apply in_or_app; simpl; auto.
  - intros H. exists (raw_doc acc). apply doc_of_ok; auto. split; auto. intros a1 b a2 ->.
    rewrite Forall_forall in F, NN, H.
    apply well_parsed_block.
    + apply count_nonneg.
    + apply F. apply in_or_app; simpl; auto.
    + apply NN. apply in_or_app; simpl; auto.
    + apply H. apply in_or_app; simpl; auto.
Qed.

(* ------------------------------------------------------------------ *)
(* Assembling                                                           *)

(* the yielded documents: consecutive runs of blocks *)
Inductive runs (limit : Z) : list block -> list document -> Prop :=
| runs_nil : runs limit [] []
| runs_cons acc bs d ds : acc <> [] -> zlen acc = limit -> doc_of acc [] = Ok d -> runs limit bs ds ->
                          runs limit (acc ++ bs) (d :: ds)
| runs_last acc d : acc <> [] -> zlen acc < limit -> doc_of acc [] = Ok d -> runs limit acc [d].

Lemma assemble_runs limit t : 0 < limit -> (forall lf, t = TEnd lf -> Forall group_ok lf) ->
  forall bs acc ds e, Forall block_ok (acc ++ bs) -> zlen acc < limit ->
  assemble limit acc bs t = (ds, e) ->
  exists used rest, acc ++ bs = used ++ rest /\ runs limit used ds /\
    (e = None -> rest = [] /\ t = TEnd []).
Proof.
  intros LP GL. induction bs as [|b bs IH]; intros acc ds e F LT H; simpl in H.
  - rewrite app_nil_r in *. destruct t as [e'|lf].
    + inversion H; subst. exists [], acc. split; auto. split; [constructor|discriminate].
    + destruct lf as [|g lf].
      * destruct acc as [|b acc].
        -- inversion H; subst. exists [], []. repeat split; auto; constructor.
        -- destruct (doc_of (b :: acc) []) as [d|e'] eqn:E; inversion H; subst.
           ++ exists (b :: acc), []. rewrite app_nil_r. repeat split; auto. apply runs_last; auto. congruence.
           ++ exists [], (b :: acc). split; auto. split; [constructor|discriminate].
      * destruct (doc_of_left acc (g :: lf)) as [e' E]; auto; [congruence|].
        rewrite E in H. destruct acc as [|b acc]; inversion H; subst.
        -- exists [], []. split; auto. split; [constructor|discriminate].
        -- exists [], (b :: acc). split; auto. split; [constructor|discriminate].
  - assert (Z1 : zlen (acc ++ [b]) = zlen acc + 1) by (rewrite zlen_app; reflexivity).
    assert (A1 : acc ++ b :: bs = (acc ++ [b]) ++ bs) by (rewrite <- app_assoc; auto).
    destruct (limit <=? zlen (acc ++ [b])) eqn:El.
    + destruct (doc_of (acc ++ [b]) []) as [d|e'] eqn:E.
      * destruct (assemble limit [] bs t) as [ds' e'] eqn:Ea. injection H as <- <-.
        assert (F' : Forall block_ok ([] ++ bs)) by (simpl; rewrite A1 in F; apply Forall_app in F; tauto).
        destruct (IH [] ds' e' F' LP Ea) as (used & rest & Eu & R & X).
        simpl in Eu. exists ((acc ++ [b]) ++ used), rest. rewrite A1, Eu, !app_assoc. repeat split; try apply X; auto.
        apply runs_cons; auto; [|lia]. destruct acc; simpl; congruence.
      * inversion H; subst. exists [], (acc ++ b :: bs). split; auto. split; [constructor|discriminate].
    + rewrite A1 in *. apply IH; auto; lia.
Qed.

Lemma runs_views limit used ds : Forall block_ok used -> runs limit used ds ->
  concat (map document_views ds) = map block_view used.
Proof.
  intros F R. induction R as [|acc bs d ds N L E R IH|acc d N L E]; simpl; auto.
  - apply Forall_app in F. destruct F as [F1 F2]. rewrite IH by auto. rewrite map_app. f_equal.
    apply doc_of_ok in E; auto. destruct E as [-> _]. apply bounds_views; auto.
  - rewrite app_nil_r. apply doc_of_ok in E; auto. destruct E as [-> _]. apply bounds_views; auto.
Qed.

Lemma assemble_total limit : 0 < limit -> forall bs acc,
  Forall block_ok (acc ++ bs) -> Forall (Forall group_nonneg) (acc ++ bs) -> Forall block_good (acc ++ bs) -> zlen acc < limit ->
  exists ds, assemble limit acc bs (TEnd []) = (ds, None).
Proof.
  intros LP. induction bs as [|b bs IH]; intros acc F NN G LT; simpl.
  - rewrite app_nil_r in *. destruct acc as [|b acc]; [eauto|].
    destruct (proj2 (doc_of_good (b :: acc) F ltac:(congruence) NN) G) as [d E]. rewrite E. eauto.
  - assert (A1 : acc ++ b :: bs = (acc ++ [b]) ++ bs) by (rewrite <- app_assoc; auto). rewrite A1 in *.
    destruct (limit <=? zlen (acc ++ [b])) eqn:El.
    + apply Forall_app in F. apply Forall_app in NN. apply Forall_app in G.
      destruct (proj2 (doc_of_good (acc ++ [b]) (proj1 F) ltac:(destruct acc; simpl; congruence) (proj1 NN)) (proj1 G)) as [d E].
      rewrite E. destruct (IH []) as [ds Ed]; simpl; try tauto. rewrite Ed. eauto.
    + apply IH; auto; lia.
Qed.

Lemma runs_good limit used ds : Forall block_ok used -> Forall (Forall group_nonneg) used -> runs limit used ds -> Forall block_good used.
Proof.
  intros F NN R. induction R as [|acc bs d ds N L E R IH|acc d N L E]; auto.
  - apply Forall_app in F. apply Forall_app in NN. apply Forall_app. split; [|tauto]. apply doc_of_good; try tauto. eauto.
  - apply doc_of_good; eauto.
Qed.

(* ------------------------------------------------------------------ *)
(* Rows of the input                                                    *)

Lemma parse_nonneg evs : (forall r, In (EvRow r) evs -> row_nonneg r) ->
  forall cur op bs t, Forall group_nonneg cur ->
  match op with Some (_, ws, _) => Forall row_nonneg ws | None => True end ->
  parse cur op evs = (bs, t) -> Forall (Forall group_nonneg) bs.
Proof.
  induction evs as [|e evs IH]; intros R cur op bs t C O H; simpl in H; [inversion H; constructor|].
  assert (R' : forall r, In (EvRow r) evs -> row_nonneg r) by (intros; apply R; simpl; auto).
  destruct e as [|r|e]; [| |inversion H; constructor].
  - destruct op; [inversion H; constructor|]. destruct cur as [|g cur]; [inversion H; constructor|].
    destruct (parse [] None evs) as [bs' t'] eqn:E. inversion H; subst. constructor; auto.
    eapply IH with (cur := []) (op := None); eauto.
  - assert (Rr : row_nonneg r) by (apply R; simpl; auto).
    destruct (row_step cur op r) as [[cur' op']|x] eqn:E; [|inversion H; constructor].
    assert (X : Forall group_nonneg cur' /\ match op' with Some (_, ws, _) => Forall row_nonneg ws | None => True end).
    { unfold row_step in E. destruct op as [[[g ws] n]|].
      - destruct (i_text g); [discriminate|].
        assert (W : Forall row_nonneg (ws ++ [r])) by (apply Forall_app; auto).
        destruct (n =? zlen (ws ++ [r])); inversion E; subst; split; auto. apply Forall_app; split; auto.
      - destruct (i_id r) as [i|]; [|discriminate]. destruct (mem_char 46%N i); [inversion E; subst; auto|].
        destruct (mem_char 45%N i).
        + destruct (range_count i); inversion E; subst; auto.
        + destruct (i_text r); inversion E; subst. split; auto. apply Forall_app; split; auto. }
    destruct X. eapply IH; eauto.
Qed.

Lemma in_events cols lines r : In (EvRow r) (events cols lines) ->
  exists raw, In raw lines /\ parse_line cols (cells_of raw) = Ok r.
Proof.
  induction lines as [|l ls IH]; simpl; [tauto|]. unfold line_event.
  destruct (startswith (strip_crlf l) (of_string "#")).
  - intros H. destruct (IH H) as (raw & ? & ?). eauto.
  - destruct (strip_crlf l) as [|c s] eqn:E.
    + intros [H|H]; [discriminate|]. destruct (IH H) as (raw & ? & ?). eauto.
    + intros [H|H]; [|destruct (IH H) as (raw & ? & ?); eauto].
      exists l. split; auto. unfold cells_of. rewrite E. destruct (parse_line cols (split chTAB (c :: s))); congruence.
Qed.

Lemma py_index_nth {A} (l : list A) i x d : 0 <= i -> py_index l i = Ok x -> nth (Z.to_nat i) l d = x /\ nth_error l (Z.to_nat i) = Some x.
Proof.
  intros H. rewrite py_index_nonneg by auto. destruct (nth_error l (Z.to_nat i)) eqn:E; simpl; [|discriminate].
  intros H'. inversion H'; subst. split; auto. eapply nth_error_nth; eauto.
Qed.

Lemma token_repr_index cells i x : 0 <= i -> py_index (token_repr cells) i = Ok x ->
  x = cell_opt cells (Z.to_nat i) /\ (Z.to_nat i < length cells)%nat.
Proof.
  intros H E. apply (py_index_nth _ _ _ None) in E; auto. destruct E as [_ E]. unfold token_repr in E.
  assert (L : (Z.to_nat i < length cells)%nat).
  { rewrite <- (map_length (fun v => if str_eqb v underscore then None else Some v)). apply nth_error_Some. congruence. }
  split; auto. destruct (nth_error cells (Z.to_nat i)) as [v|] eqn:Ev; [|apply nth_error_None in Ev; lia].
  apply (map_nth_error (fun v => if str_eqb v underscore then None else Some v)) in Ev as Ev'.
  unfold cell_opt, cell. fold underscore. erewrite nth_error_nth by eauto. congruence.
Qed.

Lemma column_of_ok cols c cells x : 0 <= c -> column_of cols c (token_repr cells) = Ok x ->
  x = if has_col cols c then cell_opt cells (Z.to_nat c) else None.
Proof.
  intros H. unfold column_of. destruct (has_col cols c); [|congruence]. intros E. apply token_repr_index in E; tauto.
Qed.

Lemma parse_line_head cols cells r h : parse_line cols cells = Ok r -> i_head r = Some h -> parse_int (cell cells 6) = Ok h.
Proof.
  unfold parse_line. intros H E.
  apply bind_ok_iff in H. destruct H as (? & _ & H). apply bind_ok_iff in H. destruct H as (? & _ & H).
  apply bind_ok_iff in H. destruct H as (? & _ & H). apply bind_ok_iff in H. destruct H as (? & _ & H).
  apply bind_ok_iff in H. destruct H as (head & Hh & H). apply bind_ok_iff in H. destruct H as (? & _ & H).
  apply bind_ok_iff in H. destruct H as (? & _ & H). apply bind_ok_iff in H. destruct H as (? & _ & H).
  apply bind_ok_iff in H. destruct H as (ho & Ho & H). inversion H; subst. simpl in E. subst ho.
  apply column_of_ok in Hh; [|unfold cHEAD; lia]. destruct (has_col cols cHEAD).
  - unfold cell_opt in Hh. change (Z.to_nat cHEAD) with 6%nat in Hh. destruct (str_eqb (cell cells 6) (of_string "_")); subst head; [discriminate|].
    unfold rmap in Ho. apply bind_ok_iff in Ho. destruct Ho as (z & Hz & Ez). congruence.
  - subst head. discriminate.
Qed.

Lemma events_nonneg cols text : heads_nonnegative text -> forall r, In (EvRow r) (events cols (file_lines text)) -> row_nonneg r.
Proof.
  intros H r Hr h Eh. apply in_events in Hr. destruct Hr as (raw & Hraw & P).
  eapply H; eauto. eapply parse_line_head; eauto.
Qed.
