(* Lemma suffix labels: vocabulary, mask and interpretation. *)
From Coq Require Import ZArith NArith Bool Lia Permutation List.
From Verif Require Import Base BaseFacts Model_Datamodel Model_Vocab Model_Lemma Spec_Datamodel Spec_Vocab Spec_Lemma
  Proofs_Datamodel Proofs_Datamodel4 Proofs_Vocab Proofs_Lemma.
Import ListNotations.
Open Scope Z_scope.

Lemma dt_with_morphology_ok x p l : token_wf (dt_tok x) ->
  exists t, dt_with_morphology x p l = Ok (mkDT (dt_doc x) t) /\
    t = mkToken (tstart (dt_tok x)) (tend (dt_tok x)) p l (tdeprel (dt_tok x)) (tsub (dt_tok x)) (trepl (dt_tok x))
                (thdoc (dt_tok x)) (thsent (dt_tok x)) (textras (dt_tok x)).
Proof.
  intros W. unfold dt_with_morphology. rewrite with_morphology_ok by auto. simpl. eauto.
Qed.

(* ------------------------------------------------------------------ *)
(* sorting with a total order never raises *)

Lemma all_comparable_total {A} (cmp : A -> A -> comparison) l : all_comparable (fun a b => Ok (cmp a b)) l = true.
Proof.
  induction l as [|x l IH]; simpl; auto. rewrite IH, andb_true_r. apply forallb_forall. auto.
Qed.

Lemma id2obj_total {K} (eqb : K -> K -> bool) (cmp : K -> K -> comparison) counts threshold :
  counts <> [] -> exists l, id2obj eqb (fun a b => Ok (cmp a b)) counts threshold = Ok l.
Proof.
  intros H. unfold id2obj. destruct counts as [|kv counts]; [congruence|].
  cbn [most_common of_option bind]. unfold py_sorted. rewrite all_comparable_total. simpl. eauto.
Qed.

(* ------------------------------------------------------------------ *)
Section Lower.
Variable lower : str -> str.

Lemma suffix_transformation_ok x r : suffix_transformation lower x = Ok r <-> teaches lower x r.
Proof.
  unfold suffix_transformation, teaches. destruct (tlemma (dt_tok x)) as [l|].
  - split.
    + intros H; inversion H; subst. exists l. split; auto. apply get_rule_learned.
    + intros (l' & E & L). inversion E; subst. apply learned_iff in L. subst. auto.
  - split; [discriminate|]. intros (l & E & _). discriminate.
Qed.

Lemma teaches_fun x r r' : teaches lower x r -> teaches lower x r' -> r = r'.
Proof. rewrite <- !suffix_transformation_ok. congruence. Qed.

Lemma build_rules_labels threshold ds rules : build_rules lower threshold ds = Ok rules ->
  exists labels, Forall2 (teaches lower) (dataset_tokens ds) labels /\
    id2obj rule_eqb (fun a b => Ok (rule_cmp a b)) (count_list rule_eqb labels) threshold = Ok (snd rules) /\
    fst rules = obj2id rule_eqb (snd rules) /\ all_distinct rule_eqb (snd rules).
Proof.
  unfold build_rules. intros H. apply bind_ok_iff in H. destruct H as (labels & M & H).
  apply bind_ok_iff in H. destruct H as (l & E & H). inversion H; subst; simpl. exists labels. split; [|split; [auto|split; auto]].
  - apply mapM_ok in M. clear -M. induction M; constructor; auto. apply suffix_transformation_ok. auto.
  - eapply id2obj_spec in E; [apply E|apply rule_equiv|apply count_list_distinct, rule_equiv].
Qed.

Lemma build_rules_vocabulary threshold ds rules : build_rules lower threshold ds = Ok rules ->
  exists labels mc, Forall2 (teaches lower) (dataset_tokens ds) labels /\ NoDup (snd rules) /\
    nth_error (snd rules) 0 = Some mc /\ In mc labels /\
    (forall r, occurrences rule_eqb r labels <= occurrences rule_eqb mc labels) /\
    (forall r, In r (snd rules) <->
       r = mc \/ (In r labels /\ (0 < threshold -> threshold < occurrences rule_eqb r labels))).
Proof.
  intros H. apply build_rules_labels in H. destruct H as (labels & F & E & _ & D).
  assert (S := id2obj_spec rule_eqb rule_equiv _ _ _ _ (count_list_distinct rule_eqb rule_equiv labels) E).
  destruct S as (_ & (mc & rest & El & M) & I).
  exists labels, mc. split; auto. split; [|split; [rewrite El; auto|]].
  - clear -D. induction D as [|x l Fx D IH]; constructor; auto. intros X. rewrite Forall_forall in Fx.
    assert (Y := Fx _ X). rewrite (eqv_refl rule_eqb rule_equiv) in Y. discriminate.
  - assert (U : forall r, first_most_common (count_list rule_eqb labels) r -> r = mc).
    { intros r Hr. assert (X : In r (snd rules)) by (apply I; auto).
      destruct (In_nth_error _ _ X) as (i & Hi).
      destruct Hr as (b & n & a & Ec & Hb & Ha). destruct M as (b' & n' & a' & Ec' & Hb' & Ha').
      clear -Ec Ec' Hb Ha Hb' Ha'. assert (Ep : b ++ (r, n) :: a = b' ++ (mc, n') :: a') by congruence. clear Ec Ec'.
      revert b' Ep Hb'. induction b as [|x b IH]; intros b' Ep Hb'.
      - destruct b' as [|y b']; simpl in Ep; [congruence|]. inversion Ep; subst.
        assert (n < n') by (apply (Hb' r); left; auto).
        assert (n' <= n); [|lia]. apply (Ha mc). apply in_app_iff. simpl. auto.
      - destruct b' as [|y b']; simpl in Ep.
        + inversion Ep; subst. assert (n' < n) by (apply (Hb mc); left; auto).
          assert (n <= n'); [|lia]. apply (Ha' r). apply in_app_iff. simpl. auto.
        + inversion Ep; subst. eapply IH; eauto.
          * intros; eapply Hb; right; eauto.
          * intros; eapply Hb'; right; eauto. }
    destruct M as (b & n & a & Ec & Hb & Ha).
    assert (Mc : In (mc, n) (count_list rule_eqb labels)) by (rewrite Ec; apply in_app_iff; simpl; auto).
    apply count_list_In in Mc; [|apply rule_equiv]. destruct Mc as (Mi & Mn & Mp).
    split; auto. split.
    + intros r. rewrite <- Mn. assert (N := occurrences_nonneg rule_eqb r labels).
      destruct (Z.eq_dec (occurrences rule_eqb r labels) 0) as [Z0|Z0]; [lia|].
      assert (P : 0 < occurrences rule_eqb r labels) by lia. apply occurrences_pos in P.
      destruct P as (r' & Hr' & E'). apply rule_eqb_eq in E'. subst r'.
      destruct (In_count_list rule_eqb rule_equiv labels r Hr') as (k' & Ek & Hk). apply rule_eqb_eq in Ek. subst k'.
      rewrite Ec in Hk. apply in_app_iff in Hk. destruct Hk as [Hk|[Hk|Hk]].
      * apply Hb in Hk. lia.
      * inversion Hk. lia.
      * apply Ha in Hk. lia.
    + intros r. rewrite I. split.
      * intros [(m & Hm & Ht)|Hf]; [|left; auto]. right.
        apply count_list_In in Hm; [|apply rule_equiv]. destruct Hm as (A & B & C). split; auto. intros T. rewrite <- B. auto.
      * intros [->|(Hl & Ht)]; [right; exists b, n, a; auto|]. left.
        destruct (In_count_list rule_eqb rule_equiv labels r Hl) as (k' & Ek & Hk). apply rule_eqb_eq in Ek. subst k'.
        exists (occurrences rule_eqb r labels). auto.
Qed.

Lemma build_rules_succeeds threshold ds : dataset_tokens ds <> [] ->
  (forall x, In x (dataset_tokens ds) -> tlemma (dt_tok x) <> None) ->
  exists rules, build_rules lower threshold ds = Ok rules.
Proof.
  intros N L. unfold build_rules.
  assert (M : exists labels, mapM (suffix_transformation lower) (dataset_tokens ds) = Ok labels /\ labels <> []).
  { assert (X : forall l, (forall x, In x l -> tlemma (dt_tok x) <> None) ->
      exists labels, mapM (suffix_transformation lower) l = Ok labels /\ length labels = length l).
    { induction l as [|x l IH]; intros Hl; simpl; eauto.
      destruct IH as (ls & E & Hlen); [intros; apply Hl; right; auto|].
      unfold suffix_transformation at 1. destruct (tlemma (dt_tok x)) eqn:T; [|exfalso; apply (Hl x); simpl; auto].
      simpl. rewrite E. simpl. eexists. split; eauto. simpl. congruence. }
    destruct (X _ L) as (ls & E & Hlen). exists ls. split; auto. intros ->.
    destruct (dataset_tokens ds); [congruence|discriminate]. }
  destruct M as (labels & E & Hne). rewrite E. cbn [bind].
  destruct (id2obj_total rule_eqb rule_cmp (count_list rule_eqb labels) threshold) as (l & El).
  { intros X. apply count_list_nil in X; auto using rule_equiv. }
  rewrite El. simpl. eauto.
Qed.

(* ------------------------------------------------------------------ *)
(* the mask *)

Lemma set_index_ok {A} (l : list A) i v : 0 <= i < zlen l -> set_index l i v = Ok (set_nth l (Z.to_nat i) v).
Proof.
  intros H. unfold set_index. destruct (i <? 0) eqn:E; [lia|].
  destruct (0 <=? i) eqn:E1; [|lia]. destruct (i <? zlen l) eqn:E2; [auto|lia].
Qed.

Lemma mask_fold (es : list entry) : forall m, (forall e, In e es -> 0 <= snd e < zlen m) ->
  exists m', foldM (fun m e => set_index m (snd e) true) m es = Ok m' /\ length m' = length m /\
    forall j, nth_error m' j = Some true <->
      nth_error m j = Some true \/ exists e, In e es /\ snd e = Z.of_nat j.
Proof.
  induction es as [|e es IH]; intros m R; simpl.
  - exists m. split; auto. split; auto. intros j. split; [auto|]. intros [H|(e & [] & _)]; auto.
  - rewrite set_index_ok by (apply R; simpl; auto). simpl.
    destruct (IH (set_nth m (Z.to_nat (snd e)) true)) as (m' & E & L & H).
    { intros e' He'. unfold zlen. rewrite set_nth_length. apply R. simpl; auto. }
    exists m'. split; auto. rewrite set_nth_length in L. split; auto. intros j. rewrite H.
    assert (Re := R e (or_introl eq_refl)). unfold zlen in Re.
    destruct (Nat.eq_dec j (Z.to_nat (snd e))) as [->|N].
    + rewrite set_nth_same by lia. split; [|auto]. intros _. right. exists e. split; [left; auto|]. lia.
    + rewrite set_nth_other by auto. split.
      * intros [X|(e' & X & Y)]; eauto 6.
      * intros [X|(e' & [->|X] & Y)]; eauto. exfalso. apply N. lia.
Qed.

Lemma in_items {K} (l : list K) k i : In (k, i) (combine l (map Z.of_nat (seq 0 (length l)))) <->
  0 <= i /\ nth_error l (Z.to_nat i) = Some k.
Proof.
  assert (H : forall l a, In (k, i) (combine l (map Z.of_nat (seq a (length l)))) <->
    Z.of_nat a <= i /\ nth_error l (Z.to_nat i - a) = Some k).
  { clear l. induction l as [|x l IH]; intros a; simpl.
    - split; [tauto|]. intros [_ H]. destruct (Z.to_nat i - a)%nat; discriminate.
    - rewrite IH. split.
      + intros [H|[H1 H2]].
        * inversion H; subst. split; [lia|]. rewrite Nat2Z.id, Nat.sub_diag. auto.
        * split; [lia|]. replace (Z.to_nat i - a)%nat with (S (Z.to_nat i - S a)) by lia. auto.
      + intros [H1 H2]. destruct (Z.to_nat i - a)%nat as [|m] eqn:M; simpl in H2.
        * left. inversion H2; subst. f_equal. lia.
        * right. split; [lia|]. replace (Z.to_nat i - S a)%nat with m by lia. auto. }
  rewrite (H l 0%nat), Nat.sub_0_r. simpl. tauto.
Qed.

Lemma rules_items threshold ds rules : build_rules lower threshold ds = Ok rules ->
  forall r i, In (r, i) (fst rules) <-> 0 <= i /\ nth_error (snd rules) (Z.to_nat i) = Some r.
Proof.
  intros H r i. apply build_rules_labels in H. destruct H as (labels & _ & _ & E & D).
  rewrite E, obj2id_items by auto using rule_equiv. apply in_items.
Qed.

Lemma mask_spec threshold ds rules x : build_rules lower threshold ds = Ok rules ->
  exists m, mask_extractor lower rules x = Ok m /\ length m = length (snd rules) /\
    forall j, nth_error m j = Some true <->
      exists r, In (r, Z.of_nat j) (get_applicable_rules (build_trie (fst rules)) (lower (dt_text x))).
Proof.
  intros H. unfold mask_extractor, applicable_mask. assert (It := rules_items _ _ _ H).
  destruct (mask_fold (get_applicable_rules (build_trie (fst rules)) (lower (dt_text x)))
                      (repeat false (Z.to_nat (zlen (snd rules))))) as (m & E & L & M).
  { intros [r i] He. apply trie_sound in He. destruct He as (He & _). apply It in He. destruct He as [He Hn].
    unfold zlen. rewrite repeat_length, !Nat2Z.id. 
    assert (Z.to_nat i < length (snd rules))%nat by (apply nth_error_Some; congruence). simpl. lia. }
  exists m. split; auto. unfold zlen in L. rewrite repeat_length, !Nat2Z.id in L. split; auto.
  intros j. rewrite M. split.
  - intros [X|([r i] & He & Hi)].
    + apply nth_error_In in X. apply repeat_spec in X. discriminate.
    + simpl in Hi. subst. eauto.
  - intros (r & He). right. exists (r, Z.of_nat j). auto.
Qed.

Lemma mask_meaning threshold ds rules x : build_rules lower threshold ds = Ok rules ->
  exists m, mask_extractor lower rules x = Ok m /\ length m = length (snd rules) /\
    (forall j, nth_error m j = Some true -> exists r, nth_error (snd rules) j = Some r /\
       ends_with (lower (dt_text x)) (word_suffix r)) /\
    (forall j r, nth_error (snd rules) j = Some r -> exception r = false ->
       ends_with (lower (dt_text x)) (word_suffix r) -> word_suffix r <> lower (dt_text x) ->
       nth_error m j = Some true).
Proof.
  intros H. destruct (mask_spec _ _ _ x H) as (m & E & L & M). assert (It := rules_items _ _ _ H).
  exists m. split; auto. split; auto. split.
  - intros j Hj. apply M in Hj. destruct Hj as (r & Hr). assert (S := Hr). apply trie_sound in S.
    destruct S as (Hin & A & _). apply It in Hin. rewrite Nat2Z.id in Hin. exists r. split; [apply Hin|].
    apply endswith_iff. exact A.
  - intros j r Hj Hx Hw Hne. apply M. exists r. apply trie_complete_regular; auto.
    + apply It. rewrite Nat2Z.id. split; [lia|auto].
    + apply endswith_iff. auto.
Qed.

(* ------------------------------------------------------------------ *)
(* interpretation *)

Lemma interpret_rule_ok id2rule x i r : token_wf (dt_tok x) -> 0 <= i -> nth_error id2rule (Z.to_nat i) = Some r ->
  exists t, interpret_rule lower id2rule x i = Ok (mkDT (dt_doc x) t) /\ same_but_lemma (dt_tok x) t /\
    ((exists p, lower (dt_text x) = p ++ word_suffix r /\ tlemma t = Some (p ++ lemma_suffix r)) \/
     (~ ends_with (lower (dt_text x)) (word_suffix r) /\ tlemma t = Some (lower (dt_text x)))).
Proof.
  intros W Hi Hr. unfold interpret_rule. rewrite py_index_nonneg by auto. rewrite Hr. cbn [of_option bind].
  set (w := lower (dt_text x)). unfold is_applicable. destruct (endswith w (word_suffix r)) eqn:E.
  - apply endswith_iff in E. destruct E as [p E].
    assert (T : transform r w = Ok (p ++ lemma_suffix r)) by (apply transform_iff; eauto).
    rewrite T. cbn [bind].
    destruct (dt_with_morphology_ok x (tpos (dt_tok x)) (Some (p ++ lemma_suffix r)) W) as (t & Ed & ->).
    eexists. split; [exact Ed|]. split; [unfold same_but_lemma; simpl; tauto|]. left. exists p. auto.
  - cbn [bind]. destruct (dt_with_morphology_ok x (tpos (dt_tok x)) (Some w) W) as (t & Ed & ->).
    eexists. split; [exact Ed|]. split; [unfold same_but_lemma; simpl; tauto|]. right. split; auto.
    intros X. apply endswith_iff in X. congruence.
Qed.

Lemma gold_selectable threshold ds rules x r l : build_rules lower threshold ds = Ok rules ->
  token_wf (dt_tok x) -> tlemma (dt_tok x) = Some l -> teaches lower x r -> In r (snd rules) ->
  exists i m t, rule_label lower (fst rules) x = Ok (Z.of_nat i) /\ nth_error (snd rules) i = Some r /\
    mask_extractor lower rules x = Ok m /\ nth_error m i = Some true /\
    interpret_rule lower (snd rules) x (Z.of_nat i) = Ok (mkDT (dt_doc x) t) /\
    same_but_lemma (dt_tok x) t /\ tlemma t = Some (lower l).
Proof.
  intros H W Hl T Hin. assert (It := rules_items _ _ _ H). destruct (mask_spec _ _ _ x H) as (m & Em & Lm & M).
  assert (H0 := H). apply build_rules_labels in H0. destruct H0 as (labels & _ & _ & E & D).
  destruct (In_nth_error _ _ Hin) as (i & Hi).
  assert (Hr : r = get_rule (lower (dt_text x)) (lower l)).
  { destruct T as (l' & E' & L'). rewrite Hl in E'. inversion E'; subst. apply learned_iff. auto. }
  destruct (interpret_rule_ok (snd rules) x (Z.of_nat i) r W) as (t & Et & St & Lt); [lia|rewrite Nat2Z.id; auto|].
  exists i, m, t. split; [|split; [auto|split; [auto|split; [|split; [auto|split; auto]]]]].
  - unfold rule_label. apply suffix_transformation_ok in T. rewrite T. simpl. unfold gget_default.
    assert (G : gget rule_eqb (fst rules) r = Some (Z.of_nat i)).
    { rewrite E. apply obj2id_spec; auto using rule_equiv. split; [lia|]. exists r. rewrite Nat2Z.id. split; auto.
      apply eqv_refl, rule_equiv. }
    rewrite G. auto.
  - apply M. exists r. rewrite Hr. apply learned_offered. rewrite <- Hr. apply It. rewrite Nat2Z.id. split; [lia|auto].
  - destruct (get_rule_learned (lower (dt_text x)) (lower l)) as (p & Hw & Hlem & _). rewrite <- Hr in *.
    destruct Lt as [(q & Hq & ->)|(N & _)].
    + rewrite Hw in Hq at 1. apply app_inv_tail in Hq. subst q. rewrite <- Hlem. auto.
    + exfalso. apply N. exists p. auto.
Qed.

End Lower.

Lemma exception_known_word rules w e e' :
  In e' rules -> ends_with (word_suffix (fst e')) w ->
  In e (get_applicable_rules (build_trie rules) w) -> exception (fst e) = true -> word_suffix (fst e) = w.
Proof.
  intros H' Hw H X. apply offered_iff in H. rewrite X in H. destruct H as (_ & [p E] & L).
  assert (Y := L e' w H' Hw (ex_intro _ [] eq_refl)). apply (f_equal (@length char)) in E as El. rewrite app_length in El.
  destruct p as [|c p]; [auto|]. simpl in El. lia.
Qed.

Lemma exception_origin word lemma : exception (get_rule word lemma) = true ->
  word_suffix (get_rule word lemma) = word /\ lemma_suffix (get_rule word lemma) = lemma.
Proof.
  intros X. destruct (get_rule_learned word lemma) as (p & Hw & Hl & _ & E). apply E in X. subst p. simpl in *. auto.
Qed.

Lemma count_list_spec K (eqb : K -> K -> bool) labels : equivalence eqb ->
  all_distinct eqb (map fst (count_list eqb labels)) /\
  (forall k n, In (k, n) (count_list eqb labels) -> In k labels /\ n = occurrences eqb k labels /\ 0 < n) /\
  (forall k, In k labels -> exists k', eqb k k' = true /\ In (k', occurrences eqb k labels) (count_list eqb labels)).
Proof.
  intros E. split; [apply count_list_distinct, E|]. split; [intros; apply count_list_In; auto|].
  intros. apply In_count_list; auto.
Qed.
