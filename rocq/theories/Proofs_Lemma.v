(* Lemma rules and the rule trie. *)
From Coq Require Import ZArith NArith Bool Lia Permutation List.
From Verif Require Import Base BaseFacts Model_Datamodel Model_Vocab Model_Lemma Spec_Vocab Spec_Lemma Proofs_Vocab.
Import ListNotations.
Open Scope Z_scope.

(* ------------------------------------------------------------------ *)
(* strings *)

Lemma prefixb_iff p l : prefixb N.eqb p l = true <-> exists r, l = p ++ r.
Proof.
  revert l; induction p as [|x p IH]; intros l; simpl; [split; eauto|].
  destruct l as [|y l]; [split; [discriminate|intros [r E]; discriminate]|].
  rewrite andb_true_iff, N.eqb_eq, IH. split.
  - intros [-> [r ->]]. eauto.
  - intros [r E]. inversion E; subst. eauto.
Qed.

Lemma endswith_iff w s : endswith w s = true <-> ends_with w s.
Proof.
  unfold endswith, ends_with. rewrite prefixb_iff. split; intros [p E].
  - exists (rev p). rewrite <- (rev_involutive w), E, rev_app_distr, rev_involutive. auto.
  - exists (rev p). rewrite E, rev_app_distr. auto.
Qed.

Lemma py_from_app {A} (p s : list A) : py_from (p ++ s) (zlen p) = s.
Proof.
  unfold py_from. rewrite zlen_app. assert (H := py_slice_app p s []). rewrite app_nil_r in H. auto.
Qed.

Lemma py_upto_app {A} (p s : list A) : py_upto (p ++ s) (zlen p) = p.
Proof. unfold py_upto. assert (H := py_slice_app [] p s). simpl in H. auto. Qed.

Lemma transform_iff r w l : transform r w = Ok l <-> exists p, w = p ++ word_suffix r /\ l = p ++ lemma_suffix r.
Proof.
  unfold transform, is_applicable. destruct (endswith w (word_suffix r)) eqn:E.
  - apply endswith_iff in E. destruct E as [p E]. rewrite E at 1 2. rewrite zlen_app.
    replace (zlen p + zlen (word_suffix r) - zlen (word_suffix r)) with (zlen p) by lia.
    rewrite py_upto_app. split.
    + intros H; inversion H. eauto.
    + intros (q & Hq & ->). rewrite Hq in E. apply app_inv_tail in E. rewrite E. reflexivity.
  - split; [discriminate|]. intros (p & Hp & _). assert (endswith w (word_suffix r) = true); [|congruence].
    apply endswith_iff. exists p. auto.
Qed.

Lemma transform_raises r w : ~ ends_with w (word_suffix r) -> transform r w = Err EValue.
Proof.
  intros H. unfold transform, is_applicable. destruct (endswith w (word_suffix r)) eqn:E; auto.
  apply endswith_iff in E. contradiction.
Qed.

(* ------------------------------------------------------------------ *)
(* learning a rule *)

Lemma common_start_spec w l : exists p w' l', w = p ++ w' /\ l = p ++ l' /\ common_start w l = zlen p /\
  match w', l' with c :: _, d :: _ => c <> d | _, _ => True end.
Proof.
  revert l; induction w as [|c w IH]; intros l; [exists [], [], l; auto|].
  destruct l as [|d l]; [exists [], (c :: w), []; auto|]. cbn [common_start].
  destruct (c =? d)%N eqn:E.
  - apply N.eqb_eq in E. subst. destruct (IH l) as (p & w' & l' & -> & -> & Hc & Hd).
    exists (d :: p), w', l'. rewrite Hc, zlen_cons. repeat split; auto; lia.
  - apply N.eqb_neq in E. exists [], (c :: w), (d :: l). auto.
Qed.

Lemma get_rule_learned w l : learned_rule w l (get_rule w l).
Proof.
  destruct (common_start_spec w l) as (p & w' & l' & Hw & Hl & Hc & Hd).
  assert (R : get_rule w l = mkRule w' l' (zlen p =? 0)).
  { unfold get_rule. rewrite Hc, Hw, Hl, !py_from_app. reflexivity. }
  rewrite R. clear R.
  exists p. simpl. split; [auto|]. split; [auto|]. split.
  - intros q w2 l2 Hw2 Hl2. destruct (le_gt_dec (length q) (length p)) as [L|L]; auto. exfalso.
    rewrite Hw2 in Hw. rewrite Hl2 in Hl.
    assert (A : exists c t, q = p ++ c :: t).
    { clear -Hw L. revert p Hw L. induction q as [|x q IH]; intros p H L; [simpl in L; lia|].
      destruct p as [|y p]; [exists x, q; auto|]. simpl in *. inversion H; subst.
      destruct (IH p) as (c & t & E); auto; [lia|]. exists c, t. rewrite E. auto. }
    destruct A as (c & t & ->). rewrite <- app_assoc in Hw, Hl.
    apply app_inv_head in Hw. apply app_inv_head in Hl. simpl in *. subst. auto.
  - rewrite Z.eqb_eq. split; [apply zlen_zero|]. intros ->. auto.
Qed.

Lemma app_same_length {A} (p p' a b : list A) : p ++ a = p' ++ b -> length p = length p' -> p = p' /\ a = b.
Proof.
  revert p'; induction p as [|x p IH]; intros [|y p'] H L; simpl in *; try discriminate; auto.
  inversion H; subst. destruct (IH p') as [-> ->]; auto.
Qed.

Lemma learned_unique w l r r' : learned_rule w l r -> learned_rule w l r' -> r = r'.
Proof.
  intros (p & W & L & M & X) (p' & W' & L' & M' & X').
  assert (length p = length p').
  { apply Nat.le_antisymm; [eapply M'; eauto|eapply M; eauto]. }
  rewrite W in W'. rewrite L in L'. apply app_same_length in W'; auto. apply app_same_length in L'; auto.
  destruct W' as [E W'], L' as [_ L']. subst p'.
  destruct r as [a b c], r' as [a' b' c']; simpl in *. subst. f_equal.
  destruct c, c'; auto; exfalso.
  - assert (Y : p = []) by (apply X; auto). apply X' in Y. discriminate.
  - assert (Y : p = []) by (apply X'; auto). apply X in Y. discriminate.
Qed.

Lemma learned_iff w l r : learned_rule w l r <-> r = get_rule w l.
Proof.
  split; [intros H; eapply learned_unique; eauto using get_rule_learned|intros ->; apply get_rule_learned].
Qed.

Lemma rule_reproduces w l : let r := get_rule w l in
  is_applicable r w = true /\ transform r w = Ok l /\ learned_rule w l r.
Proof.
  intros r. assert (H := get_rule_learned w l). fold r in H. split; [|split; auto].
  - apply endswith_iff. destruct H as (p & Hw & _). exists p. auto.
  - apply transform_iff. destruct H as (p & Hw & Hl & _). exists p. auto.
Qed.

(* ------------------------------------------------------------------ *)
(* rules as labels *)

Lemma rule_eqb_eq a b : rule_eqb a b = true <-> a = b.
Proof.
  unfold rule_eqb. rewrite !andb_true_iff, !str_eqb_eq, Bool.eqb_true_iff.
  destruct a, b; simpl. split; [intros [[-> ->] ->]; auto|intros H; inversion H; auto].
Qed.

Lemma rule_equiv : equivalence rule_eqb.
Proof. apply eqb_equivalence, rule_eqb_eq. Qed.

Lemma bool_cmp_ok : cmp_ok bool_cmp.
Proof.
  split.
  - intros [] []; simpl; split; congruence.
  - intros [] []; reflexivity.
  - intros [] [] []; simpl; congruence.
Qed.

Lemma rule_cmp_ok : cmp_ok rule_cmp.
Proof.
  set (f := fun r => (word_suffix r, (lemma_suffix r, exception r))).
  assert (C := pair_cmp_ok _ _ str_cmp_ok (pair_cmp_ok _ _ str_cmp_ok bool_cmp_ok)).
  assert (E : forall a b, rule_cmp a b = pair_cmp str_cmp (pair_cmp str_cmp bool_cmp) (f a) (f b)).
  { intros a b. unfold rule_cmp, pair_cmp, f. simpl. destruct (str_cmp _ _); auto. }
  split.
  - intros x y. rewrite E, (cmp_eq _ C). unfold f. destruct x, y; simpl. split; congruence.
  - intros x y. rewrite !E. apply (cmp_anti _ C).
  - intros x y z. rewrite !E. apply (cmp_trans _ C).
Qed.

(* ------------------------------------------------------------------ *)
(* the trie: what is stored under a path *)

Fixpoint lookup (t : trie) (p : str) : option trie :=
  match p with
  | [] => Some t
  | c :: p' => match get_child t c with None => None | Some t' => lookup t' p' end
  end.
Definition reg_at (t : trie) (p : str) := match lookup t p with Some n => t_regular n | None => [] end.
Definition exc_at (t : trie) (p : str) := match lookup t p with Some n => t_exceptions n | None => [] end.
Definition has_node (t : trie) (p : str) : bool := negb (is_none (lookup t p)).

Lemma N_equiv : equivalence N.eqb.
Proof. apply eqb_equivalence, N.eqb_eq. Qed.

Lemma get_child_set t c x r e d : get_child (Trie (gset N.eqb (t_children t) c x) r e) d =
  if (d =? c)%N then Some x else get_child t d.
Proof.
  unfold get_child. simpl. destruct (d =? c)%N eqn:E.
  - apply gget_gset_same; auto using N_equiv.
  - apply gget_gset_other; auto using N_equiv.
Qed.

Lemma lookup_empty p : lookup empty_trie p = match p with [] => Some empty_trie | _ => None end.
Proof. destruct p; auto. Qed.

Lemma put_reg path e : forall t p,
  reg_at (put_rule path e t) p = reg_at t p ++ (if is_regular (fst e) && str_eqb p path then [e] else []).
Proof.
  unfold reg_at. induction path as [|c path IH]; intros t p.
  - destruct t as [ch r x]. cbn [put_rule add_rule]. destruct (is_regular (fst e)), p as [|d p]; simpl; auto;
      rewrite app_nil_r; auto.
  - cbn [put_rule]. destruct p as [|d p]; cbn [lookup].
    + simpl. rewrite andb_false_r, app_nil_r. auto.
    + rewrite get_child_set. change (str_eqb (d :: p) (c :: path)) with ((d =? c)%N && str_eqb p path).
      destruct (d =? c)%N eqn:E.
      * apply N.eqb_eq in E. subst d. rewrite IH. cbn [andb]. destruct (get_child t c); auto.
        rewrite lookup_empty. destruct p; auto.
      * cbn [andb]. rewrite andb_false_r, app_nil_r. auto.
Qed.

Lemma put_exc path e : forall t p,
  exc_at (put_rule path e t) p = exc_at t p ++ (if exception (fst e) && str_eqb p path then [e] else []).
Proof.
  unfold exc_at. induction path as [|c path IH]; intros t p.
  - destruct t as [ch r x]. cbn [put_rule add_rule]. unfold is_regular.
    destruct (exception (fst e)), p as [|d p]; simpl; auto; rewrite app_nil_r; auto.
  - cbn [put_rule]. destruct p as [|d p]; cbn [lookup].
    + simpl. rewrite andb_false_r, app_nil_r. auto.
    + rewrite get_child_set. change (str_eqb (d :: p) (c :: path)) with ((d =? c)%N && str_eqb p path).
      destruct (d =? c)%N eqn:E.
      * apply N.eqb_eq in E. subst d. rewrite IH. cbn [andb]. destruct (get_child t c); auto.
        rewrite lookup_empty. destruct p; auto.
      * cbn [andb]. rewrite andb_false_r, app_nil_r. auto.
Qed.

Lemma put_has path e : forall t p, has_node (put_rule path e t) p = has_node t p || prefixb N.eqb p path.
Proof.
  unfold has_node. induction path as [|c path IH]; intros t p.
  - destruct t as [ch r x]. cbn [put_rule add_rule]. destruct (is_regular (fst e)), p as [|d p]; simpl; auto;
      rewrite orb_false_r; auto.
  - cbn [put_rule]. destruct p as [|d p]; cbn [lookup prefixb]; [simpl; auto|].
    rewrite get_child_set. destruct (d =? c)%N eqn:E.
    + apply N.eqb_eq in E. subst d. rewrite IH. cbn [andb]. destruct (get_child t c); auto.
      rewrite lookup_empty. destruct p; auto.
    + cbn [andb]. rewrite orb_false_r. auto.
Qed.

Lemma build_reg rules p : reg_at (build_trie rules) p = entries_for false (rev p) rules.
Proof.
  unfold build_trie, entries_for.
  assert (H : forall rs t, reg_at (fold_left (fun t e => put_rule (rev (word_suffix (fst e))) e t) rs t) p =
    reg_at t p ++ filter (fun e => Bool.eqb (exception (fst e)) false && str_eqb (word_suffix (fst e)) (rev p)) rs).
  { induction rs as [|e rs IH]; intros t; simpl; [rewrite app_nil_r; auto|].
    rewrite IH, put_reg, <- app_assoc. f_equal. unfold is_regular.
    assert (X : str_eqb p (rev (word_suffix (fst e))) = str_eqb (word_suffix (fst e)) (rev p)).
    { apply eq_true_iff_eq. rewrite !str_eqb_eq. split; intros ->; rewrite rev_involutive; auto. }
    rewrite X. destruct (exception (fst e)), (str_eqb (word_suffix (fst e)) (rev p)); reflexivity. }
  rewrite H. unfold reg_at. rewrite lookup_empty. destruct p; auto.
Qed.

Lemma build_exc rules p : exc_at (build_trie rules) p = entries_for true (rev p) rules.
Proof.
  unfold build_trie, entries_for.
  assert (H : forall rs t, exc_at (fold_left (fun t e => put_rule (rev (word_suffix (fst e))) e t) rs t) p =
    exc_at t p ++ filter (fun e => Bool.eqb (exception (fst e)) true && str_eqb (word_suffix (fst e)) (rev p)) rs).
  { induction rs as [|e rs IH]; intros t; simpl; [rewrite app_nil_r; auto|].
    rewrite IH, put_exc, <- app_assoc. f_equal.
    assert (X : str_eqb p (rev (word_suffix (fst e))) = str_eqb (word_suffix (fst e)) (rev p)).
    { apply eq_true_iff_eq. rewrite !str_eqb_eq. split; intros ->; rewrite rev_involutive; auto. }
    rewrite X. destruct (exception (fst e)), (str_eqb (word_suffix (fst e)) (rev p)); reflexivity. }
  rewrite H. unfold exc_at. rewrite lookup_empty. destruct p; auto.
Qed.

Lemma build_has rules p : has_node (build_trie rules) p = true <-> known_suffix rules (rev p).
Proof.
  unfold build_trie, known_suffix.
  assert (H : forall rs t, has_node (fold_left (fun t e => put_rule (rev (word_suffix (fst e))) e t) rs t) p = true <->
    has_node t p = true \/ exists e, In e rs /\ ends_with (word_suffix (fst e)) (rev p)).
  { induction rs as [|e rs IH]; intros t; simpl.
    - split; [auto|]. intros [H|(e & [] & _)]; auto.
    - rewrite IH, put_has, orb_true_iff. 
      assert (X : prefixb N.eqb p (rev (word_suffix (fst e))) = true <-> ends_with (word_suffix (fst e)) (rev p)).
      { rewrite <- endswith_iff. unfold endswith. rewrite rev_involutive. tauto. }
      rewrite X. split.
      + intros [[H|H]|(e' & H & H')]; eauto 6.
      + intros [H|(e' & [->|H] & H')]; eauto. }
  rewrite H. unfold has_node. rewrite lookup_empty. destruct p as [|c p]; simpl.
  - tauto.
  - split; [intros [X|X]; [discriminate|auto]|]. intros [X|X]; auto.
    destruct (rev p); discriminate.
Qed.

(* ------------------------------------------------------------------ *)
(* the walk *)

Definition deepest (t : trie) (path : str) (d : nat) : Prop :=
  (d <= length path)%nat /\ has_node t (firstn d path) = true /\
  forall d', (d < d' <= length path)%nat -> has_node t (firstn d' path) = false.

Lemma walk_spec path : forall t d, deepest t path d ->
  walk_trie path t = flat_map (fun k => reg_at t (firstn k path)) (seq 0 (length path)) ++ exc_at t (firstn d path).
Proof.
  induction path as [|c path IH]; intros t d (Hd & Hn & Hmax).
  - simpl in *. assert (d = 0)%nat by lia. subst. auto.
  - cbn [walk_trie length seq flat_map firstn]. change (reg_at t []) with (t_regular t).
    rewrite <- app_assoc. f_equal. rewrite <- seq_shift, flat_map_concat_map, map_map.
    destruct (get_child t c) as [t'|] eqn:G.
    + destruct d as [|d].
      { exfalso. assert (X := Hmax 1%nat ltac:(simpl; lia)). unfold has_node in X. simpl in X. rewrite G in X. discriminate. }
      rewrite (IH t' d).
      * rewrite flat_map_concat_map. f_equal.
        -- f_equal. apply map_ext. intros k. unfold reg_at. cbn [firstn lookup]. rewrite G. auto.
        -- unfold exc_at. cbn [firstn lookup]. rewrite G. auto.
      * split; [simpl in Hd; lia|]. split.
        -- unfold has_node in *. cbn [firstn lookup] in Hn. rewrite G in Hn. auto.
        -- intros d' Hd'. assert (X := Hmax (S d') ltac:(simpl; lia)). unfold has_node in *. cbn [firstn lookup] in X.
           rewrite G in X. auto.
    + destruct d as [|d].
      * assert (E : concat (map (fun x => reg_at t (firstn (S x) (c :: path))) (seq 0 (length path))) = []).
        { generalize (seq 0 (length path)). induction l as [|x l IHl]; simpl; auto.
          unfold reg_at at 1. cbn [firstn lookup]. rewrite G. auto. }
        rewrite E. simpl. auto.
      * unfold has_node in Hn. cbn [firstn lookup] in Hn. rewrite G in Hn. discriminate.
Qed.

Lemma firstn_rev_last k w : (k <= length w)%nat -> rev (firstn k (rev w)) = last_chars k w.
Proof.
  intros H. unfold last_chars. rewrite firstn_rev. rewrite rev_involutive. auto.
Qed.

Lemma longest_known_deepest rules w d : longest_known rules w d -> deepest (build_trie rules) (rev w) d.
Proof.
  intros (Hd & Hk & Hmax). split; [rewrite rev_length; auto|]. split.
  - apply build_has. rewrite firstn_rev_last; auto.
  - intros d' Hd'. rewrite rev_length in Hd'. apply not_true_is_false. rewrite build_has, firstn_rev_last by lia.
    apply Hmax. auto.
Qed.

Lemma trie_exact rules w d : longest_known rules w d ->
  get_applicable_rules (build_trie rules) w =
  flat_map (fun k => entries_for false (last_chars k w) rules) (seq 0 (length w)) ++ entries_for true (last_chars d w) rules.
Proof.
  intros H. unfold get_applicable_rules. rewrite (walk_spec _ _ d) by (apply longest_known_deepest; auto).
  rewrite rev_length. f_equal.
  - rewrite !flat_map_concat_map. f_equal. apply map_ext_in. intros k Hk. apply in_seq in Hk.
    rewrite build_reg, firstn_rev_last by lia. auto.
  - rewrite build_exc, firstn_rev_last by apply H. auto.
Qed.

Lemma longest_known_exists rules w : exists d, longest_known rules w d.
Proof.
  assert (H : forall n, (n <= length w)%nat ->
    (forall d', (n < d' <= length w)%nat -> has_node (build_trie rules) (firstn d' (rev w)) = false) ->
    exists d, longest_known rules w d).
  { induction n as [|n IH]; intros Hn Hmax.
    - exists 0%nat. split; [lia|]. split.
      + left. unfold last_chars. rewrite Nat.sub_0_r, skipn_all. auto.
      + intros d' Hd'. assert (X := Hmax d' Hd'). rewrite <- firstn_rev_last by lia. rewrite <- build_has. congruence.
    - destruct (has_node (build_trie rules) (firstn (S n) (rev w))) eqn:E.
      + exists (S n). split; auto. split.
        * rewrite <- firstn_rev_last by lia. apply build_has. auto.
        * intros d' Hd'. assert (X := Hmax d' Hd'). rewrite <- firstn_rev_last by lia. rewrite <- build_has. congruence.
      + apply IH; [lia|]. intros d' Hd'. destruct (Nat.eq_dec d' (S n)) as [->|N]; auto. apply Hmax. lia. }
  apply (H (length w)); auto. intros d' Hd'. lia.
Qed.

(* ------------------------------------------------------------------ *)
(* consequences *)

Lemma last_chars_suffix k w : ends_with w (last_chars k w).
Proof. exists (firstn (length w - k) w). unfold last_chars. rewrite firstn_skipn. auto. Qed.

Lemma last_chars_of_suffix w s : ends_with w s -> last_chars (length s) w = s /\ (length s <= length w)%nat.
Proof.
  intros [p ->]. unfold last_chars. rewrite app_length. split; [|lia].
  replace (length p + length s - length s)%nat with (length p) by lia.
  rewrite skipn_app, skipn_all, Nat.sub_diag. auto.
Qed.

Lemma in_entries exc s rules e :
  In e (entries_for exc s rules) <-> In e rules /\ exception (fst e) = exc /\ word_suffix (fst e) = s.
Proof.
  unfold entries_for. rewrite filter_In, andb_true_iff, Bool.eqb_true_iff, str_eqb_eq. tauto.
Qed.

Lemma offered_iff rules w e : In e (get_applicable_rules (build_trie rules) w) <->
  In e rules /\ ends_with w (word_suffix (fst e)) /\
  (if exception (fst e)
   then forall e' s, In e' rules -> ends_with (word_suffix (fst e')) s -> ends_with w s ->
          (length s <= length (word_suffix (fst e)))%nat
   else word_suffix (fst e) <> w).
Proof.
  destruct (longest_known_exists rules w) as (d & L). rewrite (trie_exact _ _ _ L).
  rewrite in_app_iff, in_flat_map. split.
  - intros [(k & Hk & H)|H]; apply in_entries in H; destruct H as (Hin & Hexc & Hs).
    + rewrite Hexc. split; auto. rewrite Hs. split; [apply last_chars_suffix|].
      intros E. apply in_seq in Hk. apply (f_equal (@length char)) in E. unfold last_chars in E.
      rewrite skipn_length in E. lia.
    + rewrite Hexc. split; auto. rewrite Hs. split; [apply last_chars_suffix|].
      destruct L as (Ld & Lk & Lmax). intros e' s He' Hes Hws.
      assert (Hlen : length (last_chars d w) = d) by (unfold last_chars; rewrite skipn_length; lia).
      rewrite Hlen. destruct (le_gt_dec (length s) d) as [X|X]; auto. exfalso.
      destruct (last_chars_of_suffix _ _ Hws) as [Hl Hle].
      apply (Lmax (length s)); [lia|]. rewrite Hl. right. eauto.
  - intros (Hin & Hw & Hx). destruct (last_chars_of_suffix _ _ Hw) as [Hl Hle].
    destruct (exception (fst e)) eqn:Hexc.
    + right. apply in_entries. split; auto. split; auto.
      destruct L as (Ld & Lk & Lmax).
      assert (Hd : d = length (word_suffix (fst e))).
      { assert (A : ~ (d < length (word_suffix (fst e)))%nat).
        { intros X. apply (Lmax (length (word_suffix (fst e)))); [lia|]. rewrite Hl. right. exists e. split; auto.
          exists []. auto. }
        assert (B : (d <= length (word_suffix (fst e)))%nat).
        { destruct Lk as [Lk|(e' & He' & Hs')].
          - apply (f_equal (@length char)) in Lk. unfold last_chars in Lk. rewrite skipn_length in Lk. simpl in Lk. lia.
          - assert (X := Hx e' _ He' Hs' (last_chars_suffix d w)). unfold last_chars in X. rewrite skipn_length in X. lia. }
        lia. }
      subst d. auto.
    + left. exists (length (word_suffix (fst e))). split.
      * apply in_seq. assert (length (word_suffix (fst e)) <> length w); [|lia].
        intros E. apply Hx. rewrite <- Hl, E. unfold last_chars. rewrite Nat.sub_diag. auto.
      * apply in_entries. auto.
Qed.

Lemma trie_sound rules w e : In e (get_applicable_rules (build_trie rules) w) ->
  In e rules /\ is_applicable (fst e) w = true /\ exists l, transform (fst e) w = Ok l.
Proof.
  intros H. apply offered_iff in H. destruct H as (Hin & Hw & _). split; auto. split; [apply endswith_iff; auto|].
  destruct Hw as [p E]. exists (p ++ lemma_suffix (fst e)). apply transform_iff. eauto.
Qed.

Lemma trie_complete_regular rules w e : In e rules -> exception (fst e) = false -> is_applicable (fst e) w = true ->
  word_suffix (fst e) <> w -> In e (get_applicable_rules (build_trie rules) w).
Proof.
  intros Hin He Ha Hw. apply offered_iff. rewrite He. split; auto. split; auto. apply endswith_iff. auto.
Qed.

Lemma trie_whole_word rules w e : In e rules -> exception (fst e) = true -> word_suffix (fst e) = w ->
  In e (get_applicable_rules (build_trie rules) w).
Proof.
  intros Hin He Hw. apply offered_iff. rewrite He, Hw. split; auto. split; [exists []; auto|].
  intros e' s _ _ [p E]. rewrite E, app_length. lia.
Qed.

(* the rule learned from a pair is offered for its word *)
Lemma learned_offered rules w l i : In (get_rule w l, i) rules ->
  In (get_rule w l, i) (get_applicable_rules (build_trie rules) w).
Proof.
  intros H. destruct (rule_reproduces w l) as (A & T & L).
  destruct L as (p & Hw & Hl & _ & X).
  destruct (exception (get_rule w l)) eqn:E.
  - assert (p = []) by (apply X; auto). subst p. apply trie_whole_word; auto.
  - apply trie_complete_regular; auto. cbn [fst]. intros Y. assert (p = []); [|subst p].
    { apply (f_equal (@length char)) in Hw. rewrite app_length, Y in Hw. destruct p; auto. simpl in Hw. lia. }
    assert (false = true) by (apply X; auto). discriminate.
Qed.
