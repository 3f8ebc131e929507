(* validate_syntax accepts exactly unparsed sentences and dependency trees. *)
From Coq Require Import ZArith NArith Bool Lia Permutation Sorted List.
From Verif Require Import Base BaseFacts Model_Datamodel Spec_Datamodel Proofs_Datamodel.
Import ListNotations.
Open Scope Z_scope.

Fixpoint count_none {A} (l : list (option A)) : nat :=
  match l with
  | [] => O
  | None :: l' => S (count_none l')
  | Some _ :: l' => count_none l'
  end.

Lemma count_none_le {A} (l : list (option A)) : (count_none l <= length l)%nat.
Proof. induction l as [|[x|] l IH]; simpl; lia. Qed.

Lemma count_none_set {A} (l : list (option A)) i x :
  nth_error l i = Some None -> S (count_none (set_nth l i (Some x))) = count_none l.
Proof.
  revert i; induction l as [|[y|] l IH]; destruct i; simpl; intros H; try discriminate; auto.
Qed.

(* following heads from k ends in a root or a token without a head *)
Inductive stops (heads : list (option Z)) : nat -> Prop :=
| st_root k : nth_error heads k = Some (Some (-1)) -> stops heads k
| st_none k : nth_error heads k = Some None -> stops heads k
| st_step k h : nth_error heads k = Some (Some (Z.of_nat h)) -> stops heads h -> stops heads k.

(* number of steps to the root *)
Inductive rank (heads : list (option Z)) : nat -> nat -> Prop :=
| rk_root k : nth_error heads k = Some (Some (-1)) -> rank heads 0 k
| rk_step d k h : nth_error heads k = Some (Some (Z.of_nat h)) -> rank heads d h -> rank heads (S d) k.

Lemma rank_unique heads d k : rank heads d k -> forall d', rank heads d' k -> d = d'.
Proof.
  induction 1 as [k H|d k h H R IH]; intros d' H'; inversion H'; subst; auto; try congruence.
  - rewrite H in H0. inversion H0. lia.
  - rewrite H in H0. inversion H0. lia.
  - f_equal. apply IH. rewrite H in H0. inversion H0. assert (h = h0) by lia. subst; auto.
Qed.

Lemma reaches_rank heads k : reaches_root heads k -> exists d, rank heads d k.
Proof.
  induction 1 as [|k h H R [d IH]]; eauto using rank.
Qed.

Lemma rank_reaches heads d k : rank heads d k -> reaches_root heads k.
Proof. induction 1; eauto using reaches_root. Qed.

Section Sentence.
  Variables (ts : list token) (s : sentence).
  Hypothesis Hs : sent_wf s.
  Hypothesis Hend : send s <= zlen ts.
  Hypothesis Hfilled : Forall (filled (sstart s)) (tokens_of ts s).

  Let sts := tokens_of ts s.
  Let heads := map shown_head sts.
  Let n := length sts.

  Lemma sent_len_n : sent_len s = Z.of_nat n.
  Proof.
    unfold n, sts. pose proof (tokens_of_length ts s) as H. unfold zlen, sent_len, sent_wf in *. lia.
  Qed.

  Lemma index_sentence k t : nth_error sts k = Some t -> py_index ts (sstart s + Z.of_nat k) = Ok t.
  Proof.
    intros H. assert (k < n)%nat by (apply nth_error_Some; congruence).
    pose proof sent_len_n. unfold sent_len, sent_wf in *.
    rewrite py_index_nonneg by lia.
    unfold sts in H. rewrite tokens_of_nth in H by lia.
    replace (Z.to_nat (sstart s + Z.of_nat k)) with (Z.to_nat (sstart s) + k)%nat by lia.
    rewrite H. reflexivity.
  Qed.

  Lemma nth_heads k t : nth_error sts k = Some t -> nth_error heads k = Some (shown_head t).
  Proof. intros H. unfold heads. rewrite nth_error_map, H. reflexivity. Qed.

  Lemma head_cases k t : nth_error sts k = Some t ->
    (has_head t = false /\ is_root t = false /\ nth_error heads k = Some None) \/
    (has_head t = true /\ is_root t = true /\ nth_error heads k = Some (Some (-1))) \/
    (has_head t = true /\ is_root t = false /\
     exists h, thsent t = Some h /\ thdoc t = Some (h + sstart s) /\ h <> -1 /\ nth_error heads k = Some (Some h)).
  Proof.
    intros H. rewrite (nth_heads _ _ H).
    assert (F : filled (sstart s) t).
    { rewrite Forall_forall in Hfilled. apply Hfilled. eapply nth_error_In; eauto. }
    unfold has_head, is_root, shown_head, is_minus1.
    destruct F as [(-> & ->)|(d & h & -> & -> & F)]; simpl; auto.
    destruct (Z.eqb_spec d (-1)); destruct (Z.eqb_spec h (-1)); subst; simpl; auto.
    right; right. repeat split; auto. exists h. repeat split; auto. f_equal. lia.
  Qed.

  Lemma nth_sts k : (k < n)%nat -> exists t, nth_error sts k = Some t.
  Proof.
    intros H. destruct (nth_error sts k) eqn:E; eauto. apply nth_error_None in E. unfold n in H. lia.
  Qed.

  Definition marked (v : list (option Z)) (k : nat) (i : Z) : Prop := nth_error v k = Some (Some i).

  Lemma walk_fuel fuel i v k t :
    length v = n -> nth_error sts k = Some t -> (count_none v < fuel)%nat ->
    exists r, validate_walk fuel ts s i v t = r /\ (r = Err EValue \/ exists v', r = Ok v').
  Proof.
    revert v k t. induction fuel as [|fuel IH]; intros v k t L Ht C; [lia|].
    simpl. destruct (head_cases k t Ht) as [(-> & -> & _)|[(-> & -> & _)|(-> & -> & h & -> & -> & Hh & Hk)]]; simpl; eauto.
    pose proof sent_len_n.
    destruct (Z.ltb_spec h 0); simpl; eauto. destruct (Z.leb_spec (sent_len s) h); simpl; eauto.
    destruct (py_index_ok v h) as (c & Hc & Hn); [unfold zlen; lia|]. rewrite Hc. simpl.
    destruct c as [j|].
    - destruct (j =? i); eauto.
    - destruct (nth_sts (Z.to_nat h)) as [t' Ht']; [lia|].
      pose proof (index_sentence _ _ Ht') as E. replace (sstart s + Z.of_nat (Z.to_nat h)) with (h + sstart s) in E by lia.
      rewrite E. simpl. apply (IH _ _ _ (eq_trans (set_nth_length _ _ _) L) Ht').
      pose proof (count_none_set _ _ i Hn). lia.
  Qed.

  (* marks are never erased and new marks are those of the current round *)
  Lemma walk_marks fuel i v k t v' :
    length v = n -> nth_error sts k = Some t -> validate_walk fuel ts s i v t = Ok v' ->
    length v' = n /\
    (forall m j, marked v m j -> marked v' m j) /\
    (forall m j, marked v' m j -> marked v m j \/ j = i).
  Proof.
    revert v k t. induction fuel as [|fuel IH]; intros v k t L Ht; simpl; [discriminate|].
    destruct (head_cases k t Ht) as [(-> & -> & _)|[(-> & -> & _)|(-> & -> & h & -> & -> & Hh & Hk)]]; simpl.
    - intros E; inversion E; subst; auto.
    - intros E; inversion E; subst; auto.
    - pose proof sent_len_n.
      destruct (Z.ltb_spec h 0); simpl; [discriminate|]. destruct (Z.leb_spec (sent_len s) h); simpl; [discriminate|].
      destruct (py_index_ok v h) as (c & Hc & Hn); [unfold zlen; lia|]. rewrite Hc. simpl.
      destruct c as [j|].
      + destruct (j =? i); [discriminate|]. intros E; inversion E; subst; auto.
      + destruct (nth_sts (Z.to_nat h)) as [t' Ht']; [lia|].
        pose proof (index_sentence _ _ Ht') as E. replace (sstart s + Z.of_nat (Z.to_nat h)) with (h + sstart s) in E by lia.
        rewrite E. simpl. intros W.
        destruct (IH _ _ _ (eq_trans (set_nth_length _ _ _) L) Ht' W) as (L' & M1 & M2).
        split; [auto|]. unfold marked in *. split.
        * intros m j Hm. apply M1. rewrite set_nth_other; auto. intros N. rewrite N in Hn. congruence.
        * intros m j Hm. apply M2 in Hm. destruct Hm as [Hm|]; auto.
          destruct (Nat.eq_dec (Z.to_nat h) m) as [<-|N].
          -- rewrite set_nth_same in Hm by lia. right; congruence.
          -- rewrite set_nth_other in Hm by auto. auto.
  Qed.

  Lemma walk_sound fuel i v k t v' :
    length v = n -> nth_error sts k = Some t ->
    (forall m j, marked v m j -> j <> i -> stops heads m) ->
    validate_walk fuel ts s i v t = Ok v' ->
    stops heads k /\
    (forall m j, marked v' m j -> marked v m j \/ stops heads m).
  Proof.
    revert v k t. induction fuel as [|fuel IH]; intros v k t L Ht S; simpl; [discriminate|].
    destruct (head_cases k t Ht) as [(-> & -> & Hk)|[(-> & -> & Hk)|(-> & -> & h & -> & -> & Hh & Hk)]]; simpl.
    - intros E; inversion E; subst; eauto using stops.
    - intros E; inversion E; subst; eauto using stops.
    - pose proof sent_len_n.
      destruct (Z.ltb_spec h 0); simpl; [discriminate|]. destruct (Z.leb_spec (sent_len s) h); simpl; [discriminate|].
      destruct (py_index_ok v h) as (c & Hc & Hn); [unfold zlen; lia|]. rewrite Hc. simpl.
      assert (Hk' : nth_error heads k = Some (Some (Z.of_nat (Z.to_nat h)))) by (rewrite Z2Nat.id by lia; auto).
      destruct c as [j|].
      + destruct (Z.eqb_spec j i); [discriminate|]. intros E; inversion E; subst. split; auto.
        eapply st_step; eauto.
      + destruct (nth_sts (Z.to_nat h)) as [t' Ht']; [lia|].
        pose proof (index_sentence _ _ Ht') as E. replace (sstart s + Z.of_nat (Z.to_nat h)) with (h + sstart s) in E by lia.
        rewrite E. simpl. intros W.
        destruct (IH _ _ _ (eq_trans (set_nth_length v (Z.to_nat h) (Some i)) L) Ht') with (2 := W) as (S1 & S2).
        { unfold marked. intros m j Hm Nj.
          destruct (Nat.eq_dec (Z.to_nat h) m) as [<-|N].
          - rewrite set_nth_same in Hm by lia. congruence.
          - rewrite set_nth_other in Hm by auto. eapply S; eauto. }
        split; [eapply st_step; eauto|].
        intros m j Hm. destruct (S2 _ _ Hm) as [Hm'|]; auto. unfold marked in Hm'.
        destruct (Nat.eq_dec (Z.to_nat h) m) as [<-|N]; auto.
        rewrite set_nth_other in Hm' by auto. auto.
  Qed.

  Lemma heads_length : length heads = n.
  Proof. unfold heads, n. apply map_length. Qed.

  Lemma walk_complete fuel i v k t d :
    length v = n -> nth_error sts k = Some t -> (count_none v < fuel)%nat ->
    rank heads d k ->
    (forall m d', marked v m i -> rank heads d' m -> (d <= d')%nat) ->
    exists v', validate_walk fuel ts s i v t = Ok v'.
  Proof.
    revert v k t d. induction fuel as [|fuel IH]; intros v k t d L Ht C R Inv; [lia|].
    simpl. destruct (head_cases k t Ht) as [(-> & -> & Hk)|[(-> & -> & Hk)|(-> & -> & h & -> & -> & Hh & Hk)]]; simpl; eauto.
    pose proof sent_len_n.
    inversion R as [? Hk'|d0 ? h' Hk' R']; subst; [congruence|].
    rewrite Hk in Hk'. inversion Hk'; subst h.
    assert (h' < n)%nat. { rewrite <- heads_length. apply nth_error_Some. inversion R'; congruence. }
    destruct (Z.ltb_spec (Z.of_nat h') 0); simpl; [lia|]. destruct (Z.leb_spec (sent_len s) (Z.of_nat h')); simpl; [lia|].
    destruct (py_index_ok v (Z.of_nat h')) as (c & Hc & Hn); [unfold zlen; lia|]. rewrite Hc. simpl.
    rewrite Nat2Z.id in *.
    destruct c as [j|].
    - destruct (Z.eqb_spec j i); eauto. subst. exfalso.
      specialize (Inv h' d0 Hn R'). lia.
    - destruct (nth_sts h') as [t' Ht']; [lia|].
      pose proof (index_sentence _ _ Ht') as E. replace (sstart s + Z.of_nat h') with (Z.of_nat h' + sstart s) in E by lia.
      rewrite E. simpl. apply (IH _ _ _ d0 (eq_trans (set_nth_length _ _ _) L) Ht'); auto.
      + pose proof (count_none_set _ _ i Hn). lia.
      + intros m d' Hm Rm. unfold marked in Hm.
        destruct (Nat.eq_dec h' m) as [<-|N].
        * rewrite (rank_unique _ _ _ R' _ Rm). lia.
        * rewrite set_nth_other in Hm by auto. specialize (Inv _ _ Hm Rm). lia.
  Qed.

  Local Arguments validate_walk : simpl never.

  Lemma loop_sound m a root v :
    (a + m = n)%nat -> length v = n ->
    (forall k j, marked v k j -> j < Z.of_nat a /\ stops heads k) ->
    validate_loop ts s (map Z.of_nat (seq a m)) root v = Ok tt ->
    (forall k, (a <= k < n)%nat -> nth_error heads k <> Some None /\ stops heads k) /\
    (forall k, (a <= k < n)%nat -> nth_error heads k = Some (Some (-1)) -> root = false) /\
    (forall k k', (a <= k < n)%nat -> (a <= k' < n)%nat ->
        nth_error heads k = Some (Some (-1)) -> nth_error heads k' = Some (Some (-1)) -> k = k').
  Proof.
    revert a root v. induction m as [|m IH]; intros a root v Ham L Inv.
    - intros _. repeat split; intros; lia.
    - simpl. destruct (nth_sts a) as [t Ht]; [lia|]. rewrite (index_sentence _ _ Ht). simpl.
      destruct (py_index_ok v (Z.of_nat a)) as (c & Hc & Hn); [unfold zlen; lia|]. rewrite Nat2Z.id in Hn.
      destruct (head_cases a t Ht) as [(-> & -> & Hk)|[(-> & -> & Hk)|(-> & -> & h & Eh & Ed & Hh & Hk)]]; simpl; [discriminate| |].
      + destruct root; [discriminate|]. rewrite Hc. simpl. rewrite Nat2Z.id. intros W.
        destruct (IH (S a) true (match c with Some _ => v | None => set_nth v a (Some (Z.of_nat a)) end) ltac:(lia)) with (3 := W) as (A1 & A2 & A3).
        { destruct c; rewrite ?set_nth_length; auto. }
        { intros k j Hm. unfold marked in Hm. destruct c as [c|].
          - destruct (Inv _ _ Hm). split; auto; lia.
          - destruct (Nat.eq_dec a k) as [<-|N].
            + rewrite set_nth_same in Hm by lia. split; [inversion Hm; lia|]. apply st_root; auto.
            + rewrite set_nth_other in Hm by auto. destruct (Inv _ _ Hm). split; auto; lia. }
        repeat split; auto.
        * destruct (Nat.eq_dec a k) as [<-|N]; [congruence|]. apply A1; lia.
        * destruct (Nat.eq_dec a k) as [<-|N]; [apply st_root; auto|]. apply A1; lia.
        * intros k k' Hk1 Hk2 R1 R2.
          destruct (Nat.eq_dec a k) as [<-|N]; destruct (Nat.eq_dec a k') as [<-|N']; auto.
          -- assert (true = false) by (apply (A2 k'); auto; lia). discriminate.
          -- assert (true = false) by (apply (A2 k); auto; lia). discriminate.
          -- apply A3; auto; lia.
      + rewrite Hc. simpl. destruct c as [c|].
        * intros W. destruct (IH (S a) root v ltac:(lia) L) with (2 := W) as (A1 & A2 & A3).
          { intros k j Hm. destruct (Inv _ _ Hm). split; auto; lia. }
          assert (Sa : stops heads a) by (apply (Inv a c); auto).
          repeat split.
          -- destruct (Nat.eq_dec a k) as [<-|N]; [congruence|]. apply A1; lia.
          -- destruct (Nat.eq_dec a k) as [<-|N]; auto. apply A1; lia.
          -- intros k Hk1 R1. destruct (Nat.eq_dec a k) as [<-|N]; [congruence|]. apply (A2 k); auto; lia.
          -- intros k k' Hk1 Hk2 R1 R2.
             destruct (Nat.eq_dec a k) as [<-|N]; [congruence|].
             destruct (Nat.eq_dec a k') as [<-|N']; [congruence|]. apply A3; auto; lia.
        * rewrite Nat2Z.id. intros W. apply bind_ok_iff in W. destruct W as (v' & W & W').
          set (v0 := set_nth v a (Some (Z.of_nat a))) in *.
          assert (L0 : length v0 = n) by (unfold v0; rewrite set_nth_length; auto).
          destruct (walk_marks _ _ _ _ _ _ L0 Ht W) as (L' & M1 & M2).
          destruct (walk_sound (S (length v)) (Z.of_nat a) v0 a t v' L0 Ht) with (2 := W) as (Sa & S2).
          { intros k j Hm Nj. unfold marked, v0 in Hm.
            destruct (Nat.eq_dec a k) as [<-|N].
            - rewrite set_nth_same in Hm by lia. congruence.
            - rewrite set_nth_other in Hm by auto. apply (Inv k j); auto. }
          destruct (IH (S a) root v' ltac:(lia) L') with (2 := W') as (A1 & A2 & A3).
          { intros k j Hm. split.
            - destruct (M2 _ _ Hm) as [Hm'|]; [|lia]. unfold marked, v0 in Hm'.
              destruct (Nat.eq_dec a k) as [<-|N].
              + rewrite set_nth_same in Hm' by lia. inversion Hm'. lia.
              + rewrite set_nth_other in Hm' by auto. destruct (Inv _ _ Hm'). lia.
            - destruct (S2 _ _ Hm) as [Hm'|]; auto. unfold marked, v0 in Hm'.
              destruct (Nat.eq_dec a k) as [<-|N]; auto.
              rewrite set_nth_other in Hm' by auto. apply (Inv k j); auto. }
          repeat split.
          -- destruct (Nat.eq_dec a k) as [<-|N]; [congruence|]. apply A1; lia.
          -- destruct (Nat.eq_dec a k) as [<-|N]; auto. apply A1; lia.
          -- intros k Hk1 R1. destruct (Nat.eq_dec a k) as [<-|N]; [congruence|]. apply (A2 k); auto; lia.
          -- intros k k' Hk1 Hk2 R1 R2.
             destruct (Nat.eq_dec a k) as [<-|N]; [congruence|].
             destruct (Nat.eq_dec a k') as [<-|N']; [congruence|]. apply A3; auto; lia.
  Qed.

  Lemma stops_range k : stops heads k -> (k < n)%nat.
  Proof.
    intros H. rewrite <- heads_length. inversion H; subst; apply nth_error_Some; congruence.
  Qed.

  Lemma syntax_sound : validate_syntax_sentence ts s = Ok tt -> dependency_tree heads.
  Proof.
    unfold validate_syntax_sentence, zrange. rewrite sent_len_n, Nat2Z.id. intros W.
    assert (Hn : (0 < n)%nat) by (pose proof sent_len_n; unfold sent_len, sent_wf in *; lia).
    destruct (loop_sound n 0 false (repeat None n) eq_refl (repeat_length None n)) with (2 := W) as (A1 & A2 & A3).
    { unfold marked. intros k j H. assert (X : In (Some j) (repeat None n)) by (eapply nth_error_In; eauto).
      apply repeat_spec in X. discriminate. }
    assert (R : forall k, stops heads k -> reaches_root heads k).
    { induction 1 as [k Hk|k Hk|k h Hk Hst IH].
      - apply rr_root; auto.
      - exfalso. assert (k < n)%nat by (rewrite <- heads_length; apply nth_error_Some; congruence).
        destruct (A1 k); [lia|congruence].
      - eapply rr_step; eauto. }
    unfold dependency_tree. rewrite heads_length. split; [|split; [|split]].
    - intros i Hi. assert (i < n)%nat by (rewrite <- heads_length; apply nth_error_Some; congruence).
      destruct (A1 i); [lia|congruence].
    - assert (X : exists r, nth_error heads r = Some (Some (-1))).
      { destruct (A1 0%nat) as [_ S0]; [lia|]. apply R in S0. clear - S0. revert S0. generalize heads as hs. intros hs S0. induction S0; eauto. }
      destruct X as [r Hr]. exists r. split; auto. intros r' Hr'.
      assert (r < n)%nat by (rewrite <- heads_length; apply nth_error_Some; congruence).
      assert (r' < n)%nat by (rewrite <- heads_length; apply nth_error_Some; congruence).
      apply A3; auto; lia.
    - intros i h Hi. assert (i < n)%nat by (rewrite <- heads_length; apply nth_error_Some; congruence).
      destruct (A1 i) as [_ Si]; [lia|]. inversion Si; subst; try (left; congruence); try congruence.
      right. apply stops_range in H1. rewrite Hi in H0. inversion H0. lia.
    - intros i Hi. apply R. apply A1; lia.
  Qed.

  Lemma loop_complete m a root v :
    dependency_tree heads ->
    (a + m = n)%nat -> length v = n ->
    (forall k j, marked v k j -> j < Z.of_nat a) ->
    (root = true -> exists r, (r < a)%nat /\ nth_error heads r = Some (Some (-1))) ->
    validate_loop ts s (map Z.of_nat (seq a m)) root v = Ok tt.
  Proof.
    intros (T1 & (r0 & _ & T2) & T3 & T4).
    revert a root v. induction m as [|m IH]; intros a root v Ham L Inv Hr; [reflexivity|].
    simpl. destruct (nth_sts a) as [t Ht]; [lia|]. rewrite (index_sentence _ _ Ht). simpl.
    destruct (py_index_ok v (Z.of_nat a)) as (c & Hc & Hn); [unfold zlen; lia|]. rewrite Nat2Z.id in Hn.
    destruct (head_cases a t Ht) as [(-> & -> & Hk)|[(-> & -> & Hk)|(-> & -> & h & Eh & Ed & Hh & Hk)]]; simpl.
    - exfalso. eapply T1; eauto.
    - destruct root.
      + exfalso. destruct (Hr eq_refl) as (r & Hra & Hrr). apply T2 in Hrr. apply T2 in Hk. lia.
      + rewrite Hc. simpl. rewrite Nat2Z.id. apply IH; try lia.
        * destruct c; rewrite ?set_nth_length; auto.
        * intros k j Hm. unfold marked in Hm. destruct c as [c|].
          -- apply Inv in Hm. lia.
          -- destruct (Nat.eq_dec a k) as [<-|N].
             ++ rewrite set_nth_same in Hm by lia. inversion Hm; lia.
             ++ rewrite set_nth_other in Hm by auto. apply Inv in Hm. lia.
        * intros _. exists a. split; [lia|auto].
    - rewrite Hc. simpl. destruct c as [c|].
      + apply IH; try lia; auto.
        * intros k j Hm. apply Inv in Hm. lia.
        * intros E. destruct (Hr E) as (r & Hra & Hrr). exists r. split; [lia|auto].
      + rewrite Nat2Z.id.
        set (v0 := set_nth v a (Some (Z.of_nat a))).
        assert (L0 : length v0 = n) by (unfold v0; rewrite set_nth_length; auto).
        assert (Ra : exists d, rank heads d a) by (apply reaches_rank, T4; rewrite heads_length; lia).
        destruct Ra as [d Ra].
        destruct (walk_complete (S (length v)) (Z.of_nat a) v0 a t d L0 Ht) as [v' W]; auto.
        { pose proof (count_none_le v0). lia. }
        { intros k d' Hm Rk. unfold marked, v0 in Hm.
          destruct (Nat.eq_dec a k) as [<-|N].
          - rewrite (rank_unique _ _ _ Ra _ Rk). lia.
          - rewrite set_nth_other in Hm by auto. apply Inv in Hm. lia. }
        change (validate_walk (S (length v)) ts s (Z.of_nat a) v0 t = Ok v') in W.
        rewrite W. simpl.
        destruct (walk_marks _ _ _ _ _ _ L0 Ht W) as (L' & M1 & M2).
        apply IH; try lia; auto.
        * intros k j Hm. destruct (M2 _ _ Hm) as [Hm'|]; [|lia]. unfold marked, v0 in Hm'.
          destruct (Nat.eq_dec a k) as [<-|N].
          -- rewrite set_nth_same in Hm' by lia. inversion Hm'. lia.
          -- rewrite set_nth_other in Hm' by auto. apply Inv in Hm'. lia.
        * intros E. destruct (Hr E) as (r & Hra & Hrr). exists r. split; [lia|auto].
  Qed.

  Lemma syntax_complete : dependency_tree heads -> validate_syntax_sentence ts s = Ok tt.
  Proof.
    intros T. unfold validate_syntax_sentence, zrange. rewrite sent_len_n, Nat2Z.id.
    apply loop_complete; auto; try lia; try discriminate.
    - apply repeat_length.
    - unfold marked. intros k j H. assert (X : In (Some j) (repeat None n)) by (eapply nth_error_In; eauto).
      apply repeat_spec in X. discriminate.
  Qed.

  Lemma no_syntax_iff t0 : nth_error sts 0 = Some t0 -> has_head t0 = false ->
    (validate_no_syntax ts s = Ok tt <-> unparsed heads).
  Proof.
    intros H0 E0. unfold validate_no_syntax. rewrite raise_if_ok.
    assert (Hl : py_slice ts (sstart s + 1) (send s) = tl sts).
    { unfold sts, sent_wf in *. rewrite py_slice_nonneg by lia. unfold tokens_of.
      replace (Z.to_nat (send s - sstart s)) with (S (Z.to_nat (send s - (sstart s + 1)))) by lia.
      replace (Z.to_nat (sstart s + 1)) with (Z.to_nat (sstart s) + 1)%nat by lia.
      rewrite <- skipn_skipn'. destruct (skipn (Z.to_nat (sstart s)) ts); simpl; auto. apply firstn_nil. }
    rewrite Hl. unfold unparsed, heads.
    assert (Hh : forall k t, nth_error sts k = Some t -> (has_head t = false <-> shown_head t = None)).
    { intros k t Ht. pose proof (nth_heads k t Ht) as Hn.
      destruct (head_cases k t Ht) as [(-> & _ & E)|[(-> & _ & E)|(-> & _ & h & _ & _ & _ & E)]];
        rewrite Hn in E; inversion E; split; congruence. }
    destruct sts as [|t l] eqn:Es; [discriminate|]. simpl in H0. inversion H0; subst t. simpl tl. simpl map.
    assert (X : existsb has_head l = false <-> Forall (fun h => h = None) (map shown_head l)).
    { assert (Hh' : forall t, In t l -> (has_head t = false <-> shown_head t = None)).
      { intros t Ht. apply In_nth_error in Ht. destruct Ht as [k Hk]. apply (Hh (S k)); auto. }
      clear -Hh'. induction l as [|x l IH]; simpl; [split; auto|].
      rewrite orb_false_iff, IH by (intros; apply Hh'; simpl; auto).
      rewrite (Hh' x) by (simpl; auto). split; [intros []; auto|inversion 1; auto]. }
    rewrite X. split; [|inversion 1; auto]. intros F. constructor; auto. apply (Hh 0%nat); auto.
  Qed.

  Lemma validate_sentence_iff : validate_sentence ts s = Ok tt <-> well_parsed sts.
  Proof.
    unfold validate_sentence, well_parsed.
    assert (Hn : (0 < n)%nat) by (pose proof sent_len_n; unfold sent_len, sent_wf in *; lia).
    destruct (nth_sts 0 Hn) as [t0 H0].
    pose proof (index_sentence _ _ H0) as E. rewrite Z.add_0_r in E. rewrite E. simpl.
    fold heads. destruct (has_head t0) eqn:Eh.
    - split.
      + intros H. right. apply syntax_sound; auto.
      + intros [U|T]; [|apply syntax_complete; auto].
        exfalso. destruct (head_cases _ _ H0) as [(? & _)|[(_ & _ & E0)|(_ & _ & h & _ & _ & _ & E0)]]; try congruence;
        unfold unparsed in U; rewrite Forall_forall in U; apply nth_error_In in E0; apply U in E0; discriminate.
    - rewrite (no_syntax_iff t0) by auto. split; auto.
      intros [U|(T & _)]; auto. exfalso.
      destruct (head_cases _ _ H0) as [(? & _ & E0)|[(? & _)|(? & _)]]; try congruence; eapply T; eauto.

  Qed.

  (* the only outcomes are success and ValueError; in particular the fuel is never exhausted *)
  Lemma loop_outcome m a root v :
    (a + m = n)%nat -> length v = n ->
    validate_loop ts s (map Z.of_nat (seq a m)) root v = Ok tt \/
    validate_loop ts s (map Z.of_nat (seq a m)) root v = Err EValue.
  Proof.
    revert a root v. induction m as [|m IH]; intros a root v Ham L; [left; reflexivity|].
    simpl. destruct (nth_sts a) as [t Ht]; [lia|]. rewrite (index_sentence _ _ Ht). simpl.
    destruct (py_index_ok v (Z.of_nat a)) as (c & Hc & Hn); [unfold zlen; lia|].
    destruct (has_head t); simpl; auto. destruct (is_root t).
    - destruct root; auto. rewrite Hc. simpl. apply IH; try lia. destruct c; rewrite ?set_nth_length; auto.
    - rewrite Hc. simpl. destruct c; [apply IH; auto; lia|].
      set (v0 := set_nth v (Z.to_nat (Z.of_nat a)) (Some (Z.of_nat a))).
      assert (L0 : length v0 = n) by (unfold v0; rewrite set_nth_length; auto).
      destruct (walk_fuel (S (length v)) (Z.of_nat a) v0 a t L0 Ht) as (r & W & O).
      { pose proof (count_none_le v0). lia. }
      change (validate_walk (S (length v)) ts s (Z.of_nat a) v0 t = r) in W.
      match goal with |- bind ?x _ = _ \/ _ => replace x with r end.
      destruct O as [->|[v' ->]]; simpl; auto.
      destruct (walk_marks _ _ _ _ _ _ L0 Ht W) as (L' & _). apply IH; auto; lia.
  Qed.

  Lemma validate_sentence_outcome : validate_sentence ts s = Ok tt \/ validate_sentence ts s = Err EValue.
  Proof.
    unfold validate_sentence.
    assert (Hn : (0 < n)%nat) by (pose proof sent_len_n; unfold sent_len, sent_wf in *; lia).
    destruct (nth_sts 0 Hn) as [t0 H0].
    pose proof (index_sentence _ _ H0) as E. rewrite Z.add_0_r in E. rewrite E. simpl.
    destruct (has_head t0).
    - unfold validate_syntax_sentence, zrange. rewrite sent_len_n, Nat2Z.id.
      apply loop_outcome; auto. apply repeat_length.
    - unfold validate_no_syntax, raise_if. destruct (existsb _ _); auto.
  Qed.
End Sentence.

Lemma validate_all_iff ts ss :
  (forall s, In s ss -> sent_wf s /\ send s <= zlen ts /\ Forall (filled (sstart s)) (tokens_of ts s)) ->
  (validate_all ts ss = Ok tt <-> forall s, In s ss -> well_parsed (tokens_of ts s)).
Proof.
  induction ss as [|s ss IH]; intros H; simpl.
  - split; auto; tauto.
  - destruct (H s) as (H1 & H2 & H3); [simpl; auto|].
    rewrite bind_ok_iff. split.
    + intros ([] & Hv & Hr). apply validate_sentence_iff in Hv; auto.
      rewrite IH in Hr by (intros; apply H; simpl; auto). intros x [<-|]; auto.
    + intros Hx. exists tt. split; [apply validate_sentence_iff; auto|].
      apply IH; [intros; apply H; simpl; auto|auto].
Qed.

Lemma validate_all_outcome ts ss :
  (forall s, In s ss -> sent_wf s /\ send s <= zlen ts /\ Forall (filled (sstart s)) (tokens_of ts s)) ->
  validate_all ts ss = Ok tt \/ validate_all ts ss = Err EValue.
Proof.
  induction ss as [|s ss IH]; intros H; simpl; auto.
  destruct (H s) as (H1 & H2 & H3); [simpl; auto|].
  destruct (validate_sentence_outcome ts s H1 H2 H3) as [->| ->]; simpl; auto.
  apply IH. intros; apply H; simpl; auto.
Qed.

Lemma doc_inv_sentences d : doc_inv d -> forall s, In s (dsents d) ->
  sent_wf s /\ send s <= zlen (dtokens d) /\ Forall (filled (sstart s)) (tokens_of (dtokens d) s).
Proof.
  intros I s Hs. pose proof (tiles_in _ _ _ _ (inv_tiles _ I) Hs). repeat split; try lia.
  apply (inv_filled _ I); auto.
Qed.
