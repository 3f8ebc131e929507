(* Vocabularies: counts, label lists and their inverses. *)
From Coq Require Import ZArith NArith Bool Lia Permutation Sorted List.
From Verif Require Import Base BaseFacts Model_Datamodel Model_Vocab Spec_Vocab.
Import ListNotations.
Open Scope Z_scope.

(* ------------------------------------------------------------------ *)

Lemma FOP_perm {A} (R : A -> A -> Prop) l l' : (forall a b, R a b -> R b a) ->
  Permutation l l' -> ForallOrdPairs R l -> ForallOrdPairs R l'.
Proof.
  intros S P. induction P as [|x l l' P IH|x y l|l1 l2 l3 P1 IH1 P2 IH2]; intros F; auto.
  - inversion F; subst. constructor; auto. eapply Permutation_Forall; eauto.
  - inversion F as [|? ? F1 F2]; subst. inversion F2 as [|? ? F3 F4]; subst. inversion F1; subst.
    constructor; [constructor; auto|]. constructor; auto.
Qed.

Lemma FOP_filter {A} (R : A -> A -> Prop) f l : ForallOrdPairs R l -> ForallOrdPairs R (filter f l).
Proof.
  induction 1 as [|x l H F IH]; simpl; [constructor|].
  destruct (f x); auto. constructor; auto.
  apply Forall_forall. intros y Hy. apply filter_In in Hy. rewrite Forall_forall in H. apply H, Hy.
Qed.

Lemma FOP_app_iff {A} (R : A -> A -> Prop) l1 l2 :
  ForallOrdPairs R (l1 ++ l2) <->
  ForallOrdPairs R l1 /\ ForallOrdPairs R l2 /\ forall a b, In a l1 -> In b l2 -> R a b.
Proof.
  induction l1 as [|x l1 IH]; simpl.
  - split; [intros H; split; [constructor|split; [auto|intros a b []]]|tauto].
  - split.
    + intros H. inversion H as [|? ? F1 F2]; subst. apply IH in F2. destruct F2 as (P & Q & T).
      apply Forall_app in F1. destruct F1 as [G1 G2]. rewrite Forall_forall in G2.
      split; [constructor; auto|]. split; auto. intros a b [->|Ha] Hb; auto.
    + intros (H & Q & T). inversion H as [|? ? F1 F2]; subst. constructor.
      * apply Forall_app. split; auto. apply Forall_forall. auto.
      * apply IH. split; [exact F2|]. split; [exact Q|]. intros a b Ha Hb. apply T; auto.
Qed.

Lemma all_distinct_map_filter {K} (eqb : K -> K -> bool) (f : K * Z -> bool) d :
  all_distinct eqb (map fst d) -> all_distinct eqb (map fst (filter f d)).
Proof.
  induction d as [|[k v] d IH]; simpl; auto. intros H. inversion H as [|? ? F1 F2]; subst.
  destruct (f (k, v)); simpl; [|apply IH; auto]. constructor; [|apply IH; auto].
  apply Forall_forall. intros x Hx. rewrite Forall_forall in F1. apply F1.
  apply in_map_iff in Hx. destruct Hx as (kv & <- & Hkv). apply filter_In in Hkv. apply in_map, Hkv.
Qed.

(* ------------------------------------------------------------------ *)
Section Keys.
Context {K : Type} (eqb : K -> K -> bool) (HE : equivalence eqb).

Lemma eqv_refl a : eqb a a = true.
Proof. destruct HE as (R & _ & _). apply R. Qed.

Lemma eqv_sym a b : eqb a b = eqb b a.
Proof.
  destruct HE as (_ & S & _). destruct (eqb a b) eqn:A, (eqb b a) eqn:B; auto.
  - apply S in A. congruence.
  - apply S in B. congruence.
Qed.

Lemma eqv_trans a b c : eqb a b = true -> eqb b c = true -> eqb a c = true.
Proof. destruct HE as (_ & _ & T). apply T. Qed.

Lemma eqv_subst a b c : eqb a b = true -> eqb a c = eqb b c.
Proof.
  intros E. destruct (eqb b c) eqn:B.
  - eapply eqv_trans; eauto.
  - destruct (eqb a c) eqn:A; auto. rewrite <- B. symmetry. eapply eqv_trans; [|exact A].
    rewrite eqv_sym. auto.
Qed.

Lemma eqv_subst_r a b c : eqb a b = true -> eqb c a = eqb c b.
Proof. intros E. rewrite (eqv_sym c a), (eqv_sym c b). apply eqv_subst; auto. Qed.

Lemma distinct_perm l l' : Permutation l l' -> all_distinct eqb l -> all_distinct eqb l'.
Proof. intros P. apply FOP_perm; auto. intros a b. rewrite eqv_sym. auto. Qed.

Lemma distinct_nth l : all_distinct eqb l -> forall i j a b,
  nth_error l i = Some a -> nth_error l j = Some b -> eqb a b = true -> i = j.
Proof.
  induction 1 as [|x l F D IH]; intros i j a b; [destruct i; discriminate|].
  rewrite Forall_forall in F.
  destruct i as [|i], j as [|j]; simpl; intros Hi Hj E; auto.
  - inversion Hi; subst. apply nth_error_In in Hj. rewrite (F _ Hj) in E. discriminate.
  - inversion Hj; subst. apply nth_error_In in Hi. rewrite eqv_sym, (F _ Hi) in E. discriminate.
  - f_equal. eapply IH; eauto.
Qed.

Section Values.
Context {V : Type}.

Lemma gget_gset_same (d : list (K * V)) k k' v : eqb k' k = true -> gget eqb (gset eqb d k v) k' = Some v.
Proof.
  intros E. induction d as [|[k0 v0] d IH]; simpl.
  - rewrite E. auto.
  - destruct (eqb k k0) eqn:E0; simpl.
    + rewrite (eqv_subst _ _ _ E), E0. auto.
    + rewrite (eqv_subst _ _ _ E), E0. auto.
Qed.

Lemma gget_gset_other (d : list (K * V)) k k' v : eqb k' k = false -> gget eqb (gset eqb d k v) k' = gget eqb d k'.
Proof.
  intros E. induction d as [|[k0 v0] d IH]; simpl.
  - rewrite E. auto.
  - destruct (eqb k k0) eqn:E0; simpl.
    + rewrite <- (eqv_subst_r _ _ _ E0), E. auto.
    + destruct (eqb k' k0); auto.
Qed.

Lemma gget_In (d : list (K * V)) k v : gget eqb d k = Some v -> exists k', In (k', v) d /\ eqb k k' = true.
Proof.
  induction d as [|[k0 v0] d IH]; simpl; [discriminate|].
  destruct (eqb k k0) eqn:E.
  - intros H. inversion H; subst. eauto.
  - intros H. destruct (IH H) as (k' & ? & ?). eauto.
Qed.

Lemma gget_None (d : list (K * V)) k : gget eqb d k = None <-> forall k' v, In (k', v) d -> eqb k k' = false.
Proof.
  induction d as [|[k0 v0] d IH]; simpl.
  - split; auto. intros _ k' v [].
  - destruct (eqb k k0) eqn:E.
    + split; [discriminate|]. intros H. rewrite (H k0 v0) in E by auto. discriminate.
    + rewrite IH. split.
      * intros H k' v [X|X]; [inversion X; subst; auto|eauto].
      * intros H k' v X. eapply H; right; eauto.
Qed.

Lemma In_gget (d : list (K * V)) k v : all_distinct eqb (map fst d) -> In (k, v) d -> gget eqb d k = Some v.
Proof.
  induction d as [|[k0 v0] d IH]; simpl; [tauto|]. intros D [X|X].
  - inversion X; subst. rewrite eqv_refl. auto.
  - inversion D as [|? ? F D']; subst. rewrite Forall_forall in F.
    rewrite eqv_sym, (F k); auto. apply (in_map fst) in X. auto.
Qed.

Lemma gset_keys (d : list (K * V)) k v :
  map fst (gset eqb d k v) = map fst d ++ (if existsb (eqb k) (map fst d) then [] else [k]).
Proof.
  induction d as [|[k0 v0] d IH]; simpl; auto.
  destruct (eqb k k0); simpl; [rewrite app_nil_r; auto|]. rewrite IH. auto.
Qed.

Lemma gset_distinct (d : list (K * V)) k v : all_distinct eqb (map fst d) -> all_distinct eqb (map fst (gset eqb d k v)).
Proof.
  intros D. rewrite gset_keys. destruct (existsb (eqb k) (map fst d)) eqn:E; [rewrite app_nil_r; auto|].
  apply FOP_app_iff. split; [exact D|]. split; [repeat constructor|].
  intros a b Ha [<-|[]]. destruct (eqb a k) eqn:X; auto.
  assert (existsb (eqb k) (map fst d) = true); [|congruence].
  apply existsb_exists. exists a. rewrite eqv_sym. auto.
Qed.
End Values.

(* ------------------------------------------------------------------ *)
(* counting *)

Lemma occurrences_app k l1 l2 : occurrences eqb k (l1 ++ l2) = occurrences eqb k l1 + occurrences eqb k l2.
Proof. induction l1 as [|x l1 IH]; simpl; [lia|]. rewrite IH. lia. Qed.

Lemma occurrences_nonneg k l : 0 <= occurrences eqb k l.
Proof. induction l as [|x l IH]; simpl; [lia|]. destruct (eqb k x); lia. Qed.

Lemma occurrences_pos k l : 0 < occurrences eqb k l <-> exists x, In x l /\ eqb k x = true.
Proof.
  induction l as [|x l IH]; simpl; [split; [lia|intros (? & [] & _)]|].
  assert (N := occurrences_nonneg k l). destruct (eqb k x) eqn:E.
  - split; [eauto|lia].
  - rewrite Z.add_0_l, IH. split; intros (y & H & Ey); [eauto|].
    destruct H as [->|H]; [congruence|eauto].
Qed.

Definition counts_of (d : list (K * Z)) (labels : list K) : Prop :=
  all_distinct eqb (map fst d) /\ (forall k, In k (map fst d) -> In k labels) /\
  forall k, gget eqb d k = if 0 <? occurrences eqb k labels then Some (occurrences eqb k labels) else None.

Lemma gadd_counts d seen k : counts_of d seen -> counts_of (gadd eqb d k 1) (seen ++ [k]).
Proof.
  intros (D & I & G). unfold gadd. split; [apply gset_distinct; auto|]. split.
  - intros k'. rewrite gset_keys. rewrite in_app_iff. intros [X|X]; [apply in_app_iff; auto|].
    destruct (existsb (eqb k) (map fst d)); [destruct X|]. apply in_app_iff. auto.
  - intros k'. rewrite occurrences_app. simpl. rewrite Z.add_0_r. assert (N := occurrences_nonneg k' seen).
    destruct (eqb k' k) eqn:E.
    + rewrite (gget_gset_same _ _ _ _ E). rewrite G.
      assert (O : occurrences eqb k seen = occurrences eqb k' seen).
      { clear -E HE. induction seen as [|x l IH]; simpl; auto. rewrite IH, (eqv_subst _ _ x E). auto. }
      rewrite O. destruct (0 <? occurrences eqb k' seen) eqn:P.
      * destruct (0 <? occurrences eqb k' seen + 1) eqn:Q; [auto|apply Z.ltb_ge in Q; lia].
      * apply Z.ltb_ge in P. replace (occurrences eqb k' seen) with 0 by lia. auto.
    + rewrite (gget_gset_other _ _ _ _ E), G, Z.add_0_r. auto.
Qed.

Lemma count_list_counts labels : counts_of (count_list eqb labels) labels.
Proof.
  unfold count_list.
  assert (H : forall rest d seen, counts_of d seen ->
    counts_of (fold_left (fun d k => gadd eqb d k 1) rest d) (seen ++ rest)).
  { induction rest as [|x rest IH]; intros d seen C; simpl; [rewrite app_nil_r; auto|].
    change (x :: rest) with ([x] ++ rest). rewrite app_assoc. apply IH, gadd_counts, C. }
  apply (H labels [] []). split; [constructor|]. split; [intros k []|]. intros k. auto.
Qed.

Lemma count_list_distinct labels : all_distinct eqb (map fst (count_list eqb labels)).
Proof. apply count_list_counts. Qed.

Lemma count_list_In labels k n : In (k, n) (count_list eqb labels) ->
  In k labels /\ n = occurrences eqb k labels /\ 0 < n.
Proof.
  intros H. destruct (count_list_counts labels) as (D & I & G).
  split; [apply I, (in_map fst _ _ H)|].
  assert (X := In_gget _ _ _ D H). rewrite G in X.
  destruct (0 <? occurrences eqb k labels) eqn:P; [|discriminate]. inversion X; subst.
  apply Z.ltb_lt in P. auto.
Qed.

Lemma In_count_list labels k : In k labels ->
  exists k', eqb k k' = true /\ In (k', occurrences eqb k labels) (count_list eqb labels).
Proof.
  intros H. destruct (count_list_counts labels) as (D & I & G).
  assert (P : 0 < occurrences eqb k labels) by (apply occurrences_pos; exists k; split; auto using eqv_refl).
  assert (X := G k). apply Z.ltb_lt in P. rewrite P in X. apply gget_In in X.
  destruct X as (k' & Hin & E). eauto.
Qed.

Lemma count_list_nil labels : count_list eqb labels = [] -> labels = [].
Proof.
  intros E. destruct labels as [|k l]; auto. destruct (In_count_list (k :: l) k) as (k' & _ & H); [left; auto|].
  rewrite E in H. destruct H.
Qed.

(* ------------------------------------------------------------------ *)
(* the label list *)

Lemma most_common_from_spec (l : list (K * Z)) : forall pre best mid, 
  (forall k n, In (k, n) pre -> n < snd best) -> (forall k n, In (k, n) mid -> n <= snd best) ->
  first_most_common (pre ++ best :: mid ++ l) (most_common_from best l).
Proof.
  induction l as [|[k n] l IH]; intros pre best mid Hp Hm; simpl.
  - rewrite app_nil_r. exists pre, (snd best), mid. destruct best as [bk bn]; simpl in *. auto.
  - destruct (snd best <? n) eqn:E.
    + apply Z.ltb_lt in E.
      replace (pre ++ best :: mid ++ (k, n) :: l) with ((pre ++ best :: mid) ++ (k, n) :: [] ++ l)
        by (rewrite <- app_assoc; auto).
      apply IH; simpl; [|intros ? ? []].
      intros k' n' H. apply in_app_iff in H. destruct H as [H|[H|H]].
      * apply Hp in H. lia.
      * destruct best as [bk bn]; inversion H; subst. simpl in E. auto.
      * apply Hm in H. lia.
    + apply Z.ltb_ge in E.
      replace (mid ++ (k, n) :: l) with ((mid ++ [(k, n)]) ++ l) by (rewrite <- app_assoc; auto).
      apply IH; auto. intros k' n' H. apply in_app_iff in H. destruct H as [H|[H|[]]]; [apply Hm in H; auto|].
      inversion H; subst. auto.
Qed.

Lemma most_common_spec (counts : list (K * Z)) mc : most_common counts = Some mc -> first_most_common counts mc.
Proof.
  destruct counts as [|kv l]; simpl; [discriminate|]. intros H; inversion H; subst.
  apply (most_common_from_spec l [] kv []); intros ? ? [].
Qed.

Lemma py_sorted_perm {A} (cmp : A -> A -> result comparison) l l' : py_sorted cmp l = Ok l' -> Permutation l l'.
Proof.
  unfold py_sorted. destruct (all_comparable cmp l); [|discriminate]. intros H; inversion H. apply isort_perm.
Qed.

Lemma id2obj_spec cmp counts threshold l : all_distinct eqb (map fst counts) ->
  id2obj eqb cmp counts threshold = Ok l ->
  all_distinct eqb l /\
  (exists mc rest, l = mc :: rest /\ first_most_common counts mc) /\
  (forall k, In k l <-> frequent counts threshold k \/ first_most_common counts k).
Proof.
  intros D. unfold id2obj. destruct (most_common counts) as [mc|] eqn:M; simpl; [|discriminate].
  apply most_common_spec in M.
  set (kept := if 0 <? threshold then filter (fun kv => threshold <? snd kv) counts else counts).
  intros H. apply bind_ok_iff in H. destruct H as (others & P & E). inversion E; subst l; clear E.
  apply py_sorted_perm in P.
  assert (Dk : all_distinct eqb (map fst kept)).
  { unfold kept. destruct (0 <? threshold); auto. apply all_distinct_map_filter, D. }
  assert (Kf : forall k, In k (map fst kept) <-> frequent counts threshold k).
  { intros k. unfold kept, frequent. destruct (0 <? threshold) eqn:T.
    - rewrite in_map_iff. split.
      + intros ([k' n] & <- & H). apply filter_In in H. destruct H as [H Hn]. simpl in *.
        apply Z.ltb_lt in Hn. eauto.
      + intros (n & H & Hn). apply Z.ltb_lt in T. exists (k, n). split; auto. apply filter_In. split; auto.
        apply Z.ltb_lt. auto.
    - rewrite in_map_iff. apply Z.ltb_ge in T. split.
      + intros ([k' n] & <- & H). exists n. split; auto. lia.
      + intros (n & H & _). exists (k, n). auto. }
  assert (Uniq : forall k, first_most_common counts k -> k = mc).
  { intros k (b & n & a & Ec & Hb & Ha). destruct M as (b' & n' & a' & Ec' & Hb' & Ha').
    assert (X : In (k, n) (b' ++ (mc, n') :: a')) by (rewrite <- Ec', Ec; apply in_app_iff; simpl; auto).
    assert (Y : In (mc, n') (b ++ (k, n) :: a)) by (rewrite <- Ec, Ec'; apply in_app_iff; simpl; auto).
    apply in_app_iff in X, Y.
    destruct X as [X|[X|X]]; [|congruence|]; destruct Y as [Y|[Y|Y]]; try congruence.
    - apply Hb' in X. apply Hb in Y. lia.
    - apply Hb' in X. apply Ha in Y. lia.
    - apply Ha' in X. apply Hb in Y. lia.
    - (* both after: the positions contradict each other *)
      exfalso.
      assert (Ep : b ++ (k, n) :: a = b' ++ (mc, n') :: a') by congruence.
      assert (nn : n = n') by (apply Ha in Y; apply Ha' in X; lia). subst n'.
      apply (in_map fst) in Y, X. simpl in *.
      rewrite Ec in D. rewrite map_app in D. simpl in D. apply FOP_app_iff in D. destruct D as (D1 & D2 & D3).
      inversion D2 as [|? ? F1 F2]; subst. rewrite Forall_forall in F1.
      assert (E1 : eqb k mc = false) by (apply F1; auto).
      clear - HE Ep Hb Hb' D1 D3 E1. revert b b' Ep Hb Hb' D1 D3. induction b as [|x b IH]; intros b' Ep Hb Hb' D1 D3.
      + destruct b' as [|y b']; simpl in Ep.
        * inversion Ep; subst. rewrite eqv_refl in E1. discriminate.
        * inversion Ep; subst. assert (n < n); [|lia]. apply (Hb' k). left; auto.
      + destruct b' as [|y b']; simpl in Ep.
        * inversion Ep; subst. assert (n < n); [|lia]. apply (Hb mc). left; auto.
        * inversion Ep; subst. apply (IH b'); auto.
          -- intros; eapply Hb; right; eauto.
          -- intros; eapply Hb'; right; eauto.
          -- inversion D1; auto.
          -- intros; apply D3; simpl; auto. }
  assert (Inmc : In mc (map fst counts)).
  { destruct M as (b & n & a & -> & _). rewrite map_app, in_app_iff. simpl. auto. }
  split; [|split].
  - constructor.
    + apply Forall_forall. intros x Hx. apply (Permutation_in _ (Permutation_sym P)) in Hx.
      apply filter_In in Hx. destruct Hx as [_ Hx]. rewrite eqv_sym. destruct (eqb x mc); auto; discriminate.
    + eapply distinct_perm; [exact P|]. apply FOP_filter, Dk.
  - eauto.
  - intros k. split.
    + intros [->|Hk]; [auto|]. left. apply Kf. apply (Permutation_in _ (Permutation_sym P)) in Hk.
      apply filter_In in Hk. apply Hk.
    + intros [F|F]; [|left; symmetry; apply Uniq; auto].
      destruct (eqb k mc) eqn:E.
      * left. destruct F as (n & Hin & _). assert (Hk := in_map fst _ _ Hin). simpl in Hk.
        destruct (In_nth_error _ _ Hk) as (i & Hi). destruct (In_nth_error _ _ Inmc) as (j & Hj).
        assert (i = j) by exact (distinct_nth _ D _ _ _ _ Hi Hj E). subst. congruence.
      * right. apply (Permutation_in _ P). apply filter_In. split; [apply Kf; auto|]. rewrite E. auto.
Qed.

(* ------------------------------------------------------------------ *)
(* the inverse map *)

Lemma obj2id_fold l : forall a d, all_distinct eqb l ->
  (forall k' v, In (k', v) d -> forall x, In x l -> eqb x k' = false) ->
  forall k, gget eqb (fold_left (fun d io => gset eqb d (snd io) (fst io)) (combine (map Z.of_nat (seq a (length l))) l) d) k
    = match find (fun io => eqb k (snd io)) (combine (map Z.of_nat (seq a (length l))) l) with
      | Some io => Some (fst io)
      | None => gget eqb d k
      end.
Proof.
  induction l as [|x l IH]; intros a d D F k; simpl; auto.
  inversion D as [|? ? F1 D']; subst. rewrite Forall_forall in F1.
  rewrite IH; auto.
  - destruct (eqb k x) eqn:E; simpl.
    + destruct (find _ _) as [[i y]|] eqn:X.
      * apply find_some in X. destruct X as [X Y]. simpl in Y. apply in_combine_r in X.
        rewrite (eqv_subst _ _ _ E), (F1 _ X) in Y. discriminate.
      * apply gget_gset_same; auto.
    + destruct (find _ _); auto. apply gget_gset_other; auto.
  - intros k' v H y Hy. assert (Hx := in_map fst _ _ H). rewrite gset_keys in Hx. simpl in Hx.
    apply in_app_iff in Hx. destruct Hx as [Hx|Hx].
    + apply in_map_iff in Hx. destruct Hx as ([k0 v0] & E & H0). simpl in E. subst. apply (F k' v0 H0). right; auto.
    + destruct (existsb (eqb x) (map fst d)); [destruct Hx|]. destruct Hx as [<-|[]].
      rewrite eqv_sym. apply F1. auto.
Qed.

Lemma find_combine_seq (l : list K) k : forall a, all_distinct eqb l -> forall i,
  (option_map fst (find (fun io => eqb k (snd io)) (combine (map Z.of_nat (seq a (length l))) l)) = Some i <->
   Z.of_nat a <= i /\ exists k', nth_error l (Z.to_nat i - a) = Some k' /\ eqb k k' = true).
Proof.
  induction l as [|x l IH]; intros a D i; simpl.
  - split; [discriminate|]. intros (_ & k' & H & _). destruct (Z.to_nat i - a)%nat; discriminate.
  - inversion D as [|? ? F1 D']; subst. rewrite Forall_forall in F1. destruct (eqb k x) eqn:E; simpl.
    + split.
      * intros H; inversion H; subst. split; [lia|]. exists x. rewrite Nat2Z.id, Nat.sub_diag. auto.
      * intros (H & k' & Hn & Hk). destruct (Z.to_nat i - a)%nat as [|m] eqn:M; simpl in Hn.
        -- f_equal. lia.
        -- apply nth_error_In in Hn. rewrite (eqv_subst _ _ _ E), (F1 _ Hn) in Hk. discriminate.
    + rewrite IH by auto. split.
      * intros (H & k' & Hn & Hk). split; [lia|]. exists k'. split; auto.
        replace (Z.to_nat i - a)%nat with (S (Z.to_nat i - S a)) by lia. auto.
      * intros (H & k' & Hn & Hk). destruct (Z.to_nat i - a)%nat as [|m] eqn:M; simpl in Hn.
        -- inversion Hn; subst. congruence.
        -- split; [lia|]. exists k'. split; auto. replace (Z.to_nat i - S a)%nat with m by lia. auto.
Qed.

Lemma obj2id_spec l : all_distinct eqb l -> forall k i,
  gget eqb (obj2id eqb l) k = Some i <-> 0 <= i /\ exists k', nth_error l (Z.to_nat i) = Some k' /\ eqb k k' = true.
Proof.
  intros D k i. unfold obj2id, enumerate, zrange, zlen. rewrite Nat2Z.id.
  rewrite obj2id_fold; auto; [|intros k' v []].
  assert (F := find_combine_seq l k 0 D i). rewrite Nat.sub_0_r in F. simpl in F. rewrite <- F.
  destruct (find _ _) as [io|]; simpl; split; congruence.
Qed.

Lemma obj2id_None l k : all_distinct eqb l ->
  (gget eqb (obj2id eqb l) k = None <-> forall k', In k' l -> eqb k k' = false).
Proof.
  intros D. split.
  - intros H k' Hk. destruct (eqb k k') eqn:E; auto. destruct (In_nth_error _ _ Hk) as (i & Hi).
    assert (X : gget eqb (obj2id eqb l) k = Some (Z.of_nat i)).
    { apply obj2id_spec; auto. split; [lia|]. exists k'. rewrite Nat2Z.id. auto. }
    congruence.
  - intros H. destruct (gget eqb (obj2id eqb l) k) as [i|] eqn:E; auto.
    apply obj2id_spec in E; auto. destruct E as (_ & k' & Hn & Ek).
    apply nth_error_In in Hn. rewrite (H _ Hn) in Ek. discriminate.
Qed.

Lemma obj2id_items l : all_distinct eqb l ->
  obj2id eqb l = combine l (map Z.of_nat (seq 0 (length l))).
Proof.
  intros D. unfold obj2id, enumerate, zrange, zlen. rewrite Nat2Z.id.
  assert (H : forall l' a d, all_distinct eqb l' -> (forall k', In k' (map fst d) -> forall x, In x l' -> eqb x k' = false) ->
    fold_left (fun d io => gset eqb d (snd io) (fst io)) (combine (map Z.of_nat (seq a (length l'))) l') d
    = d ++ combine l' (map Z.of_nat (seq a (length l')))).
  { induction l' as [|x l' IH]; intros a d D' F; simpl; [rewrite app_nil_r; auto|].
    inversion D' as [|? ? F1 D'']; subst. rewrite Forall_forall in F1.
    assert (G : gset eqb d x (Z.of_nat a) = d ++ [(x, Z.of_nat a)]).
    { clear IH. induction d as [|[k0 v0] d IH]; simpl; auto. rewrite (F k0); simpl; auto. rewrite IH; auto.
      intros k' Hk y Hy. apply F; simpl; auto. }
    rewrite G, IH; auto.
    - rewrite <- app_assoc. auto.
    - intros k' Hk y Hy. rewrite map_app, in_app_iff in Hk. destruct Hk as [Hk|[<-|[]]].
      + apply F; simpl; auto.
      + simpl. rewrite eqv_sym. apply F1. auto. }
  apply (H l 0%nat []); auto. intros k' [].
Qed.

End Keys.

Lemma eqb_equivalence {K} (eqb : K -> K -> bool) : (forall a b, eqb a b = true <-> a = b) -> equivalence eqb.
Proof.
  intros H. split; [|split].
  - intros a. apply H; auto.
  - intros a b. rewrite !H. auto.
  - intros a b c. rewrite !H. congruence.
Qed.
