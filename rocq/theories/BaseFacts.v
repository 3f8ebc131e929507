(* Facts about the python primitives of Base.v. *)
From Coq Require Import ZArith NArith Bool Lia Permutation Sorted RelationClasses.
From Coq Require Import DecimalFacts DecimalNat DecimalN.
From Coq Require Import List.
From Verif Require Import Base.
Import ListNotations.
Open Scope Z_scope.

(* ------------------------------------------------------------------ *)
(* results *)

Lemma bind_ok_iff {A B} (r : result A) (f : A -> result B) b :
  bind r f = Ok b <-> exists a, r = Ok a /\ f a = Ok b.
Proof.
  destruct r as [a|e]; simpl; split; intros H.
  - eauto.
  - destruct H as (a' & E & H); inversion E; subst; auto.
  - discriminate.
  - destruct H as (a' & E & H); discriminate.
Qed.

Lemma raise_if_ok b e u : raise_if b e = Ok u <-> b = false.
Proof. destruct b, u; simpl; split; congruence. Qed.

Lemma assert_ok b u : assert b = Ok u <-> b = true.
Proof. destruct b, u; simpl; split; congruence. Qed.

Lemma mapM_ok {A B} (f : A -> result B) l l' :
  mapM f l = Ok l' <-> Forall2 (fun x y => f x = Ok y) l l'.
Proof.
  revert l'; induction l as [|x l IH]; intros l'; simpl.
  - split; intros H.
    + inversion H; constructor.
    + inversion H; reflexivity.
  - rewrite bind_ok_iff. split.
    + intros (y & Hy & H). apply bind_ok_iff in H. destruct H as (ys & Hys & E).
      inversion E; subst. constructor; auto. apply IH; auto.
    + intros H. inversion H as [|? y ? ys Hy Hys]; subst.
      exists y; split; auto. apply IH in Hys. rewrite Hys. reflexivity.
Qed.

Lemma mapM_total {A B} (f : A -> B) l : mapM (fun x => Ok (f x)) l = Ok (map f l).
Proof. induction l as [|x l IH]; simpl; auto. rewrite IH; auto. Qed.

Lemma mapM_length {A B} (f : A -> result B) l l' : mapM f l = Ok l' -> length l' = length l.
Proof. rewrite mapM_ok. induction 1; simpl; auto. Qed.

Lemma mapM_app {A B} (f : A -> result B) l1 l2 :
  mapM f (l1 ++ l2) = do a <- mapM f l1; do b <- mapM f l2; Ok (a ++ b).
Proof.
  induction l1 as [|x l1 IH]; simpl.
  - destruct (mapM f l2); auto.
  - destruct (f x); simpl; auto. rewrite IH.
    destruct (mapM f l1); simpl; auto. destruct (mapM f l2); simpl; auto.
Qed.

Lemma mapM_ext {A B} (f g : A -> result B) l :
  (forall x, In x l -> f x = g x) -> mapM f l = mapM g l.
Proof.
  induction l as [|x l IH]; simpl; intros H; auto.
  rewrite H by auto. rewrite IH; auto.
Qed.

Lemma foldM_app {S A} (f : S -> A -> result S) l1 l2 s :
  foldM f s (l1 ++ l2) = do s' <- foldM f s l1; foldM f s' l2.
Proof.
  revert s; induction l1 as [|x l1 IH]; simpl; intros s; auto.
  destruct (f s x); simpl; auto.
Qed.

(* ------------------------------------------------------------------ *)
(* equality tests *)

Lemma list_eqb_eq {A} (eqb : A -> A -> bool) (H : forall x y, eqb x y = true <-> x = y) l1 l2 :
  list_eqb eqb l1 l2 = true <-> l1 = l2.
Proof.
  revert l2; induction l1 as [|x l1 IH]; destruct l2 as [|y l2]; simpl; split; intros E;
    try discriminate; auto.
  - apply andb_true_iff in E. destruct E as [E1 E2].
    apply H in E1. apply IH in E2. congruence.
  - inversion E; subst. apply andb_true_iff; split; [apply H|apply IH]; auto.
Qed.

Lemma str_eqb_eq s1 s2 : str_eqb s1 s2 = true <-> s1 = s2.
Proof. apply list_eqb_eq. apply N.eqb_eq. Qed.

Lemma str_eqb_refl s : str_eqb s s = true.
Proof. apply str_eqb_eq; auto. Qed.

Lemma str_eqb_neq s1 s2 : str_eqb s1 s2 = false <-> s1 <> s2.
Proof.
  rewrite <- not_true_iff_false, str_eqb_eq. tauto.
Qed.

Lemma str_eqb_sym s1 s2 : str_eqb s1 s2 = str_eqb s2 s1.
Proof.
  destruct (str_eqb s1 s2) eqn:E.
  - apply str_eqb_eq in E; subst. symmetry; apply str_eqb_refl.
  - apply str_eqb_neq in E. symmetry; apply str_eqb_neq; auto.
Qed.

Lemma str_eqb_spec s1 s2 : reflect (s1 = s2) (str_eqb s1 s2).
Proof. apply iff_reflect. symmetry. apply str_eqb_eq. Qed.

Lemma str_eq_dec (s1 s2 : str) : {s1 = s2} + {s1 <> s2}.
Proof. destruct (str_eqb_spec s1 s2); auto. Qed.

Lemma option_eqb_eq {A} (eqb : A -> A -> bool) (H : forall x y, eqb x y = true <-> x = y) o1 o2 :
  option_eqb eqb o1 o2 = true <-> o1 = o2.
Proof.
  destruct o1, o2; simpl; split; intros E; try discriminate; auto.
  - apply H in E; congruence.
  - inversion E; apply H; auto.
Qed.

(* ------------------------------------------------------------------ *)
(* lexicographic comparison *)

(* a comparison function that is a total order *)
Record cmp_ok {A} (cmp : A -> A -> comparison) : Prop := {
  cmp_eq : forall x y, cmp x y = Eq <-> x = y;
  cmp_anti : forall x y, cmp y x = CompOpp (cmp x y);
  cmp_trans : forall x y z, cmp x y = Lt -> cmp y z = Lt -> cmp x z = Lt
}.

Lemma N_cmp_ok : cmp_ok N.compare.
Proof.
  split.
  - apply N.compare_eq_iff.
  - intros; apply N.compare_antisym.
  - intros x y z. rewrite !N.compare_lt_iff. apply N.lt_trans.
Qed.

Lemma Z_cmp_ok : cmp_ok Z.compare.
Proof.
  split.
  - apply Z.compare_eq_iff.
  - intros; apply Z.compare_antisym.
  - intros x y z. rewrite !Z.compare_lt_iff. apply Z.lt_trans.
Qed.

Lemma lex_cmp_ok {A} (cmp : A -> A -> comparison) : cmp_ok cmp -> cmp_ok (lex_cmp cmp).
Proof.
  intros H. split.
  - induction x as [|a x IH]; destruct y as [|b y]; simpl; split; intros E; try discriminate; auto.
    + destruct (cmp a b) eqn:C; try discriminate.
      apply (cmp_eq _ H) in C. apply IH in E. congruence.
    + inversion E; subst. assert (C : cmp b b = Eq) by (apply (cmp_eq _ H); auto).
      rewrite C. apply IH; auto.
  - induction x as [|a x IH]; destruct y as [|b y]; simpl; auto.
    rewrite (cmp_anti _ H a b). destruct (cmp a b) eqn:C; simpl; auto.
  - induction x as [|a x IH]; destruct y as [|b y]; destruct z as [|c z]; simpl; intros E1 E2;
      try discriminate; auto.
    destruct (cmp a b) eqn:C1; try discriminate.
    + apply (cmp_eq _ H) in C1; subst.
      destruct (cmp b c) eqn:C2; try discriminate; auto. eauto.
    + destruct (cmp b c) eqn:C2; try discriminate.
      * apply (cmp_eq _ H) in C2; subst. rewrite C1; auto.
      * rewrite (cmp_trans _ H _ _ _ C1 C2). auto.
Qed.

Lemma str_cmp_ok : cmp_ok str_cmp.
Proof. apply lex_cmp_ok, N_cmp_ok. Qed.

Lemma pair_cmp_ok {A B} (ca : A -> A -> comparison) (cb : B -> B -> comparison) :
  cmp_ok ca -> cmp_ok cb -> cmp_ok (pair_cmp ca cb).
Proof.
  intros Ha Hb. unfold pair_cmp. split.
  - intros [a b] [a' b']; simpl. split; intros E.
    + destruct (ca a a') eqn:C; try discriminate.
      apply (cmp_eq _ Ha) in C. apply (cmp_eq _ Hb) in E. congruence.
    + inversion E; subst.
      assert (C : ca a' a' = Eq) by (apply (cmp_eq _ Ha); auto).
      rewrite C. apply (cmp_eq _ Hb); auto.
  - intros [a b] [a' b']; simpl. rewrite (cmp_anti _ Ha a a').
    destruct (ca a a') eqn:C; simpl; auto. apply (cmp_anti _ Hb).
  - intros [a b] [a' b'] [a'' b'']; simpl. intros E1 E2.
    destruct (ca a a') eqn:C1; try discriminate.
    + apply (cmp_eq _ Ha) in C1; subst.
      destruct (ca a' a'') eqn:C2; try discriminate; auto.
      eapply (cmp_trans _ Hb); eauto.
    + destruct (ca a' a'') eqn:C2; try discriminate.
      * apply (cmp_eq _ Ha) in C2; subst. rewrite C1; auto.
      * rewrite (cmp_trans _ Ha _ _ _ C1 C2). auto.
Qed.

Lemma cmp_refl {A} (cmp : A -> A -> comparison) : cmp_ok cmp -> forall x, cmp x x = Eq.
Proof. intros H x. apply (cmp_eq _ H); auto. Qed.

Lemma cmp_gt_lt {A} (cmp : A -> A -> comparison) : cmp_ok cmp -> forall x y, cmp x y = Gt <-> cmp y x = Lt.
Proof.
  intros H x y. rewrite (cmp_anti _ H x y). destruct (cmp x y); simpl; split; congruence.
Qed.

(* the boolean <= of a comparison *)
Definition leb_of {A} (cmp : A -> A -> comparison) (x y : A) : bool :=
  match cmp x y with Gt => false | _ => true end.

(* ------------------------------------------------------------------ *)
(* insertion sort *)

(* [leb] is a total preorder *)
Record leb_ok {A} (leb : A -> A -> bool) : Prop := {
  leb_total : forall x y, leb x y = true \/ leb y x = true;
  leb_trans : forall x y z, leb x y = true -> leb y z = true -> leb x z = true
}.

Lemma leb_of_ok {A} (cmp : A -> A -> comparison) : cmp_ok cmp -> leb_ok (leb_of cmp).
Proof.
  intros H. unfold leb_of. split.
  - intros x y. rewrite (cmp_anti _ H x y). destruct (cmp x y); simpl; auto.
  - intros x y z E1 E2.
    destruct (cmp x y) eqn:C1; try discriminate; destruct (cmp y z) eqn:C2; try discriminate.
    + apply (cmp_eq _ H) in C1; subst. rewrite C2; auto.
    + apply (cmp_eq _ H) in C1; subst. rewrite C2; auto.
    + apply (cmp_eq _ H) in C2; subst. rewrite C1; auto.
    + rewrite (cmp_trans _ H _ _ _ C1 C2); auto.
Qed.

Lemma leb_of_antisym {A} (cmp : A -> A -> comparison) : cmp_ok cmp ->
  forall x y, leb_of cmp x y = true -> leb_of cmp y x = true -> x = y.
Proof.
  intros H x y. unfold leb_of. rewrite (cmp_anti _ H x y).
  destruct (cmp x y) eqn:C; simpl; try discriminate. intros _ _. apply (cmp_eq _ H); auto.
Qed.

Section Sort.
  Context {A : Type} (leb : A -> A -> bool).

  Lemma insert_perm x l : Permutation (x :: l) (insert leb x l).
  Proof.
    induction l as [|y l IH]; simpl; auto.
    destruct (leb x y); auto.
    eapply perm_trans; [apply perm_swap|]. constructor; auto.
  Qed.

  Lemma isort_perm l : Permutation l (isort leb l).
  Proof.
    induction l as [|x l IH]; simpl; auto.
    eapply perm_trans; [|apply insert_perm]. constructor; auto.
  Qed.

  Lemma isort_length l : length (isort leb l) = length l.
  Proof. symmetry. apply Permutation_length, isort_perm. Qed.

  Definition leR x y := leb x y = true.

  Hypothesis Hleb : leb_ok leb.

  Lemma leb_false x y : leb x y = false -> leb y x = true.
  Proof. destruct (leb_total _ Hleb x y); congruence. Qed.

  Lemma insert_sorted x l : StronglySorted leR l -> StronglySorted leR (insert leb x l).
  Proof.
    induction 1 as [|y l Hl IH Hy]; simpl.
    - repeat constructor.
    - destruct (leb x y) eqn:E.
      + constructor; [constructor; auto|]. constructor; auto.
        eapply Forall_impl; [|exact Hy]. intros z Hz. eapply (leb_trans _ Hleb); eauto.
      + constructor; auto.
        assert (P := insert_perm x l).
        eapply Permutation_Forall; [exact P|]. constructor; auto. apply leb_false; auto.
  Qed.

  Lemma isort_sorted l : StronglySorted leR (isort leb l).
  Proof. induction l; simpl; [constructor|apply insert_sorted; auto]. Qed.

  Lemma isort_id l : StronglySorted leR l -> isort leb l = l.
  Proof.
    induction 1 as [|x l Hl IH Hx]; simpl; auto. rewrite IH.
    destruct l as [|y l]; simpl; auto.
    inversion Hx as [|? ? Hxy]; subst. unfold leR in Hxy. rewrite Hxy. auto.
  Qed.

  Lemma isort_idem l : isort leb (isort leb l) = isort leb l.
  Proof. apply isort_id, isort_sorted. Qed.
End Sort.

(* two sorted permutations of each other are equal if ties are equalities *)
Lemma sorted_perm_eq {A} (R : A -> A -> Prop) l1 l2 :
  (forall x y, In x l1 -> In y l1 -> R x y -> R y x -> x = y) ->
  Permutation l1 l2 -> StronglySorted R l1 -> StronglySorted R l2 -> l1 = l2.
Proof.
  revert l2; induction l1 as [|x l1 IH]; intros l2 Hanti P S1 S2.
  - apply Permutation_nil in P; auto.
  - destruct l2 as [|y l2]; [apply Permutation_sym, Permutation_nil in P; discriminate|].
    inversion S1 as [|? ? S1' F1]; subst. inversion S2 as [|? ? S2' F2]; subst.
    assert (x = y).
    { assert (Hy : In y (x :: l1)) by (eapply Permutation_in; [apply Permutation_sym; eauto|left; auto]).
      assert (Hx : In x (y :: l2)) by (eapply Permutation_in; [eauto|left; auto]).
      destruct Hy as [|Hy]; auto. destruct Hx as [|Hx]; auto.
      rewrite Forall_forall in F1, F2. apply Hanti; simpl; auto. }
    subst. f_equal. apply IH; auto.
    + intros; apply Hanti; simpl; auto.
    + eapply Permutation_cons_inv; eauto.
Qed.

Lemma isort_perm_eq {A} (leb : A -> A -> bool) l1 l2 :
  leb_ok leb ->
  (forall x y, In x l1 -> In y l1 -> leb x y = true -> leb y x = true -> x = y) ->
  Permutation l1 l2 -> isort leb l1 = isort leb l2.
Proof.
  intros H Hanti P. apply sorted_perm_eq with (R := leR leb).
  - intros x y Hx Hy. apply Hanti; eapply Permutation_in; try apply Permutation_sym, isort_perm; eauto.
  - eapply perm_trans; [apply Permutation_sym, isort_perm|].
    eapply perm_trans; [exact P|]. apply isort_perm.
  - apply isort_sorted; auto.
  - apply isort_sorted; auto.
Qed.

(* ------------------------------------------------------------------ *)
(* lengths, indices, slices *)

Lemma zlen_nonneg {A} (l : list A) : 0 <= zlen l.
Proof. unfold zlen; lia. Qed.

Lemma zlen_nil {A} : zlen (@nil A) = 0.
Proof. reflexivity. Qed.

Lemma zlen_cons {A} (x : A) l : zlen (x :: l) = zlen l + 1.
Proof. unfold zlen; simpl length; lia. Qed.

Lemma zlen_app {A} (l1 l2 : list A) : zlen (l1 ++ l2) = zlen l1 + zlen l2.
Proof. unfold zlen; rewrite app_length; lia. Qed.

Lemma zlen_map {A B} (f : A -> B) l : zlen (map f l) = zlen l.
Proof. unfold zlen; rewrite map_length; auto. Qed.

Lemma zlen_zero {A} (l : list A) : zlen l = 0 -> l = [].
Proof. destruct l; auto. rewrite zlen_cons. pose proof (zlen_nonneg l); lia. Qed.

Lemma py_index_nonneg {A} (l : list A) i :
  0 <= i -> py_index l i = of_option EIndex (nth_error l (Z.to_nat i)).
Proof.
  intros H. unfold py_index. destruct (i <? 0) eqn:E; [lia|].
  rewrite E. auto.
Qed.

Lemma py_index_ok {A} (l : list A) i : 0 <= i < zlen l -> exists x, py_index l i = Ok x /\ nth_error l (Z.to_nat i) = Some x.
Proof.
  intros H. rewrite py_index_nonneg by lia.
  destruct (nth_error l (Z.to_nat i)) eqn:E; simpl; eauto.
  apply nth_error_None in E. unfold zlen in H; lia.
Qed.

Lemma py_index_neg {A} (l : list A) i : - zlen l <= i < 0 -> py_index l i = py_index l (i + zlen l).
Proof.
  intros H. unfold py_index.
  destruct (i <? 0) eqn:E; [|lia]. destruct (i + zlen l <? 0) eqn:E2; [lia|].
  rewrite E2. auto.
Qed.

Lemma py_index_out {A} (l : list A) i : i < - zlen l \/ zlen l <= i -> py_index l i = Err EIndex.
Proof.
  intros H. unfold py_index. pose proof (zlen_nonneg l).
  destruct (i <? 0) eqn:E.
  - destruct (i + zlen l <? 0) eqn:E2; auto; lia.
  - rewrite E. destruct (nth_error l (Z.to_nat i)) eqn:E3; auto.
    assert (Z.to_nat i < length l)%nat by (apply nth_error_Some; congruence).
    unfold zlen in *; lia.
Qed.

Lemma clamp_id n i : 0 <= i <= n -> clamp_index n i = i.
Proof. intros H. unfold clamp_index. destruct (i <? 0) eqn:E; lia. Qed.

Lemma py_slice_inside {A} (l : list A) a b :
  0 <= a <= b -> b <= zlen l ->
  py_slice l a b = firstn (Z.to_nat b - Z.to_nat a) (skipn (Z.to_nat a) l).
Proof.
  intros H1 H2. unfold py_slice. rewrite !clamp_id by lia.
  f_equal. lia.
Qed.

Lemma py_slice_app {A} (l1 l2 l3 : list A) :
  py_slice (l1 ++ l2 ++ l3) (zlen l1) (zlen l1 + zlen l2) = l2.
Proof.
  rewrite py_slice_inside.
  - unfold zlen. rewrite Nat2Z.id.
    replace (Z.to_nat (Z.of_nat (length l1) + Z.of_nat (length l2)) - length l1)%nat with (length l2) by lia.
    rewrite skipn_app, skipn_all, Nat.sub_diag. simpl.
    rewrite firstn_app, Nat.sub_diag, firstn_all. simpl. apply app_nil_r.
  - pose proof (zlen_nonneg l1). pose proof (zlen_nonneg l2). lia.
  - rewrite !zlen_app. pose proof (zlen_nonneg l3). lia.
Qed.

Lemma py_slice_length {A} (l : list A) a b :
  0 <= a <= b -> b <= zlen l -> zlen (py_slice l a b) = b - a.
Proof.
  intros H1 H2. rewrite py_slice_inside by auto. unfold zlen in *.
  rewrite firstn_length, skipn_length. lia.
Qed.

Lemma nth_error_skipn {A} (l : list A) n i : nth_error (skipn n l) i = nth_error l (n + i).
Proof.
  revert l; induction n as [|n IH]; intros l; simpl; auto.
  destruct l; simpl; auto. destruct i; auto.
Qed.

Lemma nth_error_firstn {A} (l : list A) n i : (i < n)%nat -> nth_error (firstn n l) i = nth_error l i.
Proof.
  revert l i; induction n as [|n IH]; intros l i H; [lia|].
  destruct l; simpl; auto. destruct i; simpl; auto. apply IH; lia.
Qed.

Lemma py_slice_nth {A} (l : list A) a b i :
  0 <= a <= b -> b <= zlen l -> (i < Z.to_nat (b - a))%nat ->
  nth_error (py_slice l a b) i = nth_error l (Z.to_nat a + i).
Proof.
  intros H1 H2 H3. rewrite py_slice_inside by auto.
  rewrite nth_error_firstn by lia. apply nth_error_skipn.
Qed.

Lemma skipn_skipn' {A} (l : list A) n m : skipn n (skipn m l) = skipn (m + n) l.
Proof.
  revert l; induction m as [|m IH]; intros l; simpl; auto.
  destruct l; simpl; auto. apply skipn_nil.
Qed.

Lemma py_slice_split {A} (l : list A) a b c :
  0 <= a <= b -> b <= c -> c <= zlen l ->
  py_slice l a c = py_slice l a b ++ py_slice l b c.
Proof.
  intros H1 H2 H3. rewrite !py_slice_inside by lia.
  replace (Z.to_nat c - Z.to_nat a)%nat with ((Z.to_nat b - Z.to_nat a) + (Z.to_nat c - Z.to_nat b))%nat by lia.
  set (m := (Z.to_nat b - Z.to_nat a)%nat).
  replace (skipn (Z.to_nat b) l) with (skipn m (skipn (Z.to_nat a) l)).
  - generalize (skipn (Z.to_nat a) l) as l'. generalize (Z.to_nat c - Z.to_nat b)%nat as k.
    clear. intros k l'. revert l'. induction m as [|m IH]; intros l'; simpl; auto.
    destruct l' as [|x l']; simpl; [destruct k; auto|]. f_equal. auto.
  - rewrite skipn_skipn'. f_equal. unfold m; lia.
Qed.

Lemma py_slice_all {A} (l : list A) : py_slice l 0 (zlen l) = l.
Proof.
  pose proof (zlen_nonneg l). rewrite py_slice_inside by lia. simpl.
  unfold zlen. rewrite Nat2Z.id, Nat.sub_0_r. apply firstn_all.
Qed.

Lemma py_slice_empty {A} (l : list A) a : 0 <= a <= zlen l -> py_slice l a a = [].
Proof. intros H. rewrite py_slice_inside by lia. rewrite Nat.sub_diag. auto. Qed.

Lemma set_nth_length {A} (l : list A) i x : length (set_nth l i x) = length l.
Proof. revert i; induction l; destruct i; simpl; auto. Qed.

Lemma set_nth_same {A} (l : list A) i x : (i < length l)%nat -> nth_error (set_nth l i x) i = Some x.
Proof.
  revert i; induction l as [|y l IH]; destruct i; simpl; intros H; try lia; auto. apply IH; lia.
Qed.

Lemma set_nth_other {A} (l : list A) i j x : i <> j -> nth_error (set_nth l i x) j = nth_error l j.
Proof.
  revert i j; induction l as [|y l IH]; destruct i, j; simpl; intros H; auto; try lia.
Qed.

Lemma zrange_length n : length (zrange n) = Z.to_nat n.
Proof. unfold zrange. rewrite map_length, seq_length. auto. Qed.

Lemma in_zrange n i : In i (zrange n) <-> 0 <= i < n.
Proof.
  unfold zrange. rewrite in_map_iff. split.
  - intros (k & <- & H). apply in_seq in H. lia.
  - intros H. exists (Z.to_nat i). split; [lia|]. apply in_seq. lia.
Qed.

(* ------------------------------------------------------------------ *)
(* dictionaries *)

Lemma dict_get_In {V} (d : dict V) k v : dict_get d k = Some v -> In (k, v) d.
Proof.
  induction d as [|[k' v'] d IH]; simpl; try discriminate.
  destruct (str_eqb_spec k k'); intros E; [inversion E; subst; auto|auto].
Qed.

Lemma dict_get_None {V} (d : dict V) k : dict_get d k = None <-> ~ In k (dict_keys d).
Proof.
  induction d as [|[k' v'] d IH]; simpl; [tauto|].
  destruct (str_eqb_spec k k'); split; intros E; try discriminate.
  - exfalso; apply E; auto.
  - intros [|H]; [congruence|]. apply IH in E; auto.
  - apply IH. tauto.
Qed.

Lemma In_dict_get {V} (d : dict V) k v : dict_ok d -> In (k, v) d -> dict_get d k = Some v.
Proof.
  unfold dict_ok. induction d as [|[k' v'] d IH]; simpl; [tauto|].
  intros ND [E|H]; inversion ND as [|? ? N1 N2]; subst.
  - inversion E; subst. rewrite str_eqb_refl; auto.
  - destruct (str_eqb_spec k k'); [|auto].
    subst. exfalso; apply N1. apply (in_map fst) in H; auto.
Qed.

Lemma dict_mem_In {V} (d : dict V) k : dict_mem d k = true <-> In k (dict_keys d).
Proof.
  unfold dict_mem. destruct (dict_get d k) eqn:E; simpl; split; auto; try discriminate.
  - intros _. apply dict_get_In in E. apply (in_map fst) in E; auto.
  - intros H. apply dict_get_None in E. contradiction.
Qed.

Lemma dict_get_set_same {V} (d : dict V) k v : dict_get (dict_set d k v) k = Some v.
Proof.
  induction d as [|[k' v'] d IH]; simpl.
  - rewrite str_eqb_refl; auto.
  - destruct (str_eqb_spec k k'); simpl.
    + subst; rewrite str_eqb_refl; auto.
    + destruct (str_eqb_spec k k'); [congruence|auto].
Qed.

Lemma dict_get_set_other {V} (d : dict V) k k2 v : k <> k2 -> dict_get (dict_set d k v) k2 = dict_get d k2.
Proof.
  intros N. induction d as [|[k' v'] d IH]; simpl.
  - destruct (str_eqb_spec k2 k); [congruence|auto].
  - destruct (str_eqb_spec k k'); simpl.
    + subst. destruct (str_eqb_spec k2 k'); [congruence|auto].
    + destruct (str_eqb_spec k2 k'); auto.
Qed.

Lemma dict_keys_set {V} (d : dict V) k v :
  dict_keys (dict_set d k v) = if dict_mem d k then dict_keys d else dict_keys d ++ [k].
Proof.
  unfold dict_mem. induction d as [|[k' v'] d IH]; simpl; auto.
  destruct (str_eqb_spec k k'); simpl; auto.
  rewrite IH. destruct (dict_get d k); auto.
Qed.

Lemma dict_set_ok {V} (d : dict V) k v : dict_ok d -> dict_ok (dict_set d k v).
Proof.
  unfold dict_ok. intros H. rewrite dict_keys_set.
  destruct (dict_mem d k) eqn:E; auto.
  apply (Permutation_NoDup (l := k :: dict_keys d)).
  - apply Permutation_cons_append.
  - constructor; auto. intros C. apply dict_mem_In in C. congruence.
Qed.

Lemma dict_update_ok {V} (e d : dict V) : dict_ok d -> dict_ok (dict_update d e).
Proof.
  unfold dict_update. revert d; induction e as [|[k v] e IH]; simpl; auto.
  intros d H. apply IH, dict_set_ok; auto.
Qed.

Lemma dict_get_update {V} (e d : dict V) k :
  dict_ok e ->
  dict_get (dict_update d e) k = match dict_get e k with Some v => Some v | None => dict_get d k end.
Proof.
  unfold dict_update, dict_ok. revert d; induction e as [|[k' v'] e IH]; simpl; auto.
  intros d ND. inversion ND as [|? ? N1 N2]; subst. rewrite IH by auto.
  destruct (dict_get e k) eqn:E.
  - destruct (str_eqb_spec k k'); auto. subst.
    apply dict_get_In, (in_map fst) in E. contradiction.
  - destruct (str_eqb_spec k k').
    + subst. apply dict_get_set_same.
    + apply dict_get_set_other; auto.
Qed.

(* extensional equality *)
Definition dict_equiv {V} (d1 d2 : dict V) : Prop := forall k, dict_get d1 k = dict_get d2 k.

Lemma dict_keys_length {V} (d : dict V) : length (dict_keys d) = length d.
Proof. apply map_length. Qed.

Lemma dict_eqb_equiv {V} (eqb : V -> V -> bool) (H : forall x y, eqb x y = true <-> x = y) d1 d2 :
  dict_ok d1 -> dict_ok d2 -> (dict_eqb eqb d1 d2 = true <-> dict_equiv d1 d2).
Proof.
  intros O1 O2. unfold dict_eqb. rewrite andb_true_iff, Nat.eqb_eq, forallb_forall. split.
  - intros [L F] k.
    assert (I : incl (dict_keys d1) (dict_keys d2)).
    { intros x Hx. apply in_map_iff in Hx. destruct Hx as ([k' v'] & E & Hx); simpl in E; subst.
      specialize (F _ Hx). simpl in F. destruct (dict_get d2 x) eqn:G; try discriminate.
      apply dict_get_In, (in_map fst) in G; auto. }
    destruct (dict_get d1 k) eqn:G1.
    + apply dict_get_In in G1. specialize (F _ G1). simpl in F.
      destruct (dict_get d2 k); try discriminate. apply H in F. congruence.
    + destruct (dict_get d2 k) eqn:G2; auto.
      apply dict_get_None in G1. exfalso; apply G1.
      apply dict_get_In, (in_map fst) in G2. simpl in G2.
      apply (NoDup_length_incl O1) in I; [|rewrite !dict_keys_length; lia]. auto.
  - intros E. split.
    + apply Nat.le_antisymm.
      * rewrite <- (dict_keys_length d1), <- (dict_keys_length d2). apply NoDup_incl_length; auto.
        intros x Hx. apply dict_mem_In in Hx. apply dict_mem_In. unfold dict_mem in *. rewrite <- E; auto.
      * rewrite <- (dict_keys_length d1), <- (dict_keys_length d2). apply NoDup_incl_length; auto.
        intros x Hx. apply dict_mem_In in Hx. apply dict_mem_In. unfold dict_mem in *. rewrite E; auto.
    + intros [k v] Hx. simpl. rewrite <- (E k). rewrite (In_dict_get _ _ _ O1 Hx). apply H; auto.
Qed.

Lemma dict_equiv_perm {V} (d1 d2 : dict V) : dict_ok d1 -> dict_ok d2 -> dict_equiv d1 d2 -> Permutation d1 d2.
Proof.
  intros O1 O2 E. apply NoDup_Permutation.
  - eapply NoDup_map_inv; exact O1.
  - eapply NoDup_map_inv; exact O2.
  - intros [k v]. split; intros Hx.
    + apply dict_get_In. rewrite <- E. apply In_dict_get; auto.
    + apply dict_get_In. rewrite E. apply In_dict_get; auto.
Qed.

Lemma perm_dict_equiv {V} (d1 d2 : dict V) : dict_ok d1 -> dict_ok d2 -> Permutation d1 d2 -> dict_equiv d1 d2.
Proof.
  intros O1 O2 P k. destruct (dict_get d1 k) eqn:G1.
  - symmetry. apply In_dict_get; auto. eapply Permutation_in; eauto. apply dict_get_In; auto.
  - symmetry. apply dict_get_None. apply dict_get_None in G1. intros C. apply G1.
    eapply Permutation_in; [|exact C]. apply Permutation_sym. apply Permutation_map; auto.
Qed.

(* ------------------------------------------------------------------ *)
(* strings: split, join, numbers *)

Lemma split_nonempty sep s : split sep s <> [].
Proof.
  destruct s as [|c s]; simpl; try discriminate.
  destruct (c =? sep)%N; try discriminate. destruct (split sep s); discriminate.
Qed.

Lemma join_split sep s : join [sep] (split sep s) = s.
Proof.
  induction s as [|c s IH]; simpl; auto.
  pose proof (split_nonempty sep s) as NE.
  destruct (N.eqb_spec c sep).
  - subst. destruct (split sep s) as [|p ps]; [congruence|]. simpl in *. f_equal. exact IH.
  - destruct (split sep s) as [|p ps]; [congruence|].
    destruct ps as [|q qs]; simpl in *; f_equal; exact IH.
Qed.

Definition no_char (c : char) (s : str) : Prop := ~ In c s.

Lemma split_no_sep sep s : no_char sep s -> split sep s = [s].
Proof.
  unfold no_char. induction s as [|c s IH]; simpl; auto. intros H.
  destruct (N.eqb_spec c sep); [exfalso; auto|]. rewrite IH by tauto. auto.
Qed.

Lemma split_app_sep sep s rest : no_char sep s -> split sep (s ++ sep :: rest) = s :: split sep rest.
Proof.
  unfold no_char. induction s as [|c s IH]; simpl; intros H.
  - rewrite N.eqb_refl. auto.
  - destruct (N.eqb_spec c sep); [exfalso; auto|]. rewrite IH by tauto. auto.
Qed.

Lemma split_join sep l : l <> [] -> Forall (no_char sep) l -> split sep (join [sep] l) = l.
Proof.
  intros NE H. induction H as [|x l Hx Hl IH]; [congruence|].
  destruct l as [|y l].
  - simpl. apply split_no_sep; auto.
  - change (join [sep] (x :: y :: l)) with (x ++ sep :: join [sep] (y :: l)).
    rewrite split_app_sep by auto. f_equal. apply IH. congruence.
Qed.

Lemma split_pieces_no_sep sep s : Forall (no_char sep) (split sep s).
Proof.
  unfold no_char. induction s as [|c s IH]; simpl.
  - repeat constructor. simpl; tauto.
  - destruct (N.eqb_spec c sep).
    + constructor; auto.
    + destruct (split sep s) as [|p ps]; inversion IH; subst; constructor; auto; simpl; intros [|]; auto.
Qed.

(* decimal numbers *)

Definition is_digit (c : char) : Prop := (48 <= c <= 57)%N.

Lemma uint_digits_are_digits u : Forall is_digit (uint_digits u).
Proof. unfold is_digit. induction u; simpl; constructor; auto; lia. Qed.

Lemma parse_uint_digits u b : (b = true \/ u <> Decimal.Nil) -> parse_digits b (uint_digits u) = Some u.
Proof.
  revert b; induction u; simpl; intros b H; try (rewrite IHu by auto; reflexivity).
  destruct H; [subst; auto|congruence].
Qed.

Lemma N_to_uint_nonnil n : N.to_uint n <> Decimal.Nil.
Proof.
  intros E. assert (H : N.of_uint (N.to_uint n) = n) by apply DecimalN.Unsigned.of_to.
  assert (Hn : DecimalFacts.nztail (Decimal.rev (N.to_uint n)) = DecimalFacts.nztail (Decimal.rev (N.to_uint n))) by auto.
  rewrite E in H. simpl in H. subst. simpl in E. discriminate.
Qed.

Lemma parse_nat_print n : parse_nat_str (print_N n) = Some (Z.of_N n).
Proof.
  unfold parse_nat_str, print_N. rewrite parse_uint_digits by (right; apply N_to_uint_nonnil).
  f_equal. f_equal. apply DecimalN.Unsigned.of_to.
Qed.

Lemma digit_not_space c : is_digit c -> isspace_char c = false.
Proof.
  unfold is_digit, isspace_char. intros H.
  repeat apply orb_false_intro; try (apply N.eqb_neq; lia);
    apply andb_false_iff; rewrite !N.leb_gt; lia.
Qed.

Lemma drop_while_none {A} (p : A -> bool) l : Forall (fun x => p x = false) l -> drop_while p l = l.
Proof. destruct 1 as [|x l H]; simpl; auto. rewrite H; auto. Qed.

Lemma strip_no_space s : Forall (fun c => isspace_char c = false) s -> strip s = s.
Proof.
  intros H. unfold strip, rstrip, lstrip. rewrite (drop_while_none _ s) by auto.
  rewrite drop_while_none; [apply rev_involutive|]. apply Forall_rev; auto.
Qed.

Lemma print_N_digits n : Forall is_digit (print_N n).
Proof. apply uint_digits_are_digits. Qed.

Lemma print_N_nonnil n : print_N n <> [].
Proof.
  unfold print_N. pose proof (N_to_uint_nonnil n) as H.
  destruct (N.to_uint n); simpl; congruence.
Qed.

Lemma print_Z_chars z : Forall (fun c => is_digit c \/ c = 45%N) (print_Z z).
Proof.
  assert (H : forall n, Forall (fun c => is_digit c \/ c = 45%N) (print_N n)).
  { intros n. eapply Forall_impl; [|apply print_N_digits]. simpl; auto. }
  unfold print_Z. destruct z; auto.
Qed.

Lemma print_Z_nonnil z : print_Z z <> [].
Proof. destruct z; simpl; try discriminate; apply print_N_nonnil. Qed.

Lemma parse_print_Z z : parse_int (print_Z z) = Ok z.
Proof.
  unfold parse_int. rewrite strip_no_space.
  2:{ eapply Forall_impl; [|apply print_Z_chars]. simpl. intros c [H| ->]; [apply digit_not_space; auto|reflexivity]. }
  assert (Hnn : forall n, match print_N n with
                        | [] => Err EValue
                        | c :: s' =>
                            if (c =? 45)%N then of_option EValue (option_map Z.opp (parse_nat_str s'))
                            else if (c =? 43)%N then of_option EValue (parse_nat_str s')
                            else of_option EValue (parse_nat_str (c :: s'))
                        end = Ok (Z.of_N n)).
  { intros n. pose proof (parse_nat_print n) as P. pose proof (print_N_digits n) as D.
    destruct (print_N n) as [|c s'] eqn:E; [destruct (print_N_nonnil n); auto|].
    inversion D as [|? ? Dc _]; subst. unfold is_digit in Dc.
    destruct (N.eqb_spec c 45); [lia|]. destruct (N.eqb_spec c 43); [lia|].
    rewrite P. reflexivity. }
  destruct z as [|p|p].
  - apply (Hnn 0%N).
  - apply (Hnn (Npos p)).
  - change (print_Z (Zneg p)) with (45%N :: print_N (Npos p)). cbv iota beta.
    change ((45 =? 45)%N) with true. cbv iota. rewrite parse_nat_print. reflexivity.
Qed.

Lemma print_Z_inj a b : print_Z a = print_Z b -> a = b.
Proof.
  intros E. assert (H : parse_int (print_Z a) = parse_int (print_Z b)) by congruence.
  rewrite !parse_print_Z in H. congruence.
Qed.

Lemma nth_error_last {A} (l : list A) d : l <> [] -> nth_error l (pred (length l)) = Some (last l d).
Proof.
  induction l as [|x l IH]; intros H; [congruence|].
  destruct l as [|y l]; auto.
  change (last (x :: y :: l) d) with (last (y :: l) d). apply IH. congruence.
Qed.

Lemma py_index_last {A} (l : list A) d : l <> [] -> py_index l (-1) = Ok (last l d).
Proof.
  intros H. assert (0 < zlen l) by (destruct l; [congruence|]; rewrite zlen_cons; pose proof (zlen_nonneg l); lia).
  rewrite py_index_neg by lia. rewrite py_index_nonneg by lia.
  replace (Z.to_nat (-1 + zlen l)) with (pred (length l)) by (unfold zlen; lia).
  rewrite (nth_error_last l d) by auto. reflexivity.
Qed.

Lemma firstn_S_nth {A} n : forall (l : list A) x, nth_error l n = Some x -> firstn (S n) l = firstn n l ++ [x].
Proof.
  induction n as [|n IH]; intros [|y l] x H; simpl in *; try discriminate; [congruence|].
  f_equal. rewrite <- (IH l x H). reflexivity.
Qed.
