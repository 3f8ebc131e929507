(* Configurations: the shapes of padded features. *)
From Coq Require Import String Ascii ZArith NArith QArith Bool List Lia Permutation.
From Verif Require Import Base BaseFacts Model_Datamodel Spec_Datamodel Model_Vocab Model_Lemma Model_Features Model_Builder Spec_Builder
  Proofs_Features Proofs_Builder Proofs_Builder3 Model_Neural Spec_Neural Model_Network Spec_Network Model_Config Spec_Config.
Import ListNotations.
Open Scope Z_scope.

(* lists down to depth r, scalars there *)
Inductive rank : nat -> nested -> Prop :=
| rank_int z : rank 0 (NInt z)
| rank_list r l : Forall (rank r) l -> rank (S r) (NList l).

Lemma rank_at r : forall x p a, rank r x -> at_path p x = Some a -> (length p <= r)%nat /\ rank (r - length p) a.
Proof.
  induction r as [|r IH]; intros x p a R A.
  - inversion R; subst. destruct p; cbn [at_path] in A; [injection A as <-; split; [auto|constructor]|discriminate].
  - inversion R as [|? l F]; subst. destruct p as [|i p]; cbn [at_path] in A.
    + injection A as <-. cbn [length]. split; [lia|]. exact R.
    + destruct (nth_error l i) as [y|] eqn:E; [|discriminate]. apply nth_error_In in E. rewrite Forall_forall in F.
      destruct (IH y p a (F _ E) A) as [H1 H2]. cbn [length]. split; [lia|]. exact H2.
Qed.
Lemma rank_is_list r x p a : rank r x -> at_path p x = Some a -> is_list a = true <-> (length p < r)%nat.
Proof.
  intros R A. destruct (rank_at r x p a R A) as [L R']. destruct a; cbn [is_list].
  - inversion R' as [z0 E|]. split; [discriminate|]. intros. lia.
  - inversion R' as [|r' l' F E]. split; [intros _; lia|auto].
Qed.
Lemma rank_homogeneous r x : rank r x -> homogeneous x.
Proof.
  intros R p q a b L A B. pose proof (rank_is_list _ _ _ _ R A) as HA. pose proof (rank_is_list _ _ _ _ R B) as HB.
  rewrite L in HA. destruct (is_list a), (is_list b); auto; destruct HA, HB; intuition congruence.
Qed.

(* there is a list at every depth below r *)
Definition inhabited (r : nat) (x : nested) : Prop := forall i, (i < r)%nat -> exists p l, length p = i /\ at_path p x = Some (NList l).

(* what is known about a padded value *)
Lemma shaped_paths s : forall y,
  (forall p a, at_path p y = Some a -> match a with NInt _ => length p = length s | NList l => nth_error s (length p) = Some (zlen l) end) ->
  shaped s y.
Proof.
  induction s as [|n s IH]; intros y H; pose proof (H [] y eq_refl) as H0; destruct y as [z|l]; cbn [length nth_error shaped] in *; try discriminate; auto.
  injection H0 as <-. split; [reflexivity|]. apply Forall_forall. intros y Hy. apply In_nth_error in Hy. destruct Hy as [i Hi]. apply IH. intros p a A.
  specialize (H (i :: p) a). cbn [at_path] in H. rewrite Hi in H. specialize (H A). destruct a; cbn [length nth_error] in H; [lia|exact H].
Qed.
Lemma shaped_path s : forall y p a, shaped s y -> at_path p y = Some a ->
  match a with NInt _ => length p = length s | NList l => nth_error s (length p) = Some (zlen l) end.
Proof.
  induction s as [|n s IH]; intros y p a H A; destruct y as [z|l]; cbn [shaped] in H; try contradiction.
  - destruct p; cbn [at_path] in A; [injection A as <-; reflexivity|discriminate].
  - destruct H as [<- F]. destruct p as [|i p]; cbn [at_path] in A; [injection A as <-; reflexivity|].
    destruct (nth_error l i) as [y|] eqn:E; [|discriminate]. apply nth_error_In in E. rewrite Forall_forall in F.
    specialize (IH y p a (F _ E) A). destruct a; cbn [length nth_error]; auto.
Qed.

Lemma dims_exist r (P : nat -> Z -> Prop) : (forall i, (i < r)%nat -> exists n, P i n) ->
  exists s, length s = r /\ forall i n, nth_error s i = Some n -> P i n.
Proof.
  revert P. induction r as [|r IH]; intros P H; [exists []; split; auto; intros [|i] n; discriminate|].
  destruct (H 0%nat ltac:(lia)) as [n0 H0]. destruct (IH (fun i n => P (S i) n)) as [s [L Hs]].
  - intros i Hi. apply H. lia.
  - exists (n0 :: s). split; [cbn; lia|]. intros [|i] n E; cbn [nth_error] in E; [injection E as <-; auto|auto].
Qed.

Lemma pad_shaped r x y : rank r x -> inhabited r x -> padded x y -> exists s, length s = r /\ shaped s y /\
  (forall i n, nth_error s i = Some n ->
     (exists p l, length p = i /\ at_path p x = Some (NList l) /\ zlen l = n) /\
     (forall p l, length p = i -> at_path p x = Some (NList l) -> zlen l <= n)) /\
  (forall p z, at_path p y = Some (NInt z) -> z = 0 \/ at_path p x = Some (NInt z)).
Proof.
  intros R I (Hh & Hr & Hk & Ha & Hn).
  (* the length of the lists of y at a depth *)
  destruct (dims_exist r (fun i n => exists p l, length p = i /\ at_path p y = Some (NList l) /\ zlen l = n)) as [s [Ls Hs]].
  { intros i Hi. destruct (I i Hi) as (p & l & L & A). destruct (proj2 (Hk p) l A) as (l' & A' & _). exists (zlen l'), p, l'. auto. }
  exists s. split; [exact Ls|]. split; [|split].
  - apply shaped_paths. intros p a A. destruct a as [z|l].
    + (* a scalar stands at depth r *)
      destruct (Nat.lt_trichotomy (length p) r) as [L|[L|L]]; [|congruence|].
      * exfalso. destruct (I _ L) as (q & l & Lq & Aq). destruct (proj2 (Hk q) l Aq) as (l' & A' & _).
        specialize (Hh p q _ _ (eq_sym Lq) A A'). discriminate.
      * (* its parent at depth r would be a list *)
        exfalso. destruct (Nat.lt_ge_cases r (length p)) as [_|]; [|lia].
        assert (Q : exists l, at_path (firstn r p) y = Some (NList l)).
        { clear - A L. revert y p A L. induction r as [|r IH]; intros y p A L; destruct p as [|i p]; cbn [length] in L; try lia; cbn [at_path firstn] in *.
          - destruct y; [discriminate|eauto].
          - destruct y as [|l]; [discriminate|]. destruct (nth_error l i); [|discriminate]. eapply IH; eauto. lia. }
        destruct Q as [l Q]. destruct (Hn _ _ Q) as (q & l0 & Lq & Aq & _). rewrite firstn_length, Nat.min_l in Lq by lia.
        apply (rank_is_list _ _ _ _ R) in Aq. destruct Aq as [Aq _]. specialize (Aq eq_refl). lia.
    + destruct (Hn _ _ A) as (q & l0 & Lq & Aq & _). pose proof (proj1 (rank_is_list _ _ _ _ R Aq) eq_refl) as Lr.
      destruct (nth_error s (length p)) as [n|] eqn:E; [|apply nth_error_None in E; lia].
      destruct (Hs _ _ E) as (p' & l' & Lp & Ap & <-). f_equal. unfold zlen. f_equal. exact (Hr p' p _ _ Lp Ap A).
  - intros i n E. destruct (Hs _ _ E) as (p & l & Lp & Ap & <-). split.
    + destruct (Hn _ _ Ap) as (q & l0 & Lq & Aq & El). exists q, l0. split; [congruence|]. split; [exact Aq|]. unfold zlen. congruence.
    + intros q l0 Lq Aq. destruct (proj2 (Hk q) l0 Aq) as (l' & A' & Hle). unfold zlen. pose proof (Hr p q l l' ltac:(congruence) Ap A'). lia.
  - intros p z A. destruct (at_path p x) as [[z'|l]|] eqn:E.
    + right. pose proof (proj1 (Hk p) z' E) as B. rewrite A in B. injection B as ->. reflexivity.
    + destruct (proj2 (Hk p) l E) as (l' & B & _). rewrite A in B. discriminate.
    + left. exact (Ha p z A E).
Qed.
