(* Facts about model selection *)
From Coq Require Import String Ascii ZArith NArith QArith Qfield Bool Lia Lqa Permutation List.
From Verif Require Import Base BaseFacts Proofs_Datamodel Model_UDEval Model_Harness Spec_Harness.
Import ListNotations.
Open Scope Z_scope.

(* ---- comparing ---- *)

Lemma attribute_get a s q : attribute a s q <-> get_attr a s = Some q.
Proof.
  split.
  - intros H. destruct H; simpl; auto.
  - destruct a; simpl; intros H; try (injection H as <-); constructor; auto.
Qed.

Lemma Qgt_iff a b : Qgt a b = true <-> (b < a)%Q.
Proof.
  unfold Qgt. rewrite Qgt_alt. destruct (a ?= b)%Q; split; intros H; auto; discriminate.
Qed.
Lemma Qgt_false a b : Qgt a b = false <-> (a <= b)%Q.
Proof.
  destruct (Qgt a b) eqn:E.
  - apply Qgt_iff in E. split; [discriminate|]. intros H. lra.
  - split; auto. intros _. apply Qnot_lt_le. intros H. apply Qgt_iff in H. congruence.
Qed.

Lemma score_sum_ok fields a t : forall q0 q,
  foldM (fun total field => do t <- of_option EAttr (Some t); do s <- of_option EAttr (dict_get t field);
           do v <- of_option EType (get_attr a s); Ok (total + v)%Q) q0 fields = Ok q ->
  exists vs, Forall2 (fun f v => exists s, dict_get t f = Some s /\ attribute a s v) fields vs /\ (q == q0 + sumq vs)%Q.
Proof.
  induction fields as [|f fs IH]; cbn [foldM]; intros q0 q H.
  - injection H as <-. exists []. split; [constructor|]. cbn. ring.
  - apply bind_ok_iff in H. destruct H as (q1 & H1 & H). cbn [of_option bind] in H1.
    destruct (dict_get t f) as [s|] eqn:E; [|discriminate]. cbn [of_option bind] in H1.
    destruct (get_attr a s) as [v|] eqn:G; [|discriminate]. injection H1 as <-.
    destruct (IH _ _ H) as (vs & F & Q). exists (v :: vs). split.
    + constructor; auto. exists s. split; auto. apply attribute_get; auto.
    + rewrite Q. cbn. ring.
Qed.

Lemma worth_sum fields a t q : worth fields a t q -> exists q', score_sum fields a (Some t) = Ok q' /\ (q' == q)%Q.
Proof.
  intros (vs & F & Q). unfold score_sum.
  assert (G : forall q0, exists q', foldM (fun total field => do t <- of_option EAttr (Some t); do s <- of_option EAttr (dict_get t field);
           do v <- of_option EType (get_attr a s); Ok (total + v)%Q) q0 fields = Ok q' /\ (q' == q0 + sumq vs)%Q).
  { clear Q. induction F as [|f v fs vs (s & D & A) F IH]; cbn [foldM]; intros q0.
    - eexists. split; [reflexivity|]. cbn. ring.
    - cbn [of_option bind]. rewrite D. cbn [of_option bind]. apply attribute_get in A. rewrite A. cbn [of_option bind].
      destruct (IH (q0 + v)%Q) as (q' & E & Q). exists q'. split; auto. rewrite Q. cbn. ring. }
  destruct (G 0%Q) as (q' & E & Q'). exists q'. split; auto. rewrite Q', Q. ring.
Qed.

Lemma sum_worth fields a t q : score_sum fields a (Some t) = Ok q -> worth fields a t q.
Proof.
  unfold score_sum. intros H. destruct (score_sum_ok _ _ _ _ _ H) as (vs & F & Q). exists vs. split; auto. rewrite Q. ring.
Qed.

Lemma worth_unique fields a t q r : worth fields a t q -> worth fields a t r -> (q == r)%Q.
Proof.
  intros H H'. destruct (worth_sum _ _ _ _ H) as (x & E & X). destruct (worth_sum _ _ _ _ H') as (y & E' & Y).
  rewrite E in E'. injection E' as <-. rewrite <- X. exact Y.
Qed.

Lemma better_worth fields a t t' q q' : worth fields a t q -> worth fields a t' q' ->
  is_better fields a (Some t) (Some t') = Ok (Qgt q q').
Proof.
  intros H H'. destruct (worth_sum _ _ _ _ H) as (x & E & X). destruct (worth_sum _ _ _ _ H') as (y & E' & Y).
  unfold is_better, compare_scores. rewrite E, E'. cbn [bind]. f_equal.
  destruct (Qgt q q') eqn:G.
  - apply Qgt_iff in G. apply Qgt_iff. lra.
  - apply Qgt_false in G. apply Qgt_false. lra.
Qed.

Lemma printable_ok metrics t : print_metrics metrics (Some t) = Ok tt <-> printable metrics t.
Proof.
  unfold print_metrics, printable. induction metrics as [|m ms IH]; cbn [foldM].
  - split; auto.
  - cbn [of_option bind]. rewrite Forall_cons_iff. destruct (dict_get t m) as [s|] eqn:E; cbn [of_option bind].
    + rewrite IH. split; [|tauto]. intros H. split; auto. apply in_map_iff. exists (m, s). split; auto. apply dict_get_In. auto.
    + split; [discriminate|]. intros [H _]. exfalso. apply in_map_iff in H. destruct H as ((k & s) & <- & H).
      apply dict_get_None in E. apply E. apply in_map_iff. exists (k, s). auto.
Qed.

Lemma print_metrics_cases metrics o : print_metrics metrics o = Ok tt \/ exists e, print_metrics metrics o = Err e.
Proof. destruct (print_metrics metrics o) as [[]|e]; eauto. Qed.

(* ---- the first best ---- *)

Lemma first_best_nil_snoc q : first_best [q] 0.
Proof.
  exists q. split; [reflexivity|]. split; [|intros; lia]. intros [|j] r H; cbn in H; [injection H as <-; lra|].
  destruct j; discriminate.
Qed.

Lemma first_best_snoc qs q i q1 : nth_error qs i = Some q1 -> first_best qs i ->
  first_best (qs ++ [q]) (if Qgt q q1 then length qs else i).
Proof.
  intros E (q2 & E2 & A & B). rewrite E in E2. injection E2 as <-.
  assert (L : (i < length qs)%nat) by (apply nth_error_Some; congruence).
  destruct (Qgt q q1) eqn:G.
  - apply Qgt_iff in G. exists q. split; [rewrite nth_error_app2, Nat.sub_diag by lia; reflexivity|].
    assert (X : forall j r, nth_error (qs ++ [q]) j = Some r -> (j < length qs)%nat /\ nth_error qs j = Some r \/ j = length qs /\ r = q).
    { intros j r H. destruct (Nat.lt_ge_cases j (length qs)).
      - left. split; auto. rewrite nth_error_app1 in H; auto.
      - right. rewrite nth_error_app2 in H by lia. destruct (j - length qs)%nat eqn:D; cbn in H.
        + injection H as <-. split; auto. lia.
        + destruct n; discriminate. }
    split.
    + intros j r H. destruct (X j r H) as [(_ & H1)|(_ & ->)]; [|lra]. specialize (A _ _ H1). lra.
    + intros j r L' H. destruct (X j r H) as [(_ & H1)|(-> & _)]; [|lia]. specialize (A _ _ H1). lra.
  - apply Qgt_false in G. exists q1. split; [rewrite nth_error_app1; auto|]. split.
    + intros j r H. destruct (Nat.lt_ge_cases j (length qs)).
      * rewrite nth_error_app1 in H by auto. eauto.
      * rewrite nth_error_app2 in H by lia. destruct (j - length qs)%nat; cbn in H; [injection H as <-; auto|destruct n; discriminate].
    + intros j r L' H. rewrite nth_error_app1 in H by lia. eauto.
Qed.

Lemma first_best_unique qs i j : first_best qs i -> first_best qs j -> i = j.
Proof.
  intros (q & E & A & B) (r & E' & A' & B'). destruct (Nat.lt_trichotomy i j) as [L|[L|L]]; auto.
  - specialize (B' _ _ L E). specialize (A _ _ E'). lra.
  - specialize (B _ _ L E'). specialize (A' _ _ E). lra.
Qed.

(* ---- the selection loops ---- *)

Section Selection.
Context {X : Type}.
Variables (fields : list str) (a : attr).

Definition item : Type := (str * X * option table)%type.
Definition i_path (it : item) : str := fst (fst it).

Definition inv (items : list item) (inner : list str) (s : selection X) (i : nat) : Prop :=
  match sel_best s with
  | None => items = [] /\ Permutation inner (sel_disposed s)
  | Some (x, sc, p) => nth_error items i = Some (p, x, sc) /\ Permutation (map i_path items ++ inner) (p :: sel_disposed s)
  end.

Definition worths (items : list item) (qs : list Q) : Prop :=
  Forall2 (fun it q => exists t, snd it = Some t /\ worth fields a t q) items qs.

Definition best_at (items : list item) (i : nat) : Prop :=
  forall qs, worths items qs -> items = [] \/ first_best qs i.

Lemma inv_start inner : inv [] inner (mkSel None inner) 0.
Proof. cbn. auto. Qed.

Lemma inv_inner items inner d s i : inv items inner s i -> inv items (inner ++ d) (mkSel (sel_best s) (sel_disposed s ++ d)) i.
Proof.
  unfold inv. cbn. destruct (sel_best s) as [[[x sc] p]|]; intros [H1 H2]; split; auto.
  - rewrite app_assoc. change (p :: sel_disposed s ++ d) with ((p :: sel_disposed s) ++ d). apply Permutation_app_tail; auto.
  - apply Permutation_app_tail; auto.
Qed.

Lemma worths_snoc items qs p x sc : worths (items ++ [(p, x, sc)]) qs ->
  exists qs' q t, qs = qs' ++ [q] /\ worths items qs' /\ sc = Some t /\ worth fields a t q.
Proof.
  intros H. unfold worths in *. apply Forall2_app_inv_l in H. destruct H as (q1 & q2 & H1 & H2 & ->).
  inversion H2 as [|? ? ? ? (t & E & W) H3]; subst. inversion H3; subst. eauto 8.
Qed.

Lemma consider_inv items inner s i p x sc s' : inv items inner s i -> best_at items i ->
  consider fields a p x sc s = Ok s' -> exists i', inv (items ++ [(p, x, sc)]) inner s' i' /\ best_at (items ++ [(p, x, sc)]) i'.
Proof.
  intros I B C. unfold consider in C. apply bind_ok_iff in C. destruct C as (b & HB & C).
  injection C as <-. unfold inv in I. unfold best_scores in HB.
  destruct (sel_best s) as [[[x1 sc1] p1]|] eqn:SB.
  - destruct I as [NE P].
    assert (L : (i < length items)%nat) by (apply nth_error_Some; congruence).
    exists (if b then length items else i). destruct b; cbn.
    + split.
      * unfold inv. cbn. split; [rewrite nth_error_app2, Nat.sub_diag by lia; reflexivity|].
        rewrite map_app. cbn [map i_path fst]. rewrite <- app_assoc.
        transitivity ((map i_path items ++ inner) ++ [p]); [rewrite <- !app_assoc; apply Permutation_app_head, Permutation_app_comm|].
        etransitivity; [apply Permutation_app_tail; exact P|]. cbn.
        rewrite (Permutation_app_comm (sel_disposed s) [p]). cbn. rewrite (Permutation_app_comm (sel_disposed s) [p1]). cbn. apply perm_swap.
      * intros qs W. right. destruct (worths_snoc _ _ _ _ _ W) as (qs' & q & t & -> & W' & -> & WT).
        destruct (B _ W') as [->|FB]; [destruct i; discriminate|].
        destruct (nth_error qs' i) as [q1|] eqn:E1.
        2:{ destruct FB as (? & E2 & _). congruence. }
        pose proof (Forall2_nth_r _ _ _ i q1 W' E1) as HN. destruct HN as (it & EI & t1 & E3 & W1).
        pose proof (eq_trans (eq_sym NE) EI) as EE. injection EE as <-. cbn in E3. subst sc1.
        rewrite (better_worth _ _ _ _ _ _ WT W1) in HB. injection HB as HB.
        pose proof (first_best_snoc qs' q i q1 E1 FB) as R. rewrite HB in R.
        replace (length items) with (length qs'); auto. symmetry. apply (Forall2_length' _ _ _ W').
    + split.
      * unfold inv. cbn. split; [rewrite nth_error_app1; auto|].
        rewrite map_app. cbn [map i_path fst].
        transitivity ((map i_path items ++ inner) ++ [p]); [rewrite <- !app_assoc; apply Permutation_app_head, Permutation_app_comm|].
        change (p1 :: sel_disposed s ++ [p]) with ((p1 :: sel_disposed s) ++ [p]). apply Permutation_app_tail; auto.
      * intros qs W. right. destruct (worths_snoc _ _ _ _ _ W) as (qs' & q & t & -> & W' & -> & WT).
        destruct (B _ W') as [->|FB]; [destruct i; discriminate|].
        destruct (nth_error qs' i) as [q1|] eqn:E1.
        2:{ destruct FB as (? & E2 & _). congruence. }
        pose proof (Forall2_nth_r _ _ _ i q1 W' E1) as HN. destruct HN as (it & EI & t1 & E3 & W1).
        pose proof (eq_trans (eq_sym NE) EI) as EE. injection EE as <-. cbn in E3. subst sc1.
        rewrite (better_worth _ _ _ _ _ _ WT W1) in HB. injection HB as HB.
        pose proof (first_best_snoc qs' q i q1 E1 FB) as R. rewrite HB in R. auto.
  - destruct I as [-> P]. cbn in HB. injection HB as <-. exists 0%nat. split.
    + unfold inv. cbn. split; auto. rewrite app_nil_r. auto.
    + intros qs W. right. destruct (worths_snoc [] _ _ _ _ W) as (qs' & q & t & -> & W' & _ & _). inversion W'; subst.
      apply first_best_nil_snoc.
Qed.

Lemma consider_worth items inner s i p x t q qs : inv items inner s i -> worths items qs -> worth fields a t q ->
  exists s', consider fields a p x (Some t) s = Ok s'.
Proof.
  intros I W WT. unfold consider, best_scores. unfold inv in I. destruct (sel_best s) as [[[x1 sc1] p1]|]; [|eexists; reflexivity].
  destruct I as [NE _]. pose proof (Forall2_nth _ _ _ i _ W NE) as (q1 & E1 & t1 & E2 & W1). cbn in E2. subst sc1.
  rewrite (better_worth _ _ _ _ _ _ WT W1). eexists. reflexivity.
Qed.
End Selection.
