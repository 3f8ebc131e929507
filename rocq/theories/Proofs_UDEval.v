(* Span scores and word alignment. *)
From Coq Require Import String ZArith NArith QArith Bool Sorted Lia List.
From Verif Require Import Base BaseFacts Model_Datamodel Model_Conllu Spec_Datamodel Spec_Conllu Model_UDEval Spec_UDEval.
Import ListNotations.
Open Scope Z_scope.

(* ---- subsequences ---- *)

Lemma subseq_refl {A} (l : list A) : subseq l l.
Proof. induction l; constructor; auto. Qed.

Lemma subseq_app {A} (a b c d : list A) : subseq a b -> subseq c d -> subseq (a ++ c) (b ++ d).
Proof.
  induction 1; intro H'; cbn.
  - induction l as [|x l IH]; cbn; auto. constructor; auto.
  - constructor; auto.
  - constructor; auto.
Qed.

Lemma subseq_cons_inv {A} (x : A) l l' : subseq (x :: l) l' -> subseq l l'.
Proof.
  intro H. remember (x :: l) as m eqn:E. revert x l E. induction H; intros y k E.
  - discriminate.
  - injection E as -> ->. now constructor.
  - constructor. eapply IHsubseq; eauto.
Qed.

Lemma subseq_In {A} (l l' : list A) x : subseq l l' -> In x l -> In x l'.
Proof.
  induction 1; intro I0.
  - destruct I0.
  - destruct I0 as [->|I0]; [left; auto|right; auto].
  - right; auto.
Qed.

Lemma subseq_map {A B} (f : A -> B) l l' : subseq l l' -> subseq (map f l) (map f l').
Proof. induction 1; cbn; constructor; auto. Qed.

Lemma subseq_length {A} (l l' : list A) : subseq l l' -> (length l <= length l')%nat.
Proof. induction 1; cbn; lia. Qed.

Lemma subseq_NoDup {A} (l l' : list A) : subseq l l' -> NoDup l' -> NoDup l.
Proof.
  induction 1; intro N.
  - constructor.
  - inversion N as [|? ? N1 N2]; subst. constructor; auto. intro I0. apply N1. eapply subseq_In; eauto.
  - inversion N; auto.
Qed.

Lemma subseq_trans {A} (b c : list A) : subseq b c -> forall a, subseq a b -> subseq a c.
Proof.
  induction 1; intros a H'.
  - inversion H'; subst; constructor.
  - inversion H'; subst; [constructor|constructor; auto|constructor; auto].
  - constructor; auto.
Qed.

Lemma subseq_nil_r {A} (l : list A) : subseq l [] -> l = [].
Proof. intro H. inversion H; auto. Qed.

Lemma subseq_filter {A} (f : A -> bool) l : subseq (filter f l) l.
Proof. induction l as [|x l IH]; cbn; [constructor|]. destruct (f x); constructor; auto. Qed.

(* ---- fractions ---- *)

Lemma Qzero_true q : Qzero q = true <-> (q == 0)%Q.
Proof. unfold Qzero. apply Qeq_bool_iff. Qed.

Lemma ratio_fraction a b : fraction a b (ratio a b).
Proof.
  unfold ratio, fraction. destruct (Qzero b) eqn:E.
  - apply Qzero_true in E. split; [reflexivity|contradiction].
  - assert (N : ~ (b == 0)%Q) by (rewrite <- Qzero_true; congruence).
    split; [contradiction|]. intros _. field; auto.
Qed.

Lemma fraction_unique a b q q' : fraction a b q -> fraction a b q' -> (q == q')%Q.
Proof.
  intros [H1 H2] [H3 H4]. destruct (Qeq_dec b 0) as [E|E].
  - rewrite H1, H3 by auto. reflexivity.
  - apply (Qmult_inj_r _ _ b); auto. rewrite H2, H4 by auto. reflexivity.
Qed.

Lemma fraction_proper a a' b b' q q' : (a == a')%Q -> (b == b')%Q -> (q == q')%Q -> fraction a b q -> fraction a' b' q'.
Proof.
  intros E1 E2 E3 [H1 H2]. split; intro H.
  - rewrite <- E3. apply H1. now rewrite E2.
  - rewrite <- E1, <- E2, <- E3. apply H2. now rewrite E2.
Qed.

Lemma qlen_count {A} (l : list A) : qlen l = count l.
Proof. reflexivity. Qed.

(* ---- span scores ---- *)

Lemma spans_correct_nil_r g : spans_correct g [] = 0.
Proof. destruct g; reflexivity. Qed.

Lemma spans_correct_cons a g b s :
  spans_correct (a :: g) (b :: s) =
  if sp_start b <? sp_start a then spans_correct (a :: g) s
  else if sp_start a <? sp_start b then spans_correct g (b :: s)
  else (if sp_end a =? sp_end b then 1 else 0) + spans_correct g s.
Proof. reflexivity. Qed.

Lemma span_ext (a b : span) : sp_start a = sp_start b -> sp_end a = sp_end b -> a = b.
Proof. destruct a, b; cbn; congruence. Qed.

Lemma increasing_cons a l : increasing_starts (a :: l) -> increasing_starts l /\ forall x, In x l -> sp_start a < sp_start x.
Proof. intro H. inversion H as [|? ? H1 H2]; subst. split; auto. now apply Forall_forall. Qed.

Lemma spans_correct_common g : increasing_starts g -> forall s, increasing_starts s ->
  exists xs, common_spans xs g s /\ spans_correct g s = zlen xs.
Proof.
  induction g as [|a g IHg]; intro Sg.
  - intros s _. exists []. split; [split; [constructor|]|destruct s; reflexivity].
    intro x; cbn; tauto.
  - destruct (increasing_cons _ _ Sg) as [Sg' La].
    induction s as [|b s IHs]; intro Ss.
    + exists []. split; [split; [constructor|]|reflexivity]. intro x; cbn; tauto.
    + destruct (increasing_cons _ _ Ss) as [Ss' Lb].
      rewrite spans_correct_cons.
      destruct (Z.ltb_spec (sp_start b) (sp_start a)) as [L|L].
      * destruct (IHs Ss') as (xs & [N C] & E). exists xs. split; auto. split; auto.
        intro x. rewrite C. split; [intros [H1 H2]; split; auto; right; auto|].
        intros [H1 [->|H2]]; split; auto. exfalso. destruct H1 as [->|H1]; [lia|]. specialize (La _ H1). lia.
      * destruct (Z.ltb_spec (sp_start a) (sp_start b)) as [L'|L'].
        -- destruct (IHg Sg' _ Ss) as (xs & [N C] & E). exists xs. split; auto. split; auto.
           intro x. rewrite C. split; [intros [H1 H2]; split; auto; right; auto|].
           intros [[->|H1] H2]; split; auto. exfalso. destruct H2 as [->|H2]; [lia|]. specialize (Lb _ H2). lia.
        -- assert (Es : sp_start a = sp_start b) by lia.
           destruct (IHg Sg' _ Ss') as (xs & [N C] & E).
           destruct (Z.eqb_spec (sp_end a) (sp_end b)) as [Ee|Ee].
           ++ assert (a = b) by (apply span_ext; auto). subst b.
              exists (a :: xs). split; [split|].
              ** constructor; auto. intro I0. apply C in I0 as [I0 _]. specialize (La _ I0). lia.
              ** intro x. cbn. rewrite C. split; [intros [->|[H1 H2]]; auto|].
                 intros [[H|H1] [H'|H2]]; auto; subst.
              ** rewrite E. unfold zlen. cbn [length]. lia.
           ++ exists xs. split; [split; auto|lia].
              intro x. rewrite C. split; [intros [H1 H2]; split; right; auto|].
              intros [[->|H1] [H'|H2]]; subst; auto; exfalso.
              ** congruence.
              ** specialize (Lb _ H2). lia.
              ** specialize (La _ H1). lia.
Qed.

Lemma spans_correct_sym g s : spans_correct g s = spans_correct s g.
Proof.
  revert s. induction g as [|a g IHg]; intro s.
  - now rewrite spans_correct_nil_r; destruct s.
  - induction s as [|b s IHs]; [reflexivity|]. rewrite !spans_correct_cons.
    destruct (Z.ltb_spec (sp_start b) (sp_start a)), (Z.ltb_spec (sp_start a) (sp_start b)); try lia; auto.
    rewrite IHg. now rewrite Z.eqb_sym.
Qed.

Lemma common_spans_length xs ys g s : common_spans xs g s -> common_spans ys g s -> length xs = length ys.
Proof.
  intros [N1 C1] [N2 C2]. apply Nat.le_antisymm; apply NoDup_incl_length; auto; intros x I0.
  - apply C2, C1, I0.
  - apply C1, C2, I0.
Qed.

Lemma spans_score_counts g s xs : increasing_starts g -> increasing_starts s -> common_spans xs g s ->
  fraction (count xs) (count s) (s_precision (spans_score g s)) /\
  fraction (count xs) (count g) (s_recall (spans_score g s)) /\
  fraction (2 * count xs) (count s + count g) (s_f1 (spans_score g s)) /\
  s_aligned (spans_score g s) = None.
Proof.
  intros Sg Ss C. destruct (spans_correct_common g Sg s Ss) as (ys & C' & E).
  assert (E' : inject_Z (spans_correct g s) = count xs).
  { unfold count. rewrite (common_spans_length xs ys g s C C'), E. reflexivity. }
  unfold spans_score, new_score. cbn [s_precision s_recall s_f1 s_aligned option_map].
  rewrite E'. repeat split; try apply ratio_fraction.
Qed.

Lemma spans_score_swap g s :
  s_precision (spans_score g s) = s_recall (spans_score s g) /\
  s_recall (spans_score g s) = s_precision (spans_score s g) /\
  (s_f1 (spans_score g s) == s_f1 (spans_score s g))%Q.
Proof.
  unfold spans_score, new_score. cbn [s_precision s_recall s_f1].
  rewrite (spans_correct_sym s g). split; [reflexivity|]. split; [reflexivity|].
  eapply fraction_unique; [|apply ratio_fraction].
  exact (fraction_proper _ _ _ _ _ _ (Qeq_refl _) (Qplus_comm _ _) (Qeq_refl _) (ratio_fraction _ _)).
Qed.
