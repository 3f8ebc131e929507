(* Scores in floating point: sums of weights, quotients, and evaluate. *)
From Coq Require Import String Ascii ZArith NArith QArith Qabs Lia Lqa Bool List Setoid Morphisms.
From Verif Require Import Base BaseFacts Model_Datamodel Model_Conllu Model_UDEval Model_Harness Model_Float Spec_UDEval Spec_Float
  Proofs_UDEval Proofs_UDEval2 Proofs_UDEval3 Proofs_UDEval4 Proofs_UDEval5 Proofs_UDEval6 Proofs_UDEval7 Proofs_UDEval8 Proofs_Float.
Import ListNotations.
Open Scope Q_scope.

(* ---- numbers: only ints, or only floats and the int 0 ---- *)

Definition kind (k : bool) (x : number) : Prop :=
  if k then exists z, x = Int z else x = Int 0 \/ exists q, x = Float q /\ double q.

Lemma as_float_value x : kind false x -> as_float x == value x /\ double (value x).
Proof.
  intros [-> | (q & -> & D)]; cbn [as_float value].
  - split; [reflexivity | apply double_0].
  - split; [reflexivity | exact D].
Qed.

Lemma num_true_spec x : num_true x = true <-> ~ value x == 0.
Proof.
  unfold num_true. rewrite negb_true_iff. split.
  - intros H E. apply Qeq_bool_iff in E. congruence.
  - intro H. destruct (Qeq_bool (value x) 0) eqn:E; [|reflexivity]. apply Qeq_bool_iff in E. contradiction.
Qed.

Lemma div_kind k a b : kind k a -> kind k b -> ~ value b == 0 -> value (num_div a b) == to_double (value a / value b).
Proof.
  intros Ka Kb N. destruct k.
  - destruct Ka as (x & ->). destruct Kb as (y & ->). reflexivity.
  - destruct (as_float_value a Ka) as [A _]. destruct (as_float_value b Kb) as [B _].
    destruct Kb as [-> | (q & -> & D)]; [exfalso; apply N; reflexivity|].
    destruct Ka as [-> | (p & -> & D')]; cbn [num_div value]; rewrite A, B; reflexivity.
Qed.

Lemma ratio_kind k a b : kind k a -> kind k b -> fl_ratio a b == to_double (ratio (value a) (value b)).
Proof.
  intros Ka Kb. unfold fl_ratio, ratio, Qzero. destruct (num_true b) eqn:T.
  - pose proof (proj1 (num_true_spec b) T) as N. rewrite (div_kind k a b Ka Kb N).
    unfold num_true in T. apply negb_true_iff in T. rewrite T. reflexivity.
  - unfold num_true in T. apply negb_false_iff in T. rewrite T. rewrite to_double_zero by reflexivity. reflexivity.
Qed.

Lemma add_kind k a b : kind k a -> kind k b ->
  kind k (num_add a b) /\
  value (num_add a b) == if k then value a + value b else to_double (value a + value b).
Proof.
  intros Ka Kb. destruct k.
  - destruct Ka as (x & ->). destruct Kb as (y & ->). cbn [num_add value]. split; [now exists (x + y)%Z|].
    now rewrite inject_Z_plus.
  - destruct (as_float_value a Ka) as [A _]. destruct (as_float_value b Kb) as [B _].
    destruct Ka as [-> | (p & -> & D')]; destruct Kb as [-> | (q & -> & D)]; cbn [num_add value].
    1: { split; [now left|]. rewrite to_double_zero; reflexivity. }
    all: split; [right; eexists; split; [reflexivity | apply double_to_double]|]; rewrite A, B; reflexivity.
Qed.

Lemma twice_kind k a : kind k a -> kind k (num_mul (Int 2) a) /\ value (num_mul (Int 2) a) == 2 * value a.
Proof.
  intro Ka. destruct k.
  - destruct Ka as (x & ->). cbn [num_mul value]. split; [now exists (2 * x)%Z|]. now rewrite inject_Z_mult.
  - destruct Ka as [-> | (q & -> & D)]; cbn [num_mul value].
    + split; [now left | reflexivity].
    + assert (E : to_double (as_float (Int 2) * as_float (Float q)) == 2 * q).
      { cbn [as_float]. rewrite (to_double_exact (inject_Z 2)) by (apply double_Z; lia).
        change (inject_Z 2) with 2. apply to_double_exact. now apply double_twice. }
      split; [|exact E]. right. eexists. split; [reflexivity | apply double_to_double].
Qed.

(* the sum of two numbers lies between twice the smaller and twice the greater one *)
Lemma add_between k a b : kind k a -> kind k b -> value a <= value b ->
  2 * value a <= value (num_add a b) /\ value (num_add a b) <= 2 * value b /\
  2 * value a <= value (num_add b a) /\ value (num_add b a) <= 2 * value b.
Proof.
  intros Ka Kb L. destruct (add_kind k a b Ka Kb) as [_ E1]. destruct (add_kind k b a Kb Ka) as [_ E2]. rewrite E1, E2.
  destruct k; [lra|].
  destruct (as_float_value a Ka) as [_ Da]. destruct (as_float_value b Kb) as [_ Db].
  repeat split; try (apply to_double_ge; [now apply double_twice | lra]); apply to_double_le; [now apply double_twice | lra | now apply double_twice | lra].
Qed.

(* ---- quotients ---- *)

Lemma ratio_comp a b c d : a == c -> b == d -> ratio a b == ratio c d.
Proof.
  intros E F. unfold ratio, Qzero. rewrite F. destruct (Qeq_bool d 0); [reflexivity|]. now rewrite E, F.
Qed.

Lemma ratio_cases a b : 0 <= b -> (b == 0 /\ ratio a b == 0) \/ (0 < b /\ ratio a b == a / b).
Proof.
  intro H. unfold ratio, Qzero. destruct (Qeq_bool b 0) eqn:E.
  - left. apply Qeq_bool_iff in E. split; [exact E | reflexivity].
  - right. split; [|reflexivity]. assert (~ b == 0) by (intro X; apply Qeq_bool_iff in X; congruence). lra.
Qed.

Lemma ratio_unit a b : 0 <= a -> a <= b -> 0 <= ratio a b <= 1.
Proof.
  intros H L. destruct (ratio_cases a b ltac:(lra)) as [[Z0 ->] | [P ->]]; [lra|]. split.
  - apply Qle_shift_div_l; lra.
  - apply Qle_shift_div_r; lra.
Qed.

Lemma double_1 : double 1.
Proof. exact (double_Z 1 ltac:(lia)). Qed.

Lemma to_double_unit q : 0 <= q <= 1 -> 0 <= to_double q <= 1.
Proof. intros [A B]. split; [apply to_double_ge; [apply double_0 | exact A] | apply to_double_le; [apply double_1 | exact B]]. Qed.

(* a larger total gives a smaller quotient *)
Lemma ratio_anti c a b : 0 <= c -> c <= a -> a <= b -> ratio c b <= ratio c a.
Proof.
  intros H L M. destruct (ratio_cases c b ltac:(lra)) as [[Zb ->] | [Pb ->]]; [apply ratio_unit; lra|].
  destruct (ratio_cases c a ltac:(lra)) as [[Za ->] | [Pa ->]].
  - apply Qle_shift_div_r; lra.
  - apply Qle_shift_div_r; [exact Pb|]. assert (X : c / a * b == c * (b / a)) by (field; lra). rewrite X.
    assert (1 <= b / a) by (apply Qle_shift_div_l; lra). nra.
Qed.

Lemma ratio_twice c a : ratio (2 * c) (2 * a) == ratio c a.
Proof.
  unfold ratio, Qzero. destruct (Qeq_bool a 0) eqn:E.
  - apply Qeq_bool_iff in E. replace (Qeq_bool (2 * a) 0) with true; [reflexivity|].
    symmetry. apply Qeq_bool_iff. rewrite E. reflexivity.
  - assert (N : ~ a == 0) by (intro X; apply Qeq_bool_iff in X; congruence).
    replace (Qeq_bool (2 * a) 0) with false; [field; exact N|].
    symmetry. apply not_true_iff_false. intro X. apply Qeq_bool_iff in X. lra.
Qed.

(* a score of totals of one kind is well formed *)
Lemma new_score_unit k g s c a :
  kind k g -> kind k s -> kind k c -> (forall x, a = Some x -> kind k x /\ value c <= value x) ->
  0 <= value c -> value c <= value g -> value c <= value s ->
  let sc := fl_new_score g s c a in
  unit_interval (s_precision sc) /\ unit_interval (s_recall sc) /\ unit_interval (s_f1 sc) /\
  (forall q, s_aligned sc = Some q -> unit_interval q) /\ lies_between (s_precision sc) (s_recall sc) (s_f1 sc).
Proof.
  intros Kg Ks Kc Ka C Lg Ls sc. destruct (twice_kind k c Kc) as [K2 E2]. destruct (add_kind k s g Ks Kg) as [Kt _].
  assert (P : s_precision sc == to_double (ratio (value c) (value s))) by (apply (ratio_kind k); assumption).
  assert (R : s_recall sc == to_double (ratio (value c) (value g))) by (apply (ratio_kind k); assumption).
  assert (F : s_f1 sc == to_double (ratio (2 * value c) (value (num_add s g)))).
  { cbn [s_f1 sc fl_new_score]. rewrite (ratio_kind k) by assumption. apply to_double_Proper. now apply ratio_comp. }
  assert (U1 : unit_interval (s_precision sc)) by (unfold unit_interval; rewrite P; apply to_double_unit, ratio_unit; assumption).
  assert (U2 : unit_interval (s_recall sc)) by (unfold unit_interval; rewrite R; apply to_double_unit, ratio_unit; assumption).
  assert (B : lies_between (s_precision sc) (s_recall sc) (s_f1 sc)).
  { unfold lies_between. rewrite P, R, F. destruct (Qlt_le_dec (value s) (value g)) as [L | L].
    - right. destruct (add_between k s g Ks Kg ltac:(lra)) as (B1 & B2 & _). split; apply to_double_mono.
      + rewrite <- (ratio_twice _ (value g)). apply ratio_anti; lra.
      + rewrite <- (ratio_twice _ (value s)). apply ratio_anti; lra.
    - left. destruct (add_between k g s Kg Ks ltac:(lra)) as (_ & _ & B1 & B2). split; apply to_double_mono.
      + rewrite <- (ratio_twice _ (value s)). apply ratio_anti; lra.
      + rewrite <- (ratio_twice _ (value g)). apply ratio_anti; lra. }
  repeat split; try (apply U1); try (apply U2).
  - unfold unit_interval, lies_between in *. lra.
  - unfold unit_interval, lies_between in *. lra.
  - cbn [s_aligned sc fl_new_score] in H. destruct a as [x|]; [|discriminate]. injection H as <-. destruct (Ka x eq_refl) as [Kx Lx].
    destruct (num_true x) eqn:T.
    + rewrite (div_kind k c x Kc Kx) by (now apply num_true_spec). apply num_true_spec in T.
      apply to_double_unit. split; [apply Qle_shift_div_l | apply Qle_shift_div_r]; lra.
    + assert (X : value x == 0) by (unfold num_true in T; apply negb_false_iff, Qeq_bool_iff in T; exact T). lra.
  - cbn [s_aligned sc fl_new_score] in H. destruct a as [x|]; [|discriminate]. injection H as <-. destruct (Ka x eq_refl) as [Kx Lx].
    destruct (num_true x) eqn:T.
    + rewrite (div_kind k c x Kc Kx) by (now apply num_true_spec). apply num_true_spec in T.
      apply to_double_unit. split; [apply Qle_shift_div_l | apply Qle_shift_div_r]; lra.
    + assert (X : value x == 0) by (unfold num_true in T; apply negb_false_iff, Qeq_bool_iff in T; exact T). lra.
  - exact B.
Qed.

(* ---- sums ---- *)

(* in floats *)
Definition fsum_from {A} (f : A -> Q) (t : Q) (l : list A) : Q := fold_left (fun t x => to_double (t + f x)) l t.
Definition fsum {A} (f : A -> Q) (l : list A) : Q := fsum_from f 0 l.

Lemma num_sum_ints {A} (l : list A) : num_sum (fun _ => Int 1) l = Int (zlen l).
Proof.
  unfold num_sum. assert (G : forall z, fold_left (fun t (x : A) => num_add t (Int 1)) l (Int z) = Int (z + zlen l)).
  { induction l as [|x l IH]; intro z; cbn [fold_left num_add].
    - unfold zlen. cbn. now rewrite Z.add_0_r.
    - rewrite IH. unfold zlen. cbn [length]. f_equal. lia. }
  rewrite G. reflexivity.
Qed.

Lemma num_sum_floats {A} (f : A -> Q) l :
  num_sum (fun x => Float (f x)) l = match l with [] => Int 0 | _ => Float (fsum f l) end.
Proof.
  unfold num_sum, fsum, fsum_from. destruct l as [|x l]; [reflexivity|]. cbn [fold_left num_add as_float].
  change (to_double (inject_Z 0)) with 0. generalize (to_double (0 + f x)). induction l as [|y l IH]; intro t; [reflexivity|].
  cbn [fold_left num_add as_float]. apply IH.
Qed.

Lemma fsum_from_double {A} (f : A -> Q) l t : double t -> double (fsum_from f t l).
Proof.
  revert t. induction l as [|x l IH]; intros t D; [exact D|]. cbn [fsum_from fold_left]. apply IH. apply double_to_double.
Qed.
Lemma fsum_double {A} (f : A -> Q) l : double (fsum f l).
Proof. apply fsum_from_double, double_0. Qed.

Lemma num_sum_kind {A} (f : A -> Q) l :
  kind false (num_sum (fun x => Float (f x)) l) /\ value (num_sum (fun x => Float (f x)) l) == fsum f l.
Proof.
  rewrite num_sum_floats. destruct l as [|x l]; [split; [now left | reflexivity]|]. cbn [value]. split; [|reflexivity].
  right. eexists. split; [reflexivity | apply fsum_double].
Qed.

Lemma fsum_from_grows {A} (f : A -> Q) l : (forall x, In x l -> 0 <= f x) -> forall t, double t -> t <= fsum_from f t l.
Proof.
  induction l as [|x l IH]; intros P t D; [cbn; lra|]. cbn [fsum_from fold_left].
  assert (A1 : t <= to_double (t + f x)) by (apply to_double_ge; [exact D|]; specialize (P x (or_introl eq_refl)); lra).
  assert (A2 : to_double (t + f x) <= fsum_from f (to_double (t + f x)) l)
    by (apply IH; [intros y Iy; apply P; now right | apply double_to_double]).
  unfold fsum_from in A2. lra.
Qed.

Lemma fsum_from_subseq {A} (f : A -> Q) l l' : subseq l l' -> (forall x, In x l' -> 0 <= f x) ->
  forall t t', double t -> double t' -> t <= t' -> fsum_from f t l <= fsum_from f t' l'.
Proof.
  induction 1 as [l'|x l l' S0 IH|x l l' S0 IH]; intros P t t' D D' L.
  - pose proof (fsum_from_grows f l' P t' D') as G. cbn [fsum_from fold_left]. lra.
  - cbn [fsum_from fold_left]. apply IH; [intros y Iy; apply P; now right | apply double_to_double | apply double_to_double |].
    apply to_double_mono. lra.
  - cbn [fsum_from fold_left]. apply IH; [intros y Iy; apply P; now right | exact D | apply double_to_double |].
    apply to_double_ge; [exact D|]. specialize (P x (or_introl eq_refl)). lra.
Qed.

Lemma fsum_subseq {A} (f : A -> Q) l l' : subseq l l' -> (forall x, In x l' -> 0 <= f x) -> fsum f l <= fsum f l'.
Proof. intros S0 P. apply fsum_from_subseq; auto using double_0. lra. Qed.

Lemma fsum_nonneg {A} (f : A -> Q) l : (forall x, In x l -> 0 <= f x) -> 0 <= fsum f l.
Proof. intro P. apply fsum_from_grows; auto using double_0. Qed.

Lemma fsum_from_map {A B} (f : B -> Q) (g : A -> B) l t : fsum_from f t (map g l) = fsum_from (fun x => f (g x)) t l.
Proof. revert t. induction l as [|x l IH]; intro t; [reflexivity|]. cbn [map fsum_from fold_left]. apply IH. Qed.
Lemma fsum_map {A B} (f : B -> Q) (g : A -> B) l : fsum f (map g l) = fsum (fun x => f (g x)) l.
Proof. apply fsum_from_map. Qed.

Lemma fsum_ext {A} (f g : A -> Q) l : (forall x, In x l -> f x = g x) -> fsum f l = fsum g l.
Proof.
  unfold fsum. generalize 0. induction l as [|x l IH]; intros t E; [reflexivity|]. cbn [fsum_from fold_left].
  rewrite (E x (or_introl eq_refl)). apply IH. intros y Iy. apply E. now right.
Qed.
