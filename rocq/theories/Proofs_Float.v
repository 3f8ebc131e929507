(* Rounding to doubles: to the nearest one, monotone, exact on doubles, with small relative error. *)
From Coq Require Import ZArith QArith Qabs Qround Qpower Lia Lqa Bool List Setoid Morphisms.
From Verif Require Import Base Model_UDEval Model_Float Spec_Float.
Import ListNotations.
Open Scope Q_scope.

(* ---- powers of two ---- *)

Lemma two_nz : ~ 2 == 0. Proof. discriminate. Qed.

Lemma pow2_pos e : 0 < pow2 e.
Proof. unfold pow2. apply Qpower_0_lt. reflexivity. Qed.

Lemma pow2_nz e : ~ pow2 e == 0.
Proof. pose proof (pow2_pos e). lra. Qed.

Lemma pow2_plus a b : pow2 (a + b) == pow2 a * pow2 b.
Proof. unfold pow2. apply Qpower_plus. exact two_nz. Qed.

Lemma pow2_succ a : pow2 (a + 1) == 2 * pow2 a.
Proof. rewrite pow2_plus. change (pow2 1) with (2 # 1). ring. Qed.

Lemma pow2_Z e : (0 <= e)%Z -> pow2 e == inject_Z (2 ^ e).
Proof. intro H. unfold pow2. rewrite Zpower_Qpower; [reflexivity | exact H]. Qed.

Lemma pow2_ge_1 e : (0 <= e)%Z -> 1 <= pow2 e.
Proof.
  intro H. rewrite pow2_Z by exact H. change 1 with (inject_Z 1). rewrite <- Zle_Qle.
  pose proof (Z.pow_pos_nonneg 2 e ltac:(lia) H). lia.
Qed.

Lemma pow2_mono a b : (a <= b)%Z -> pow2 a <= pow2 b.
Proof.
  intro H. replace b with (a + (b - a))%Z by lia. rewrite pow2_plus.
  pose proof (pow2_ge_1 (b - a) ltac:(lia)). pose proof (pow2_pos a). nra.
Qed.

Lemma pow2_lt_inv a b : pow2 a < pow2 b -> (a < b)%Z.
Proof.
  intro H. destruct (Z_lt_le_dec a b) as [L | L]; [exact L|]. pose proof (pow2_mono b a L). lra.
Qed.

(* ---- the exponent ---- *)

Lemma Q_num_den q : q == inject_Z (Qnum q) / inject_Z (Zpos (Qden q)).
Proof. destruct q as [n d]. unfold Qeq, Qdiv, Qmult, Qinv, inject_Z; cbn. lia. Qed.

Lemma exponent_spec q : 0 < q -> pow2 (exponent q) <= q /\ q < pow2 (exponent q + 1).
Proof.
  intro P. unfold exponent. destruct q as [n d]. cbn [Qnum Qden].
  assert (N : (0 < n)%Z) by (unfold Qlt in P; cbn in P; lia).
  set (a := Z.log2 n). set (b := Z.log2 (Zpos d)).
  pose proof (Z.log2_spec n N) as [N1 N2]. pose proof (Z.log2_spec (Zpos d) ltac:(lia)) as [D1 D2].
  fold a in N1, N2. fold b in D1, D2.
  assert (A0 : (0 <= a)%Z) by apply Z.log2_nonneg. assert (B0 : (0 <= b)%Z) by apply Z.log2_nonneg.
  assert (E : n # d == inject_Z n / inject_Z (Zpos d)) by exact (Q_num_den (n # d)).
  assert (Dp : 0 < inject_Z (Zpos d)) by reflexivity.
  assert (N1' : pow2 a <= inject_Z n) by (rewrite pow2_Z by lia; rewrite <- Zle_Qle; exact N1).
  assert (N2' : inject_Z n < pow2 (a + 1)) by (rewrite pow2_Z by lia; rewrite <- Zlt_Qlt; exact N2).
  assert (D1' : pow2 b <= inject_Z (Zpos d)) by (rewrite pow2_Z by lia; rewrite <- Zle_Qle; exact D1).
  assert (D2' : inject_Z (Zpos d) < pow2 (b + 1)) by (rewrite pow2_Z by lia; rewrite <- Zlt_Qlt; exact D2).
  assert (Up : n # d < pow2 (a - b + 1)).
  { rewrite E. apply Qlt_shift_div_r; [exact Dp|].
    assert (pow2 (a + 1) == pow2 (a - b + 1) * pow2 b) as X by (rewrite <- pow2_plus; replace (a - b + 1 + b)%Z with (a + 1)%Z by lia; reflexivity).
    pose proof (pow2_pos (a - b + 1)). nra. }
  assert (Lo : pow2 (a - b - 1) <= n # d).
  { rewrite E. apply Qle_shift_div_l; [exact Dp|].
    assert (pow2 a == pow2 (a - b - 1) * pow2 (b + 1)) as X by (rewrite <- pow2_plus; replace (a - b - 1 + (b + 1))%Z with a by lia; reflexivity).
    pose proof (pow2_pos (a - b - 1)). nra. }
  destruct (Qle_bool (pow2 (a - b)) (n # d)) eqn:C.
  - apply Qle_bool_iff in C. split; assumption.
  - split; [exact Lo|]. replace (a - b - 1 + 1)%Z with (a - b)%Z by lia.
    apply Qnot_le_lt. intro H. apply Qle_bool_iff in H. congruence.
Qed.

Lemma exponent_unique q e : pow2 e <= q -> q < pow2 (e + 1) -> exponent q = e.
Proof.
  intros H1 H2. pose proof (pow2_pos e) as P. destruct (exponent_spec q ltac:(lra)) as [E1 E2].
  assert (A : pow2 e < pow2 (exponent q + 1)) by lra. assert (B : pow2 (exponent q) < pow2 (e + 1)) by lra.
  apply pow2_lt_inv in A. apply pow2_lt_inv in B. lia.
Qed.

Lemma exponent_mono x y : 0 < x -> x <= y -> (exponent x <= exponent y)%Z.
Proof.
  intros P L. destruct (exponent_spec x P) as [X1 X2]. destruct (exponent_spec y ltac:(lra)) as [Y1 Y2].
  assert (A : pow2 (exponent x) < pow2 (exponent y + 1)) by lra. apply pow2_lt_inv in A. lia.
Qed.

(* ---- the nearest integer ---- *)

Lemma Qfloor_unique q k : inject_Z k <= q -> q < inject_Z (k + 1) -> Qfloor q = k.
Proof.
  intros H1 H2. pose proof (Qfloor_le q) as F1. pose proof (Qlt_floor q) as F2.
  assert (A : inject_Z (Qfloor q) < inject_Z (k + 1)) by lra. assert (B : inject_Z k < inject_Z (Qfloor q + 1)) by lra.
  rewrite <- Zlt_Qlt in A, B. lia.
Qed.

Lemma nearest_int_comp q r : q == r -> nearest_int q = nearest_int r.
Proof. intro H. unfold nearest_int. rewrite (Qfloor_comp _ _ H). now rewrite H. Qed.

Lemma nearest_int_Z k : nearest_int (inject_Z k) = k.
Proof.
  unfold nearest_int. rewrite Qfloor_Z. replace (inject_Z k - inject_Z k ?= 1 # 2) with Lt; [reflexivity|].
  symmetry. apply (proj1 (Qlt_alt _ _)). generalize (inject_Z k). intro x. lra.
Qed.

Lemma inject_Z_1 k : inject_Z (k + 1) == inject_Z k + 1.
Proof. rewrite inject_Z_plus. reflexivity. Qed.

Lemma nearest_int_err q : Qabs (q - inject_Z (nearest_int q)) <= 1 # 2.
Proof.
  pose proof (Qfloor_le q) as F1. pose proof (Qlt_floor q) as F2. rewrite inject_Z_1 in F2.
  unfold nearest_int. apply Qabs_Qle_condition.
  destruct (Qcompare_spec (q - inject_Z (Qfloor q)) (1 # 2)) as [C | C | C]; [destruct (Z.even _)| |]; rewrite ?inject_Z_1; lra.
Qed.

Lemma nearest_int_mono x y : x <= y -> (nearest_int x <= nearest_int y)%Z.
Proof.
  intro L. pose proof (Qfloor_resp_le x y L) as F.
  destruct (Z.eq_dec (Qfloor x) (Qfloor y)) as [E | E].
  - unfold nearest_int. rewrite E.
    destruct (Qcompare_spec (x - inject_Z (Qfloor y)) (1 # 2)) as [C | C | C];
    destruct (Qcompare_spec (y - inject_Z (Qfloor y)) (1 # 2)) as [D | D | D];
      try (exfalso; lra); destruct (Z.even (Qfloor y)); lia.
  - assert (A : (nearest_int x <= Qfloor x + 1)%Z) by (unfold nearest_int; destruct (_ ?= _); try destruct (Z.even _); lia).
    assert (B : (Qfloor y <= nearest_int y)%Z) by (unfold nearest_int; destruct (_ ?= _); try destruct (Z.even _); lia).
    lia.
Qed.

(* no integer is nearer *)
Lemma nearest_int_best q k : Qabs (q - inject_Z (nearest_int q)) <= Qabs (q - inject_Z k).
Proof.
  destruct (Z.eq_dec k (nearest_int q)) as [-> | N]; [lra|].
  pose proof (nearest_int_err q) as E. apply Qabs_Qle_condition in E.
  assert (1 # 2 <= Qabs (q - inject_Z k)); [|pose proof (nearest_int_err q); lra].
  destruct (Z_lt_le_dec k (nearest_int q)) as [L | L].
  - assert (X : (k + 1 <= nearest_int q)%Z) by lia. rewrite Zle_Qle, inject_Z_1 in X.
    pose proof (Qle_Qabs (q - inject_Z k)). lra.
  - assert (X : (nearest_int q + 1 <= k)%Z) by lia. rewrite Zle_Qle, inject_Z_1 in X.
    pose proof (Qle_Qabs (- (q - inject_Z k))) as Y. rewrite Qabs_opp in Y. lra.
Qed.

(* ---- rounding of positive numbers ---- *)

Definition unit_of (q : Q) : Q := pow2 (exponent q - 52).

Lemma unit_pos q : 0 < unit_of q.
Proof. apply pow2_pos. Qed.

Lemma pow2_52 : pow2 52 == inject_Z 4503599627370496.
Proof. reflexivity. Qed.
Lemma pow2_53 : pow2 53 == inject_Z 9007199254740992.
Proof. reflexivity. Qed.

Lemma round_pos_eq q : round_pos q == inject_Z (nearest_int (q / unit_of q)) * unit_of q.
Proof. unfold round_pos. fold (unit_of q). apply Qred_correct. Qed.

(* a multiple of the unit is its own quotient *)
Lemma div_unit q u : ~ u == 0 -> q == (q / u) * u.
Proof. intro H. field. exact H. Qed.

Lemma unit_bounds q : 0 < q -> inject_Z 4503599627370496 <= q / unit_of q /\ q / unit_of q < inject_Z 9007199254740992.
Proof.
  intro P. destruct (exponent_spec q P) as [E1 E2]. pose proof (unit_pos q) as U. split.
  - apply Qle_shift_div_l; [exact U|]. rewrite <- pow2_52. unfold unit_of. rewrite <- pow2_plus.
    replace (52 + (exponent q - 52))%Z with (exponent q) by lia. exact E1.
  - apply Qlt_shift_div_r; [exact U|]. rewrite <- pow2_53. unfold unit_of. rewrite <- pow2_plus.
    replace (53 + (exponent q - 52))%Z with (exponent q + 1)%Z by lia. exact E2.
Qed.

Lemma nearest_bounds q : 0 < q ->
  (4503599627370496 <= nearest_int (q / unit_of q) <= 9007199254740992)%Z.
Proof.
  intro P. destruct (unit_bounds q P) as [B1 B2]. split.
  - rewrite <- (nearest_int_Z 4503599627370496). apply nearest_int_mono. exact B1.
  - rewrite <- (nearest_int_Z 9007199254740992). apply nearest_int_mono. lra.
Qed.

Lemma round_pos_ge q : 0 < q -> pow2 (exponent q) <= round_pos q.
Proof.
  intro P. rewrite round_pos_eq. destruct (nearest_bounds q P) as [B _]. rewrite Zle_Qle in B.
  assert (X : pow2 (exponent q) == inject_Z 4503599627370496 * unit_of q).
  { rewrite <- pow2_52. unfold unit_of. rewrite <- pow2_plus. replace (52 + (exponent q - 52))%Z with (exponent q) by lia. reflexivity. }
  rewrite X. apply Qmult_le_compat_r; [exact B|]. pose proof (unit_pos q). lra.
Qed.

Lemma round_pos_le q : 0 < q -> round_pos q <= pow2 (exponent q + 1).
Proof.
  intro P. rewrite round_pos_eq. destruct (nearest_bounds q P) as [_ B]. rewrite Zle_Qle in B.
  assert (X : pow2 (exponent q + 1) == inject_Z 9007199254740992 * unit_of q).
  { rewrite <- pow2_53. unfold unit_of. rewrite <- pow2_plus. replace (53 + (exponent q - 52))%Z with (exponent q + 1)%Z by lia. reflexivity. }
  rewrite X. apply Qmult_le_compat_r; [exact B|]. pose proof (unit_pos q). lra.
Qed.

Lemma round_pos_pos q : 0 < q -> 0 < round_pos q.
Proof. intro P. pose proof (round_pos_ge q P). pose proof (pow2_pos (exponent q)). lra. Qed.

Lemma round_pos_mono x y : 0 < x -> x <= y -> round_pos x <= round_pos y.
Proof.
  intros P L. pose proof (exponent_mono x y P L) as E.
  destruct (Z.eq_dec (exponent x) (exponent y)) as [Q | Q].
  - rewrite !round_pos_eq. unfold unit_of. rewrite Q. apply Qmult_le_compat_r; [|pose proof (pow2_pos (exponent y - 52)); lra].
    rewrite <- Zle_Qle. apply nearest_int_mono. unfold Qdiv. apply Qmult_le_compat_r; [exact L|].
    apply Qinv_le_0_compat. pose proof (pow2_pos (exponent y - 52)). lra.
  - pose proof (round_pos_le x P). pose proof (round_pos_ge y ltac:(lra)). pose proof (pow2_mono (exponent x + 1) (exponent y) ltac:(lia)). lra.
Qed.

Lemma exponent_comp x y : 0 < x -> x == y -> exponent x = exponent y.
Proof. intros P E. destruct (exponent_spec x P) as [A B]. symmetry. apply exponent_unique; lra. Qed.

Lemma round_pos_comp x y : 0 < x -> x == y -> round_pos x = round_pos y.
Proof.
  intros P E. unfold round_pos. rewrite (exponent_comp x y P E). apply Qred_complete.
  rewrite (nearest_int_comp (x / pow2 (exponent y - 52)) (y / pow2 (exponent y - 52))); [reflexivity|]. now rewrite E.
Qed.

(* doubles between two powers of two are multiples of the unit *)
Lemma double_multiple d L : double d -> pow2 L <= d -> exists k, d == inject_Z k * pow2 (L - 52).
Proof.
  intros (m & e & M & E) G. fold (pow2 e) in E.
  destruct (Z_le_gt_dec (L - 52) e) as [H | H].
  - exists (m * 2 ^ (e - (L - 52)))%Z. rewrite inject_Z_mult, <- pow2_Z by lia. rewrite E.
    replace e with ((e - (L - 52)) + (L - 52))%Z at 1 by lia. rewrite pow2_plus. ring.
  - assert (X : pow2 L == pow2 (L - e) * pow2 e) by (rewrite <- pow2_plus; replace (L - e + e)%Z with L by lia; reflexivity).
    assert (Y : pow2 (L - e) <= inject_Z m) by (pose proof (pow2_pos e); nra).
    assert (Z1 : pow2 53 <= pow2 (L - e)) by (apply pow2_mono; lia).
    assert (m = 9007199254740992)%Z as ->.
    { assert (W : inject_Z 9007199254740992 <= inject_Z m) by (rewrite <- pow2_53; lra). rewrite <- Zle_Qle in W. lia. }
    rewrite <- pow2_53 in Y. assert (L - e <= 53)%Z.
    { destruct (Z_le_gt_dec (L - e) 53) as [C | C]; [exact C|]. pose proof (pow2_mono 54 (L - e) ltac:(lia)) as W.
      assert (pow2 54 == 2 * pow2 53) as V by reflexivity. pose proof (pow2_pos 53). lra. }
    assert (e = L - 53)%Z as -> by lia. exists 4503599627370496%Z. rewrite E, <- pow2_53, <- pow2_52, <- !pow2_plus.
    replace (53 + (L - 53))%Z with (52 + (L - 52))%Z by lia. reflexivity.
Qed.

Lemma double_round_pos q : 0 < q -> double (round_pos q).
Proof.
  intro P. exists (nearest_int (q / unit_of q)), (exponent q - 52)%Z. split; [pose proof (nearest_bounds q P); lia|].
  rewrite round_pos_eq. reflexivity.
Qed.

Lemma round_pos_best q k : 0 < q -> Qabs (q - round_pos q) <= Qabs (q - inject_Z k * unit_of q).
Proof.
  intro P. pose proof (unit_pos q) as U. rewrite round_pos_eq.
  assert (A : forall j, Qabs (q - inject_Z j * unit_of q) == Qabs (q / unit_of q - inject_Z j) * unit_of q).
  { intro j. rewrite <- (Qabs_pos (unit_of q)) at 3 by lra. rewrite <- Qabs_Qmult.
    apply Qabs_wd. field. lra. }
  rewrite !A. apply Qmult_le_compat_r; [apply nearest_int_best | lra].
Qed.

Lemma round_pos_nearest q : 0 < q -> nearest_double q (round_pos q).
Proof.
  intro P. split; [now apply double_round_pos|]. intros d D. destruct (exponent_spec q P) as [E1 E2].
  destruct (Qlt_le_dec d (pow2 (exponent q))) as [L | L].
  - (* then the power of two is nearer *)
    pose proof (round_pos_best q 4503599627370496 P) as B.
    assert (X : inject_Z 4503599627370496 * unit_of q == pow2 (exponent q)).
    { rewrite <- pow2_52. unfold unit_of. rewrite <- pow2_plus. replace (52 + (exponent q - 52))%Z with (exponent q) by lia. reflexivity. }
    rewrite X in B. rewrite (Qabs_pos (q - pow2 (exponent q))) in B by lra. rewrite (Qabs_pos (q - d)) by lra. lra.
  - destruct (double_multiple d (exponent q) D L) as (k & K). rewrite K. apply (round_pos_best q k P).
Qed.

Lemma round_pos_exact q : 0 < q -> double q -> round_pos q == q.
Proof.
  intros P D. destruct (round_pos_nearest q P) as [_ N]. specialize (N q D).
  assert (Z0 : Qabs (q - q) == 0) by (transitivity (Qabs 0); [apply Qabs_wd; ring | reflexivity]).
  rewrite Z0 in N. apply Qabs_Qle_condition in N. lra.
Qed.

Lemma round_pos_err q : 0 < q -> Qabs (round_pos q - q) <= pow2 (-53) * q.
Proof.
  intro P. destruct (exponent_spec q P) as [E1 _]. pose proof (unit_pos q) as U.
  assert (A : Qabs (round_pos q - q) <= (1 # 2) * unit_of q).
  { rewrite round_pos_eq. pose proof (nearest_int_err (q / unit_of q)) as N.
    assert (X : Qabs (inject_Z (nearest_int (q / unit_of q)) * unit_of q - q)
                == Qabs (q / unit_of q - inject_Z (nearest_int (q / unit_of q))) * unit_of q).
    { generalize (nearest_int (q / unit_of q)). intro k. revert U. generalize (unit_of q). intros u U.
      transitivity (Qabs (q / u - inject_Z k) * Qabs u); [|rewrite (Qabs_pos u) by lra; reflexivity].
      rewrite <- Qabs_Qmult, <- Qabs_opp. apply Qabs_wd. field. lra. }
    rewrite X. apply Qmult_le_compat_r; [exact N | lra]. }
  assert (B : (1 # 2) * unit_of q == pow2 (-53) * pow2 (exponent q)).
  { unfold unit_of. rewrite <- pow2_plus. replace (exponent q - 52)%Z with ((-53 + exponent q) + 1)%Z by lia. rewrite pow2_succ. ring. }
  pose proof (pow2_pos (-53)). nra.
Qed.

(* ---- rounding ---- *)

Lemma to_double_pos q : 0 < q -> to_double q = round_pos q.
Proof. intro P. unfold to_double. destruct (Qcompare_spec q 0) as [C | C | C]; try reflexivity; exfalso; lra. Qed.

Lemma to_double_zero q : q == 0 -> to_double q = 0.
Proof. intro P. unfold to_double. destruct (Qcompare_spec q 0) as [C | C | C]; try reflexivity; exfalso; lra. Qed.

Lemma to_double_neg q : q < 0 -> to_double q = - round_pos (- q).
Proof. intro P. unfold to_double. destruct (Qcompare_spec q 0) as [C | C | C]; try reflexivity; exfalso; lra. Qed.

Lemma to_double_comp x y : x == y -> to_double x = to_double y.
Proof.
  intro E. destruct (Q_dec x 0) as [[L | G] | Z0].
  - rewrite !to_double_neg by lra. f_equal. apply round_pos_comp; lra.
  - rewrite !to_double_pos by lra. apply round_pos_comp; lra.
  - rewrite !to_double_zero by lra. reflexivity.
Qed.

#[global] Instance to_double_Proper : Proper (Qeq ==> Qeq) to_double.
Proof. intros x y E. now rewrite (to_double_comp x y E). Qed.

Lemma to_double_opp q : to_double (- q) == - to_double q.
Proof.
  destruct (Q_dec q 0) as [[L | G] | Z0].
  - rewrite (to_double_neg q L), to_double_pos by lra. ring.
  - rewrite (to_double_pos q G), to_double_neg by lra. rewrite (round_pos_comp (- - q) q) by lra. ring.
  - rewrite !to_double_zero by lra. reflexivity.
Qed.

Lemma to_double_mono x y : x <= y -> to_double x <= to_double y.
Proof.
  intro L. destruct (Q_dec x 0) as [[A | A] | A]; destruct (Q_dec y 0) as [[B | B] | B]; try (exfalso; lra).
  - rewrite !to_double_neg by assumption. apply Qopp_le_compat. apply round_pos_mono; lra.
  - rewrite (to_double_neg x A), (to_double_pos y B). pose proof (round_pos_pos (- x) ltac:(lra)). pose proof (round_pos_pos y B). lra.
  - rewrite (to_double_neg x A), (to_double_zero y B). pose proof (round_pos_pos (- x) ltac:(lra)). lra.
  - rewrite !to_double_pos by assumption. now apply round_pos_mono.
  - rewrite (to_double_zero x A), (to_double_pos y B). pose proof (round_pos_pos y B). lra.
  - rewrite (to_double_zero x A), (to_double_zero y B). lra.
Qed.

Lemma double_comp x y : x == y -> double x -> double y.
Proof. intros E (m & e & M & H). exists m, e. split; [exact M|]. now rewrite <- E. Qed.

Lemma double_opp x : double x -> double (- x).
Proof. intros (m & e & M & H). exists (- m)%Z, e. split; [lia|]. rewrite inject_Z_opp, H. ring. Qed.

Lemma double_0 : double 0.
Proof. exists 0%Z, 0%Z. split; [lia | reflexivity]. Qed.

Lemma double_Z z : (Z.abs z <= 9007199254740992)%Z -> double (inject_Z z).
Proof. intro H. exists z, 0%Z. split; [exact H|]. change (Qpower 2 0) with 1. ring. Qed.

Lemma double_twice q : double q -> double (2 * q).
Proof.
  intros (m & e & M & H). exists m, (e + 1)%Z. split; [exact M|]. fold (pow2 (e + 1)). fold (pow2 e) in H.
  rewrite pow2_succ, H. ring.
Qed.

Lemma double_half q : double q -> double (q / 2).
Proof.
  intros (m & e & M & H). exists m, (e - 1)%Z. split; [exact M|]. fold (pow2 (e - 1)). fold (pow2 e) in H.
  rewrite H. replace e with (e - 1 + 1)%Z at 1 by lia. rewrite pow2_succ. field.
Qed.

Lemma double_to_double q : double (to_double q).
Proof.
  destruct (Q_dec q 0) as [[L | G] | Z0].
  - rewrite to_double_neg by exact L. apply double_opp, double_round_pos. lra.
  - rewrite to_double_pos by exact G. now apply double_round_pos.
  - rewrite to_double_zero by exact Z0. apply double_0.
Qed.

Lemma to_double_nearest q : nearest_double q (to_double q).
Proof.
  split; [apply double_to_double|]. intros d D. destruct (Q_dec q 0) as [[L | G] | Z0].
  - rewrite to_double_neg by exact L. destruct (round_pos_nearest (- q) ltac:(lra)) as [_ N].
    specialize (N (- d) (double_opp d D)).
    assert (A : Qabs (q - - round_pos (- q)) == Qabs (- q - round_pos (- q))) by (rewrite <- Qabs_opp; apply Qabs_wd; ring).
    assert (B : Qabs (q - d) == Qabs (- q - - d)) by (rewrite <- Qabs_opp; apply Qabs_wd; ring).
    rewrite A, B. exact N.
  - rewrite to_double_pos by exact G. now apply round_pos_nearest.
  - rewrite to_double_zero by exact Z0.
    assert (A : Qabs (q - 0) == 0) by (transitivity (Qabs 0); [apply Qabs_wd; lra | reflexivity]). rewrite A. apply Qabs_nonneg.
Qed.

Lemma to_double_exact q : double q -> to_double q == q.
Proof.
  intro D. destruct (to_double_nearest q) as [_ N]. specialize (N q D).
  assert (Z0 : Qabs (q - q) == 0) by (transitivity (Qabs 0); [apply Qabs_wd; ring | reflexivity]).
  rewrite Z0 in N. apply Qabs_Qle_condition in N. lra.
Qed.

Lemma to_double_err q : Qabs (to_double q - q) <= pow2 (-53) * Qabs q.
Proof.
  destruct (Q_dec q 0) as [[L | G] | Z0].
  - rewrite to_double_neg by exact L. pose proof (round_pos_err (- q) ltac:(lra)) as E.
    assert (A : Qabs (- round_pos (- q) - q) == Qabs (round_pos (- q) - - q)) by (rewrite <- Qabs_opp; apply Qabs_wd; ring).
    rewrite A, (Qabs_neg q) by lra. exact E.
  - rewrite to_double_pos by exact G. rewrite (Qabs_pos q) by lra. now apply round_pos_err.
  - rewrite to_double_zero by exact Z0.
    assert (A : Qabs (0 - q) == 0) by (transitivity (Qabs 0); [apply Qabs_wd; lra | reflexivity]).
    assert (B : Qabs q == 0) by (rewrite Z0; reflexivity). rewrite A, B. lra.
Qed.

(* bounds that are doubles survive rounding *)
Lemma to_double_le q d : double d -> q <= d -> to_double q <= d.
Proof. intros D L. rewrite <- (to_double_exact d D). now apply to_double_mono. Qed.
Lemma to_double_ge q d : double d -> d <= q -> d <= to_double q.
Proof. intros D L. rewrite <- (to_double_exact d D). now apply to_double_mono. Qed.

(* ---- ties ---- *)

Lemma nearest_int_tie q k : k <> nearest_int q -> Qabs (q - inject_Z k) == Qabs (q - inject_Z (nearest_int q)) ->
  Z.even (nearest_int q) = true.
Proof.
  intros N E. pose proof (nearest_int_err q) as H. pose proof (Qfloor_le q) as F1. pose proof (Qlt_floor q) as F2. rewrite inject_Z_1 in F2.
  assert (D : 1 <= Qabs (q - inject_Z k) + Qabs (q - inject_Z (nearest_int q))).
  { destruct (Z_lt_le_dec k (nearest_int q)) as [L | L].
    - assert (X : (k + 1 <= nearest_int q)%Z) by lia. rewrite Zle_Qle, inject_Z_1 in X.
      pose proof (Qle_Qabs (q - inject_Z k)). pose proof (Qle_Qabs (- (q - inject_Z (nearest_int q)))) as Y. rewrite Qabs_opp in Y. lra.
    - assert (X : (nearest_int q + 1 <= k)%Z) by lia. rewrite Zle_Qle, inject_Z_1 in X.
      pose proof (Qle_Qabs (q - inject_Z (nearest_int q))). pose proof (Qle_Qabs (- (q - inject_Z k))) as Y. rewrite Qabs_opp in Y. lra. }
  assert (A : Qabs (q - inject_Z (nearest_int q)) == 1 # 2) by lra. clear D E H N.
  unfold nearest_int in *.
  destruct (Qcompare_spec (q - inject_Z (Qfloor q)) (1 # 2)) as [C | C | C].
  - destruct (Z.even (Qfloor q)) eqn:Ev; [exact Ev|]. rewrite Z.even_add, Ev. reflexivity.
  - exfalso. rewrite Qabs_pos in A by lra. lra.
  - exfalso. rewrite inject_Z_1 in A. rewrite Qabs_neg in A by lra. lra.
Qed.

Lemma round_pos_tie q d : 0 < q -> double d -> ~ d == round_pos q -> Qabs (q - d) == Qabs (q - round_pos q) ->
  exists m e, (4503599627370496 <= Z.abs m <= 9007199254740992)%Z /\ Z.even m = true /\ round_pos q == inject_Z m * Qpower 2 e.
Proof.
  intros P D N E. exists (nearest_int (q / unit_of q)), (exponent q - 52)%Z.
  pose proof (nearest_bounds q P) as B. split; [lia|]. split; [|rewrite round_pos_eq; reflexivity].
  destruct (exponent_spec q P) as [E1 E2]. pose proof (unit_pos q) as U.
  destruct (Qlt_le_dec d (pow2 (exponent q))) as [L | L].
  - exfalso. pose proof (round_pos_best q 4503599627370496 P) as X.
    assert (Y : inject_Z 4503599627370496 * unit_of q == pow2 (exponent q)).
    { rewrite <- pow2_52. unfold unit_of. rewrite <- pow2_plus. replace (52 + (exponent q - 52))%Z with (exponent q) by lia. reflexivity. }
    rewrite Y in X. rewrite (Qabs_pos (q - pow2 (exponent q))) in X by lra. rewrite (Qabs_pos (q - d)) in E by lra. lra.
  - destruct (double_multiple d (exponent q) D L) as (k & K). fold (unit_of q) in K.
    apply (nearest_int_tie _ k).
    + intros ->. apply N. rewrite K, round_pos_eq. reflexivity.
    + assert (A : forall j, Qabs (q / unit_of q - inject_Z j) * unit_of q == Qabs (q - inject_Z j * unit_of q)).
      { intro j. revert U. generalize (unit_of q). intros u U.
        transitivity (Qabs (q / u - inject_Z j) * Qabs u); [rewrite (Qabs_pos u) by lra; reflexivity|].
        rewrite <- Qabs_Qmult. apply Qabs_wd. field. lra. }
      apply (Qmult_inj_r _ _ (unit_of q)); [lra|]. rewrite !A. rewrite <- K. rewrite E, round_pos_eq. reflexivity.
Qed.

Lemma to_double_ieee q : ieee_double q (to_double q).
Proof.
  split; [apply to_double_nearest|]. intros d D N E. destruct (Q_dec q 0) as [[L | G] | Z0].
  - rewrite to_double_neg in * by exact L.
    destruct (round_pos_tie (- q) (- d)) as (m & e & M & Ev & H); [lra | now apply double_opp | | |].
    + intro X. apply N. lra.
    + assert (A : Qabs (- q - round_pos (- q)) == Qabs (q - - round_pos (- q))) by (rewrite <- Qabs_opp; apply Qabs_wd; ring).
      assert (B : Qabs (- q - - d) == Qabs (q - d)) by (rewrite <- Qabs_opp; apply Qabs_wd; ring).
      rewrite A, B. exact E.
    + exists (- m)%Z, e. split; [lia|]. split; [now rewrite Z.even_opp|]. rewrite H, inject_Z_opp. ring.
  - rewrite to_double_pos in * by exact G. now apply (round_pos_tie q d).
  - rewrite to_double_zero in * by exact Z0. exfalso. apply N.
    assert (A : Qabs (q - 0) == 0) by (transitivity (Qabs 0); [apply Qabs_wd; lra | reflexivity]). rewrite A in E.
    assert (B : Qabs (q - d) <= 0) by lra. apply Qabs_Qle_condition in B. lra.
Qed.

Lemma ieee_comp q r r' : r == r' -> ieee_double q r -> ieee_double q r'.
Proof.
  intros E [[D N] T]. split; [split; [now apply (double_comp r)|]; intros d Dd; rewrite <- E; now apply N|].
  intros d Dd Nd Ed. rewrite <- E in Ed. destruct (T d Dd) as (m & e & M & Ev & H); [intro X; apply Nd; now rewrite <- E | exact Ed|].
  exists m, e. split; [exact M|]. split; [exact Ev|]. now rewrite <- E.
Qed.
