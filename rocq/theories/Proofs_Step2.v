(* Lemmas about square roots, and about which rows a step changes. *)
From Coq Require Import String Ascii ZArith NArith Znumtheory QArith QArith.Qminmax Qreduction Bool List Lia Lqa.
Require Coq.QArith.Qcanon.
From Verif Require Import Base BaseFacts Model_Step Spec_Step Proofs_Step.
Import ListNotations.
Open Scope Q_scope.

(* ---------- square roots ---------- *)

Definition root_error (K : positive) : Q := (2 * Zpos K + 1) # (K * K).

Lemma root_accurate K : accurate (root_error K) (root_of K).
Proof.
  intros s Hs. unfold root_of. cbv zeta. pose proof (Qred_correct s) as R. rewrite <- R in Hs. set (q := Qred s) in *.
  destruct q as [n d]. cbn [Qnum Qden]. assert (Hn : (0 <= n)%Z) by (unfold Qle in Hs; cbn in Hs; lia).
  assert (HX : (0 <= n * Z.pos d * (Z.pos K * Z.pos K))%Z) by nia.
  pose proof (Z.sqrt_spec _ HX) as [S1 S2]. pose proof (Z.sqrt_nonneg (n * Z.pos d * (Z.pos K * Z.pos K))) as S0.
  set (r := Z.sqrt (n * Z.pos d * (Z.pos K * Z.pos K))) in *.
  assert (S3 : (n * Z.pos d * (Z.pos K * Z.pos K) * (Z.pos K * Z.pos K) <= r * r * ((Z.pos K + 1) * (Z.pos K + 1)))%Z).
  { destruct (Z.eq_dec n 0) as [->|N]; [nia|].
    assert (L : (Z.pos K <= r)%Z).
    { destruct (Z_lt_le_dec r (Z.pos K)) as [L|L]; [|exact L]. exfalso. assert ((1 <= n * Z.pos d)%Z) by nia.
      assert ((Z.succ r * Z.succ r <= Z.pos K * Z.pos K)%Z) by nia. nia. }
    assert (E1 : (Z.succ r * Z.pos K <= r * (Z.pos K + 1))%Z) by nia.
    assert (E2 : ((Z.succ r * Z.pos K) * (Z.succ r * Z.pos K) <= (r * (Z.pos K + 1)) * (r * (Z.pos K + 1)))%Z) by (apply Z.mul_le_mono_nonneg; nia).
    nia. }
  split; [|split].
  - unfold Qle. cbn. lia.
  - rewrite <- R. unfold Qle, root_error, Qmult, Qplus. cbn [Qnum Qden]. rewrite !Pos2Z.inj_mul.
    set (k := Z.pos K) in *. set (D := Z.pos d) in *. assert (0 < k)%Z by (unfold k; lia). assert (0 < D)%Z by (unfold D; lia).
    clear S1 S2 R Hs. clearbody k D r.
    replace (n * (1 * (k * k) * (D * k * (D * k))))%Z with (n * D * (k * k) * (k * k) * D)%Z by ring.
    replace ((1 * (k * k) + (2 * k + 1) * 1) * (r * r) * D)%Z with (r * r * ((k + 1) * (k + 1)) * D)%Z by ring.
    apply Z.mul_le_mono_nonneg_r; lia.
  - rewrite <- R. unfold Qle, root_error, Qmult, Qplus. cbn [Qnum Qden]. rewrite !Pos2Z.inj_mul.
    set (k := Z.pos K) in *. set (D := Z.pos d) in *. assert (0 < k)%Z by (unfold k; lia). assert (0 < D)%Z by (unfold D; lia).
    clear S2 S3 R Hs. clearbody k D r.
    replace (r * r * (1 * (k * k) * D))%Z with (r * r * (k * k * D))%Z by ring.
    replace ((1 * (k * k) + (2 * k + 1) * 1) * n * (D * k * (D * k)))%Z with (n * D * (k * k) * (k * k * D) + (2 * k + 1) * n * (D * k * (D * k)))%Z by ring.
    assert (r * r * (k * k * D) <= n * D * (k * k) * (k * k * D))%Z by (apply Z.mul_le_mono_nonneg_r; nia).
    assert (0 <= (2 * k + 1) * n * (D * k * (D * k)))%Z by nia. lia.
Qed.

Lemma gcd_red a b : Z.gcd a (Z.pos b) = 1%Z -> Qred (a # b) = a # b.
Proof. intros H. apply Qcanon.Qred_identity. exact H. Qed.

Lemma root_exact K : exact_on_squares (root_of K).
Proof.
  intros s q Hq E. unfold root_of. cbv zeta. rewrite (Qred_complete s (q * q) E).
  assert (E2 : Qred (q * q) = Qred (Qred q * Qred q)).
  { apply Qred_complete. now rewrite !Qred_correct. }
  rewrite E2. clear E2 E s. pose proof (Qred_correct q) as R. rewrite <- R in Hq. 
  assert (G : Z.gcd (Qnum (Qred q)) (Z.pos (Qden (Qred q))) = 1%Z).
  { apply Qcanon.Qred_identity2. apply Qcanon.Qred_involutive. }
  transitivity (Qred q); [|exact R]. clear R. destruct (Qred q) as [a b]. cbn [Qnum Qden] in *. unfold Qmult. cbn [Qnum Qden].
  assert (Ha : (0 <= a)%Z) by (unfold Qle in Hq; cbn in Hq; lia).
  rewrite gcd_red.
  2:{ rewrite Pos2Z.inj_mul. apply Zgcd_1_rel_prime. apply Zgcd_1_rel_prime in G.
      assert (G1 : rel_prime (a * a) (Z.pos b)) by (apply rel_prime_sym, rel_prime_mult; apply rel_prime_sym; exact G).
      apply rel_prime_mult; exact G1. }
  cbn [Qnum Qden]. rewrite !Pos2Z.inj_mul.
  replace (a * a * (Z.pos b * Z.pos b) * (Z.pos K * Z.pos K))%Z with ((a * Z.pos b * Z.pos K) * (a * Z.pos b * Z.pos K))%Z by ring.
  rewrite Z.sqrt_square by nia. unfold Qeq. cbn [Qnum Qden]. rewrite !Pos2Z.inj_mul. ring.
Qed.

(* ---------- slices of one row ---------- *)

Lemma repeated_squares x m : sum_squares (map snd (repeat (0%nat, [x]) m)) == qn m * (x * x).
Proof.
  induction m as [|m IH]; cbn [repeat map]; [cbn; unfold qn; cbn; ring|].
  change (sum_squares (snd (0%nat, [x]) :: map snd (repeat (0%nat, [x]) m))) with (squares [x] + sum_squares (map snd (repeat (0%nat, [x]) m))).
  rewrite IH, qn_S. cbn [squares fold_right]. ring.
Qed.

Lemma repeated_entry x m : entry (Slices (repeat (0%nat, [x]) m)) 0 0 == qn m * x.
Proof.
  cbn [entry]. induction m as [|m IH]; cbn [repeat map qsum fold_right]; [unfold qn; cbn; ring|].
  unfold qsum in IH. rewrite IH, qn_S. cbn. ring.
Qed.

Theorem repeated root j : exact_on_squares root -> (1 <= j)%nat ->
  exists gs', clip root [Some (Slices (repeat (0%nat, [5]) (j * j)))] = Ok gs' /\ squared_length 1 1 gs' == 25 * (qn j * qn j).
Proof.
  intros E J. eexists. split; [reflexivity|].
  assert (QJ : 1 <= qn j). { pose proof (qn_le 1 j J) as Q1. assert (Q2 : qn 1 == 1) by reflexivity. lra. }
  assert (QM : qn (j * j) == qn j * qn j). { unfold qn. rewrite Nat2Z.inj_mul, inject_Z_mult. reflexivity. }
  cbn [map option_map]. unfold squared_length. cbn [map seq qsum fold_right].
  set (S := sum_squares _). 
  assert (HS : S == (5 * qn j) * (5 * qn j)).
  { unfold S. cbn [concat map app]. rewrite app_nil_r. cbn [values]. rewrite repeated_squares, QM. ring. }
  assert (HR : root S == 5 * qn j) by (apply E; [lra|exact HS]).
  rewrite entry_scale, repeated_entry.
  destruct (clip_scale_cases (root S)) as [[L Q1]|[L Q1]]; [lra| |].
  - rewrite Q1, QM. assert (qn j == 1) by lra. rewrite H. ring.
  - rewrite Q1, HR, QM. field. lra.
Qed.

(* ---------- what a step changes ---------- *)

Lemma nth_map4 {X Y Z' U R} (f : X -> Y -> Z' -> U -> R) : forall a b c d i x y z w,
  nth_error a i = Some x -> nth_error b i = Some y -> nth_error c i = Some z -> nth_error d i = Some w ->
  nth_error (map4 f a b c d) i = Some (f x y z w).
Proof.
  induction a as [|x0 a IH]; intros [|y0 b] [|z0 c] [|w0 d] [|i] x y z w; cbn; try discriminate.
  - congruence.
  - apply IH.
Qed.

Lemma by_row_none n l r : (r < n)%nat -> ~ In r (map fst l) -> nth_error (by_row n (Slices l)) r = Some None.
Proof.
  intros L N. cbn [by_row]. rewrite nth_error_map.
  assert (E : nth_error (seq 0 n) r = Some r).
  { rewrite nth_error_nth' with (d := 0%nat); [|rewrite seq_length; lia]. rewrite seq_nth by lia. reflexivity. }
  rewrite E. cbn [option_map]. f_equal.
  assert (F : filter (fun s : nat * vec => Nat.eqb (fst s) r) l = []).
  { clear E L. induction l as [|s l IH]; [reflexivity|]. cbn [map In] in N. cbn [filter].
    destruct (Nat.eqb_spec (fst s) r) as [X|X]; [tauto|]. apply IH. tauto. }
  now rewrite F.
Qed.

Lemma map4_same {X Y Z'} : forall (a : list X) (b : list Y) (c : list Z'), length b = length a -> length c = length a ->
  map (fun t => fst (fst t)) (map4 (fun x m v (_ : X) => (x, m, v)) a b c a) = a
  /\ map (fun t => snd (fst t)) (map4 (fun x m v (_ : X) => (x, m, v)) a b c a) = b
  /\ map snd (map4 (fun x m v (_ : X) => (x, m, v)) a b c a) = c.
Proof.
  induction a as [|x a IH]; intros [|y b] [|z c]; cbn; try discriminate; [auto|].
  intros H1 H2. destruct (IH b c ltac:(lia) ltac:(lia)) as (-> & -> & ->). auto.
Qed.

Lemma update_spared root k o lr x r row m v l : o <> Adam -> has_row x r row m v -> ~ In r (map fst l) ->
  has_row (update root k o lr (Slices l) x) r row m v.
Proof.
  intros O (H1 & H2 & H3 & H4 & H5) N. unfold has_row, update. cbn [v_rows v_m v_v].
  assert (L : (r < length (v_rows x))%nat) by (apply nth_error_Some; congruence).
  pose proof (nth_map4 (update_row root k o lr) _ _ _ _ r _ _ _ _ H1 H2 H3 (by_row_none (length (v_rows x)) l r L N)) as E.
  assert (U : update_row root k o lr row m v None = map4 (fun x m v (_ : Q) => (x, m, v)) row m v row) by (destruct o; [reflexivity|congruence|reflexivity]).
  rewrite U in E. destruct (map4_same row m v H4 H5) as (E1 & E2 & E3).
  rewrite !nth_error_map, E. cbn [option_map]. rewrite E1, E2, E3. auto.
Qed.

(* Adam: a row that is not in the batch *)
Lemma update_adam root k lr x r row m v l : has_row x r row m v -> ~ In r (map fst l) ->
  let t := map4 (update_number root k Adam lr) row m v (map (fun _ => 0) row) in
  has_row (update root k Adam lr (Slices l) x) r (map (fun t => fst (fst t)) t) (map (fun t => snd (fst t)) t) (map snd t).
Proof.
  intros (H1 & H2 & H3 & H4 & H5) N t. unfold has_row, update. cbn [v_rows v_m v_v].
  assert (L : (r < length (v_rows x))%nat) by (apply nth_error_Some; congruence).
  pose proof (nth_map4 (update_row root k Adam lr) _ _ _ _ r _ _ _ _ H1 H2 H3 (by_row_none (length (v_rows x)) l r L N)) as E.
  cbn [update_row] in E. fold t in E. rewrite !nth_error_map, E. cbn [option_map]. rewrite !map_length. auto.
Qed.

(* a variable of a step: what becomes of it *)
Inductive becomes (root : Q -> Q) (k : constants) (o : optimizer) (lr : Q) (g : option gradient) (x : variable) : variable -> Prop :=
| Stays : (v_trainable x = false \/ g = None) -> becomes root k o lr g x x
| Moves g0 q : v_trainable x = true -> g = Some g0 -> becomes root k o lr g x (update root k o lr (scale_gradient q g0) x).

Lemma apply_becomes root k o lr q (gradient_of : variable -> option gradient) : forall vars i x, nth_error vars i = Some x ->
  exists x', nth_error (apply_gradients root k o lr (map (option_map (scale_gradient q)) (map gradient_of (filter v_trainable vars))) vars) i = Some x'
    /\ becomes root k o lr (gradient_of x) x x'.
Proof.
  induction vars as [|y vars IH]; intros i x H; [destruct i; discriminate H|].
  cbn [filter apply_gradients]. destruct (v_trainable y) eqn:T.
  - cbn [map]. destruct i as [|i].
    + cbn in H. injection H as ->. cbn [nth_error]. eexists. split; [reflexivity|].
      destruct (gradient_of x) as [g|] eqn:G; cbn [option_map]; [now apply Moves with (g0 := g)|now apply Stays; right].
    + cbn [nth_error] in *. apply IH, H.
  - destruct i as [|i].
    + cbn in H. injection H as ->. cbn [nth_error]. eexists. split; [reflexivity|]. apply Stays. now left.
    + cbn [nth_error] in *. apply IH, H.
Qed.

Lemma step_becomes root k o lr n gradient_of vars vars' i x : step root k o lr n gradient_of vars = Ok vars' -> nth_error vars i = Some x ->
  exists x', nth_error vars' i = Some x' /\ becomes root k o (step_rate root k o lr n) (gradient_of x) x x'.
Proof.
  unfold step. intros H N.
  assert (H' : exists gs, clip root (map gradient_of (filter v_trainable vars)) = Ok gs
                 /\ vars' = apply_gradients root k o (step_rate root k o lr n) gs vars).
  { destruct (filter v_trainable vars) as [|a l]; [discriminate H|].
    destruct (clip root (map gradient_of (a :: l))) as [gs|e]; [|discriminate H]. cbn [bind] in H. exists gs. split; [reflexivity|congruence]. }
  destruct H' as (gs & C & ->). apply clip_shape in C. subst gs.
  exact (apply_becomes root k o _ _ gradient_of vars i x N).
Qed.

Lemma becomes_kept root k o lr g x x' : becomes root k o lr g x x' -> v_name x' = v_name x /\ v_trainable x' = v_trainable x.
Proof. destruct 1; [auto|]. split; reflexivity. Qed.

(* frozen variables *)
Lemma steps_frozen root k o : forall batches n vars vars' i x, steps root k o n batches vars = Ok vars' ->
  nth_error vars i = Some x -> v_trainable x = false -> nth_error vars' i = Some x.
Proof.
  induction batches as [|[lr gr] batches IH]; intros n vars vars' i x H N F; cbn [steps] in H; [congruence|].
  destruct (step root k o lr n (gr vars) vars) as [w|e] eqn:S; [|discriminate H]. cbn [bind] in H.
  destruct (step_becomes root k o lr n (gr vars) vars w i x S N) as (x' & N' & B).
  inversion B; subst; [|congruence]. eapply IH; eauto.
Qed.

Lemma spares_scale r q g0 : spares r (Some g0) -> exists l, scale_gradient q g0 = Slices l /\ ~ In r (map fst l).
Proof.
  destruct g0 as [rows|l]; cbn [spares]; [tauto|]. intros N. eexists. split; [reflexivity|]. rewrite map_map. exact N.
Qed.

(* rows that are in no batch *)
Lemma steps_spared root k o name r row m v : o <> Adam -> forall batches n vars vars' i x,
  (forall lr gr, In (lr, gr) batches -> forall vars x, v_name x = name -> spares r (gr vars x)) ->
  steps root k o n batches vars = Ok vars' -> nth_error vars i = Some x -> v_name x = name -> has_row x r row m v ->
  exists x', nth_error vars' i = Some x' /\ has_row x' r row m v.
Proof.
  intros O. induction batches as [|[lr gr] batches IH]; intros n vars vars' i x Sp H N Nm R; cbn [steps] in H.
  - exists x. split; [congruence|exact R].
  - destruct (step root k o lr n (gr vars) vars) as [w|e] eqn:S; [|discriminate H]. cbn [bind] in H.
    destruct (step_becomes root k o lr n (gr vars) vars w i x S N) as (x' & N' & B).
    destruct (becomes_kept _ _ _ _ _ _ _ B) as [K1 K2].
    apply (IH (Datatypes.S n) w vars' i x'); [|exact H|exact N'|congruence|].
    + intros lr' gr' I. apply (Sp lr'). now right.
    + inversion B as [X E|g0 q X E E2]; subst; [exact R|].
      destruct (spares_scale r q g0) as (l & -> & Nl); [rewrite <- E; apply (Sp lr); [now left|reflexivity]|].
      now apply update_spared.
Qed.

(* the same with Adam, for rows without momentum *)
Definition same_numbers (a b : vec) : Prop := Forall2 Qeq a b.

Lemma adam_still root k lr : forall row m v, length m = length row -> length v = length row -> Forall (fun q => q == 0) m ->
  let t := map4 (update_number root k Adam lr) row m v (map (fun _ => 0) row) in
  same_numbers row (map (fun t => fst (fst t)) t) /\ Forall (fun q => q == 0) (map (fun t => snd (fst t)) t)
  /\ length t = length row.
Proof.
  induction row as [|x row IH]; intros [|a m] [|b v]; cbn [length]; try discriminate; intros H1 H2 Z.
  - repeat split; constructor.
  - inversion_clear Z as [|? ? Z1 Z2]. destruct (IH m v ltac:(lia) ltac:(lia) Z2) as (I1 & I2 & I3).
    cbn [map map4]. unfold update_number at 1 3 5. cbv zeta. cbn [map fst snd length]. split; [|split].
    + constructor; [|exact I1]. unfold Qdiv. rewrite Z1. ring.
    + constructor; [|exact I2]. rewrite Z1. ring.
    + now rewrite I3.
Qed.

Lemma same_trans a b c : same_numbers a b -> same_numbers b c -> same_numbers a c.
Proof.
  unfold same_numbers. intros H. revert c. induction H as [|x y l l' E F IH]; intros c G; [exact G|].
  inversion_clear G as [|? z ? c' E' F']. constructor; [now rewrite E|now apply IH].
Qed.
Lemma same_refl a : same_numbers a a.
Proof. induction a; constructor; [reflexivity|assumption]. Qed.

Lemma steps_adam root k name r : forall batches n vars vars' i x row m v,
  (forall lr gr, In (lr, gr) batches -> forall vars x, v_name x = name -> spares r (gr vars x)) ->
  steps root k Adam n batches vars = Ok vars' -> nth_error vars i = Some x -> v_name x = name -> has_row x r row m v ->
  Forall (fun q => q == 0) m ->
  exists x' row', nth_error vars' i = Some x' /\ nth_error (v_rows x') r = Some row' /\ same_numbers row row'.
Proof.
  induction batches as [|[lr gr] batches IH]; intros n vars vars' i x row m v Sp H N Nm R Z; cbn [steps] in H.
  - exists x, row. split; [congruence|]. split; [apply R|apply same_refl].
  - destruct (step root k Adam lr n (gr vars) vars) as [w|e] eqn:S; [|discriminate H]. cbn [bind] in H.
    destruct (step_becomes root k Adam lr n (gr vars) vars w i x S N) as (x' & N' & B).
    destruct (becomes_kept _ _ _ _ _ _ _ B) as [K1 K2].
    assert (Sp' : forall lr gr, In (lr, gr) batches -> forall vars x, v_name x = name -> spares r (gr vars x)).
    { intros lr' gr' I. apply (Sp lr'). now right. }
    inversion B as [X E|g0 q X E E2]; subst x'.
    + apply (IH (Datatypes.S n) w vars' i x row m v); assumption.
    + destruct (spares_scale r q g0) as (l & El & Nl); [rewrite <- E; apply (Sp lr); [now left|exact Nm]|].
      rewrite El in N'. pose proof (update_adam root k (step_rate root k Adam lr n) x r row m v l R Nl) as U. cbv zeta in U.
      destruct R as (R1 & R2 & R3 & R4 & R5).
      destruct (adam_still root k (step_rate root k Adam lr n) row m v R4 R5 Z) as (A1 & A2 & A3). cbv zeta in A1, A2.
      destruct (IH (Datatypes.S n) w vars' i _ _ _ _ Sp' H N' Nm U A2) as (x2 & row2 & Q1 & Q2 & Q3).
      exists x2, row2. split; [exact Q1|]. split; [exact Q2|]. eapply same_trans; eauto.
Qed.

(* ... and rows with momentum move *)
Lemma adam_moves root k lr row m v c x a :
  0 < beta1 k -> ~ lr == 0 -> (forall q, ~ root q + adam_epsilon k == 0) ->
  nth_error row c = Some x -> nth_error m c = Some a -> ~ a == 0 -> length m = length row -> length v = length row ->
  exists x', nth_error (map (fun t => fst (fst t)) (map4 (update_number root k Adam lr) row m v (map (fun _ => 0) row))) c = Some x' /\ ~ x' == x.
Proof.
  intros B L P H1 H2 A H4 H5.
  destruct (nth_error v c) as [b|] eqn:H3.
  2:{ apply nth_error_None in H3. assert (c < length row)%nat by (apply nth_error_Some; congruence). lia. }
  assert (H6 : nth_error (map (fun _ : Q => 0) row) c = Some 0) by (rewrite nth_error_map, H1; reflexivity).
  rewrite nth_error_map, (nth_map4 _ _ _ _ _ c x a b 0 H1 H2 H3 H6). cbn [option_map fst]. eexists. split; [reflexivity|].
  unfold update_number. cbv zeta. cbn [fst].
  set (D := root _ + adam_epsilon k). assert (HD : ~ D == 0) by apply P. intros X.
  assert (Y : lr * (beta1 k * a + (1 - beta1 k) * 0) / D == 0) by lra.
  assert (Y2 : lr * (beta1 k * a) == 0).
  { setoid_replace (lr * (beta1 k * a)) with (lr * (beta1 k * a + (1 - beta1 k) * 0) / D * D) by (field; exact HD). rewrite Y. ring. }
  apply Qmult_integral in Y2. destruct Y2 as [Y2|Y2]; [now apply L|].
  apply Qmult_integral in Y2. destruct Y2 as [Y2|Y2]; [lra|now apply A].
Qed.
