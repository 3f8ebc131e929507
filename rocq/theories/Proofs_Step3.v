(* Lemmas about where a step goes. *)
From Coq Require Import String Ascii ZArith NArith QArith QArith.Qminmax QArith.Qpower Bool List Lia Lqa.
From Verif Require Import Base BaseFacts Model_Step Spec_Step Proofs_Step Proofs_Step2.
Import ListNotations.
Open Scope Q_scope.

Lemma nth_some {A} (l : list A) c d : (c < length l)%nat -> nth_error l c = Some (nth c l d).
Proof. intros H. now apply nth_error_nth'. Qed.

Lemma qsum_cons a l : qsum (a :: l) == a + qsum l.
Proof. reflexivity. Qed.

Lemma vadd_nth : forall v w c, length v = length w -> length (vadd v w) = length w /\ nth c (vadd v w) 0 == nth c v 0 + nth c w 0.
Proof.
  induction v as [|x v IH]; intros [|y w] c; cbn [length vadd]; try discriminate; intros H.
  - split; [reflexivity|]. destruct c; cbn; ring.
  - destruct (IH w (pred c) ltac:(lia)) as [I1 I2]. split; [lia|]. destruct c as [|c]; cbn [nth]; [reflexivity|]. exact I2.
Qed.

Lemma fold_vadd d c : forall (ss : list (nat * vec)) acc, length acc = d -> (forall s, In s ss -> length (snd s) = d) ->
  length (fold_left (fun acc s' => vadd acc (snd s')) ss acc) = d /\
  nth c (fold_left (fun acc s' => vadd acc (snd s')) ss acc) 0 == nth c acc 0 + qsum (map (fun s => nth c (snd s) 0) ss).
Proof.
  induction ss as [|s ss IH]; intros acc L F; cbn [fold_left map].
  - split; auto. cbn. ring.
  - destruct (vadd_nth acc (snd s) c) as [V1 V2]; [rewrite (F s (or_introl eq_refl)); exact L|].
    destruct (IH (vadd acc (snd s))) as [I1 I2]; [rewrite V1; apply F; now left|intros; apply F; now right|].
    split; auto. rewrite I2, V2, <- Qplus_assoc. reflexivity.
Qed.

Lemma filter_sum (l : list (nat * vec)) r c :
  qsum (map (fun s => if Nat.eqb (fst s) r then nth c (snd s) 0 else 0) l) == qsum (map (fun s => nth c (snd s) 0) (filter (fun s => Nat.eqb (fst s) r) l)).
Proof.
  unfold vec in *. induction l as [|s l IH]; [reflexivity|]. cbn [map filter]. destruct (Nat.eqb (fst s) r) eqn:E; cbn [map]; try rewrite E.
  - etransitivity; [apply qsum_cons|]. rewrite IH. reflexivity.
  - etransitivity; [apply qsum_cons|]. rewrite IH. apply Qplus_0_l.
Qed.

(* the gradient of one row *)
Lemma by_row_entry x g r row c : nth_error (v_rows x) r = Some row -> fits_variable x g -> (c < length row)%nat ->
  (exists v, nth_error (by_row (length (v_rows x)) g) r = Some (Some v) /\ length v = length row /\ nth c v 0 == entry g r c) \/
  (exists l, g = Slices l /\ ~ In r (map fst l) /\ entry g r c == 0).
Proof.
  intros R F C. destruct g as [rows|l]; cbn [fits_variable] in F.
  - left. assert (E : exists v, nth_error rows r = Some v /\ length v = length row).
    { clear C. revert r R. induction F as [|a b la lb E F IH]; intros [|r] R; cbn in R; try discriminate; [injection R as ->; exists b; auto|apply IH, R]. }
    destruct E as (v & E & L). exists v. split; [|split; auto].
    + cbn [by_row]. rewrite nth_error_map, E. reflexivity.
    + cbn [entry]. rewrite (nth_error_nth rows r [] E). reflexivity.
  - assert (Lr : (r < length (v_rows x))%nat) by (apply nth_error_Some; congruence).
    destruct (filter (fun s => Nat.eqb (fst s) r) l) as [|s ss] eqn:Fl.
    + right. exists l. split; [reflexivity|]. split.
      * intros I. apply in_map_iff in I as (s & <- & I). assert (X : In s (filter (fun s' => Nat.eqb (fst s') (fst s)) l)) by (apply filter_In; split; auto using Nat.eqb_refl).
        rewrite Fl in X. destruct X.
      * cbn [entry]. rewrite filter_sum, Fl. reflexivity.
    + left. assert (A : forall s', In s' (s :: ss) -> length (snd s') = length row).
      { intros s' I. rewrite <- Fl in I. apply filter_In in I as [I E]. apply Nat.eqb_eq in E. destruct (F s' I) as (row' & R' & L'). rewrite E in R'. congruence. }
      destruct (fold_vadd (length row) c ss (snd s)) as [V1 V2]; [apply A; now left|intros; apply A; now right|].
      eexists. split; [|split; [exact V1|]].
      * cbn [by_row]. rewrite nth_error_map.
        assert (E : nth_error (seq 0 (length (v_rows x))) r = Some r).
        { rewrite nth_error_nth' with (d := 0%nat); [|rewrite seq_length; lia]. rewrite seq_nth by lia. reflexivity. }
        rewrite E. cbn [option_map]. rewrite Fl. reflexivity.
      * rewrite V2. cbn [entry]. rewrite filter_sum, Fl. cbn [map qsum fold_right]. reflexivity.
Qed.

(* one number of an updated variable *)
Lemma update_at root k o lr x g r row m v c y a b : has_row x r row m v -> fits_variable x g ->
  nth_error row c = Some y -> nth_error m c = Some a -> nth_error v c = Some b ->
  exists G row' m' v', G == entry g r c /\ has_row (update root k o lr g x) r row' m' v' /\
    ((nth_error row' c = Some (fst (fst (update_number root k o lr y a b G))) /\
      nth_error m' c = Some (snd (fst (update_number root k o lr y a b G))) /\
      nth_error v' c = Some (snd (update_number root k o lr y a b G))) \/
     (o <> Adam /\ G == 0 /\ nth_error row' c = Some y /\ nth_error m' c = Some a /\ nth_error v' c = Some b)).
Proof.
  intros R F Y A B. pose proof R as (H1 & H2 & H3 & H4 & H5).
  assert (C : (c < length row)%nat) by (apply nth_error_Some; congruence).
  assert (general : forall w, length w = length row -> nth c w 0 == entry g r c ->
    nth_error (map4 (update_row root k o lr) (v_rows x) (v_m x) (v_v x) (by_row (length (v_rows x)) g)) r = Some (map4 (update_number root k o lr) row m v w) ->
    exists G row' m' v', G == entry g r c /\ has_row (update root k o lr g x) r row' m' v' /\
      nth_error row' c = Some (fst (fst (update_number root k o lr y a b G))) /\
      nth_error m' c = Some (snd (fst (update_number root k o lr y a b G))) /\
      nth_error v' c = Some (snd (update_number root k o lr y a b G))).
  { intros w L E U. exists (nth c w 0). eexists. eexists. eexists. split; [exact E|]. split.
    - unfold has_row, update. cbn [v_rows v_m v_v]. rewrite !nth_error_map, U. cbn [option_map].
      split; [reflexivity|]. split; [reflexivity|]. split; [reflexivity|]. rewrite !map_length. auto.
    - assert (X : nth_error (map4 (update_number root k o lr) row m v w) c = Some (update_number root k o lr y a b (nth c w 0))) by (apply nth_map4; auto; apply nth_some; lia).
      rewrite !nth_error_map, X. cbn [option_map]. auto. }
  destruct (by_row_entry x g r row c H1 F C) as [(w & W & L & E)|(l & -> & N & E)].
  - destruct (general w L E) as (G & row' & m' & v' & E1 & E2 & E3); [|exists G, row', m', v'; auto].
    exact (nth_map4 (update_row root k o lr) _ _ _ _ r _ _ _ _ H1 H2 H3 W).
  - assert (D : o = Adam \/ o <> Adam) by (destruct o; auto; right; discriminate). destruct D as [->|D].
    + destruct (general (map (fun _ => 0) row)) as (G & row' & m' & v' & E1 & E2 & E3); [apply map_length| | |exists G, row', m', v'; auto].
      * rewrite E. clear. revert c. induction row; intros [|c]; cbn; try reflexivity. apply IHrow.
      * assert (Lr : (r < length (v_rows x))%nat) by (apply nth_error_Some; congruence).
        exact (nth_map4 (update_row root k Adam lr) _ _ _ _ r _ _ _ _ H1 H2 H3 (by_row_none (length (v_rows x)) l r Lr N)).
    + exists 0, row, m, v. split; [now rewrite E|]. split; [now apply update_spared|]. right. split; auto. split; [reflexivity|auto].
Qed.

Lemma fits_scale x q g : fits_variable x g -> fits_variable x (scale_gradient q g).
Proof.
  destruct g as [rows|l]; cbn [fits_variable scale_gradient]; intros F.
  - induction F; constructor; auto. unfold vscale. now rewrite map_length.
  - intros s I. apply in_map_iff in I as (s' & <- & I). cbn [fst snd]. unfold vscale. rewrite map_length. auto.
Qed.

(* a step, number by number; the scale is the same for all *)
Lemma step_at root e k o lr n gradient_of vars vars' : accurate e root -> 0 <= e -> step root k o lr n gradient_of vars = Ok vars' ->
  exists q, 0 < q <= 1 /\
    (forall norm, global_norm root (map gradient_of (filter v_trainable vars)) = Ok norm -> norm <= 5 -> q == 1) /\
    forall i x g r c y a b, nth_error vars i = Some x -> v_trainable x = true -> gradient_of x = Some g -> fits_variable x g ->
      number_at vars i r c y a b ->
      exists G y' a' b', G == q * entry g r c /\ number_at vars' i r c y' a' b' /\
        ((y', a', b') = update_number root k o (step_rate root k o lr n) y a b G \/ (o <> Adam /\ G == 0 /\ y' = y /\ a' = a /\ b' = b)).
Proof.
  intros Ac He H. unfold step in H.
  assert (H' : exists gs, clip root (map gradient_of (filter v_trainable vars)) = Ok gs
                 /\ vars' = apply_gradients root k o (step_rate root k o lr n) gs vars).
  { destruct (filter v_trainable vars) as [|a l]; [discriminate H|].
    destruct (clip root (map gradient_of (a :: l))) as [gs|err]; [|discriminate H]. cbn [bind] in H. exists gs. split; [reflexivity|congruence]. }
  destruct H' as (gs & C & ->). apply clip_shape in C. subst gs.
  destruct (clipped_squares root e (sum_squares (some_values (map gradient_of (filter v_trainable vars)))) Ac He (sum_squares_nonneg _)) as (B1 & _ & B2).
  set (q := clip_scale 5 (root (sum_squares (some_values (map gradient_of (filter v_trainable vars)))))) in *.
  exists q. split; [exact B1|]. split.
  { intros norm N L. apply B2. unfold global_norm in N. unfold some_values.
    destruct (concat (map (fun g => match g with Some g => [g] | None => [] end) (map gradient_of (filter v_trainable vars)))) as [|g l]; [discriminate N|].
    injection N as <-. exact L. }
  intros i x g r c y a b Nx T G F (x0 & row & m & v & Nx0 & R & Y & A & B). assert (x0 = x) by congruence. subst x0.
  assert (X : nth_error (apply_gradients root k o (step_rate root k o lr n) (map (option_map (scale_gradient q)) (map gradient_of (filter v_trainable vars))) vars) i
            = Some (update root k o (step_rate root k o lr n) (scale_gradient q g) x)).
  { clearbody q. clear -Nx T G. revert i Nx. induction vars as [|z vars IH]; intros i Nx; [destruct i; discriminate|].
    destruct i as [|i]; cbn [nth_error] in Nx.
    - injection Nx as ->. cbn [filter apply_gradients]. rewrite T. cbn [map]. rewrite G. reflexivity.
    - cbn [filter apply_gradients]. destruct (v_trainable z); cbn [map nth_error]; apply IH, Nx. }
  destruct (update_at root k o (step_rate root k o lr n) x (scale_gradient q g) r row m v c y a b R (fits_scale x q g F) Y A B) as (G' & row' & m' & v' & E & R' & Z).
  rewrite entry_scale in E. destruct Z as [(Z1 & Z2 & Z3)|(Z0 & Z & Z1 & Z2 & Z3)].
  - exists G'. eexists. eexists. eexists. split; [exact E|]. split; [|left; symmetry; rewrite (surjective_pairing (update_number _ _ _ _ _ _ _ _)); f_equal; apply surjective_pairing].
    eexists. exists row', m', v'. split; [exact X|]. split; [exact R'|]. auto.
  - exists G', y, a, b. split; [exact E|]. split; [|right; auto]. eexists. exists row', m', v'. split; [exact X|]. auto.
Qed.

Lemma root_pos e root s : accurate e root -> 0 <= e -> 0 < s -> 0 < root s.
Proof. intros A He H. destruct (A s ltac:(lra)) as (A1 & A2 & _). destruct (Qlt_le_dec 0 (root s)) as [L|L]; auto. assert (root s == 0) by lra. rewrite H0 in A2. lra. Qed.

Lemma quotient_sign a d : 0 < d -> (0 < a -> 0 < a / d) /\ (a < 0 -> a / d < 0) /\ (a == 0 -> a / d == 0).
Proof.
  intros D. split; [|split]; intros H.
  - apply Qlt_shift_div_l; lra.
  - apply Qlt_shift_div_r; lra.
  - rewrite H. unfold Qdiv. ring.
Qed.

Lemma against_move g y lr d p : 0 < lr -> 0 < d -> 0 < p -> forall G, G == p * g -> against g y (y - lr * G / d).
Proof.
  intros L D P G E. destruct (quotient_sign (lr * G) d D) as (S1 & S2 & S3). split; [|split]; intros H.
  - assert (0 < lr * G) by (rewrite E; apply Qmult_lt_0_compat; auto; apply Qmult_lt_0_compat; auto). specialize (S1 H0). lra.
  - assert (lr * G < 0) by (rewrite E; assert (0 < lr * (p * - g)) by (apply Qmult_lt_0_compat; auto; apply Qmult_lt_0_compat; auto; lra); lra). specialize (S2 H0). lra.
  - assert (lr * G == 0) by (rewrite E, H; ring). specialize (S3 H0). lra.
Qed.

(* powers *)
Lemma power_small q n : 0 <= q < 1 -> 0 <= Qpower q (Z.of_nat (S n)) < 1.
Proof.
  intros [H1 H2]. induction n as [|n IH].
  - cbn. lra.
  - assert (E : Qpower q (Z.of_nat (S (S n))) == q * Qpower q (Z.of_nat (S n))).
    { replace (Z.of_nat (S (S n))) with (1 + Z.of_nat (S n))%Z by lia. rewrite Qpower_plus' by lia. cbn [Qpower Qpower_positive Z.of_nat]. reflexivity. }
    rewrite E. nra.
Qed.

Lemma adam_rate_pos e root k lr n : accurate e root -> 0 <= e -> usual k -> 0 < lr -> 0 < step_rate root k Adam lr n.
Proof.
  intros A He (B1 & B2 & B3 & B4 & _) L. cbn [step_rate].
  destruct (power_small (beta1 k) n) as [P1 P2]; [lra|]. destruct (power_small (beta2 k) n) as [P3 P4]; [lra|].
  apply Qlt_shift_div_l; [lra|]. setoid_replace (0 * (1 - beta1 k ^ Z.of_nat (S n))) with 0 by ring.
  apply Qmult_lt_0_compat; auto. apply (root_pos e); auto. lra.
Qed.

(* ---------- the three optimizers ---------- *)

Theorem gd_step root e k lr n gradient_of vars vars' : accurate e root -> 0 <= e -> step root k GD lr n gradient_of vars = Ok vars' ->
  exists q, 0 < q <= 1 /\
    (forall norm, global_norm root (map gradient_of (filter v_trainable vars)) = Ok norm -> norm <= 5 -> q == 1) /\
    forall i x g r c y a b, nth_error vars i = Some x -> v_trainable x = true -> gradient_of x = Some g -> fits_variable x g ->
      number_at vars i r c y a b -> exists y', number_at vars' i r c y' a b /\ y' == y - lr * (q * entry g r c).
Proof.
  intros A He H. destruct (step_at root e k GD lr n gradient_of vars vars' A He H) as (q & Q1 & Q2 & Q3). exists q. split; auto. split; auto.
  intros i x g r c y a b N T G F Y. destruct (Q3 i x g r c y a b N T G F Y) as (G' & y' & a' & b' & E & Y' & [Z|(_ & Z & -> & -> & ->)]).
  - cbn [update_number step_rate] in Z. injection Z as -> -> ->. eexists. split; [exact Y'|]. now rewrite E.
  - exists y. split; [exact Y'|]. rewrite <- E, Z. ring.
Qed.

Theorem rms_step root e k lr n gradient_of vars vars' : accurate e root -> 0 <= e -> usual k -> 0 < lr ->
  step root k RMSProp lr n gradient_of vars = Ok vars' ->
  forall i x g r c y a b, nth_error vars i = Some x -> v_trainable x = true -> gradient_of x = Some g -> fits_variable x g ->
    number_at vars i r c y a b -> 0 <= b -> exists y' b', number_at vars' i r c y' a b' /\ 0 <= b' /\ against (entry g r c) y y'.
Proof.
  intros A He (_ & _ & _ & _ & _ & U1 & U2 & U3) L H. destruct (step_at root e k RMSProp lr n gradient_of vars vars' A He H) as (q & Q1 & Q2 & Q3).
  intros i x g r c y a b N T G F Y B. destruct (Q3 i x g r c y a b N T G F Y) as (G' & y' & a' & b' & E & Y' & [Z|(_ & Z & -> & -> & ->)]).
  - cbn [update_number step_rate] in Z. cbv zeta in Z. 
    assert (P : 0 <= rms_decay k * b + (1 - rms_decay k) * (G' * G')) by (pose proof (sq_nonneg G'); nra).
    assert (Z1 : y' = y - lr * G' / root (rms_decay k * b + (1 - rms_decay k) * (G' * G') + rms_epsilon k)) by congruence.
    assert (Z2 : a' = a) by congruence. assert (Z3 : b' = rms_decay k * b + (1 - rms_decay k) * (G' * G')) by congruence.
    exists y', b'. subst a'. split; [exact Y'|]. rewrite Z3. split; [exact P|]. rewrite Z1. apply (against_move _ _ _ _ q); auto; [|tauto].
    apply (root_pos e); auto. lra.
  - exists y, b. split; [exact Y'|]. split; [exact B|]. rewrite Z in E. split; [|split]; intros X; [nra|nra|reflexivity].
Qed.

(* Adam: against a mean of the gradient and the momentum *)
Theorem adam_step root e k lr n gradient_of vars vars' : accurate e root -> 0 <= e -> usual k -> 0 < lr ->
  step root k Adam lr n gradient_of vars = Ok vars' ->
  exists q, 0 < q <= 1 /\
    (forall norm, global_norm root (map gradient_of (filter v_trainable vars)) = Ok norm -> norm <= 5 -> q == 1) /\
  forall i x g r c y a b, nth_error vars i = Some x -> v_trainable x = true -> gradient_of x = Some g -> fits_variable x g ->
    number_at vars i r c y a b -> 0 <= b ->
    exists y' a' b', number_at vars' i r c y' a' b' /\ 0 <= b' /\ a' == beta1 k * a + (1 - beta1 k) * (q * entry g r c) /\ against a' y y'.
Proof.
  intros A He U L H. destruct (step_at root e k Adam lr n gradient_of vars vars' A He H) as (q & Q1 & Q2 & Q3). exists q. split; auto. split; auto.
  pose proof (adam_rate_pos e root k lr n A He U L) as RP. destruct U as (U1 & U2 & U3 & U4 & U5 & _).
  intros i x g r c y a b N T G F Y B. destruct (Q3 i x g r c y a b N T G F Y) as (G' & y' & a' & b' & E & Y' & [Z|(Z & _)]); [|congruence].
  unfold update_number in Z. cbv zeta in Z. set (lr' := step_rate root k Adam lr n) in *.
  assert (P : 0 <= beta2 k * b + (1 - beta2 k) * (G' * G')) by (pose proof (sq_nonneg G'); nra).
  assert (Z1 : y' = y - lr' * (beta1 k * a + (1 - beta1 k) * G') / (root (beta2 k * b + (1 - beta2 k) * (G' * G')) + adam_epsilon k)) by congruence.
  assert (Z2 : a' = beta1 k * a + (1 - beta1 k) * G') by congruence. assert (Z3 : b' = beta2 k * b + (1 - beta2 k) * (G' * G')) by congruence.
  exists y', a', b'. split; [exact Y'|]. split; [now rewrite Z3|]. split; [rewrite Z2, E; reflexivity|].
  rewrite Z1, <- Z2. apply (against_move _ _ _ _ 1); auto; [|lra|ring].
  destruct (A _ P) as (A1 & _). lra.
Qed.

(* ---------- the means of squares ---------- *)

Lemma map4_all {X Y Z' U R} (f : X -> Y -> Z' -> U -> R) (P : Z' -> Prop) (P' : R -> Prop) : (forall x y z w, P z -> P' (f x y z w)) ->
  forall a b c d, Forall P c -> Forall P' (map4 f a b c d).
Proof.
  intros H. induction a as [|x a IH]; intros [|y b] [|z c] [|w d] F; cbn [map4]; try constructor; inversion F; subst; auto.
Qed.

Lemma update_means root k o lr g x : usual k -> Forall (Forall (Qle 0)) (v_v x) -> Forall (Forall (Qle 0)) (v_v (update root k o lr g x)).
Proof.
  intros (U1 & U2 & U3 & U4 & U5 & U6 & U7 & U8) F. unfold update. cbn [v_v].
  set (P' := fun row : list (Q * Q * Q) => Forall (Qle 0) (map snd row)).
  assert (N : forall y a b G, 0 <= b -> 0 <= snd (update_number root k o lr y a b G)).
  { intros y a b G B. pose proof (sq_nonneg G). destruct o; cbn [update_number snd]; auto; nra. }
  assert (X : Forall P' (map4 (update_row root k o lr) (v_rows x) (v_m x) (v_v x) (by_row (length (v_rows x)) g))).
  { eapply map4_all; [|exact F]. intros row m v w B. unfold P', update_row.
    assert (A : forall f : Q -> Q -> Q -> Q -> Q * Q * Q, (forall y a b G, 0 <= b -> 0 <= snd (f y a b G)) -> forall w', Forall (Qle 0) (map snd (map4 f row m v w'))).
    { intros f Hf w'. apply Forall_map. eapply map4_all; [|exact B]. cbn. auto. }
    destruct w as [w|]; [apply A, N|]. destruct o; [apply A; auto|apply A, N|apply A; auto]. }
  apply Forall_map. exact X.
Qed.

Lemma step_means root k o lr n gradient_of vars vars' : usual k -> step root k o lr n gradient_of vars = Ok vars' -> means_positive vars -> means_positive vars'.
Proof.
  unfold step, means_positive. intros U H M.
  assert (H' : exists gs, vars' = apply_gradients root k o (step_rate root k o lr n) gs vars).
  { destruct (filter v_trainable vars) as [|a l]; [discriminate H|].
    destruct (clip root (map gradient_of (a :: l))) as [gs|err]; [|discriminate H]. cbn [bind] in H. exists gs. congruence. }
  destruct H' as (gs & ->). clear H. revert gs. induction M as [|x vars M0 M IH]; intros gs; cbn [apply_gradients]; [constructor|].
  destruct (v_trainable x); [|constructor; auto]. destruct gs as [|[g|] gs]; constructor; auto. now apply update_means.
Qed.

Theorem train_means root k settings batches vars vars' : usual k -> train root k settings batches vars = Ok vars' -> means_positive vars -> means_positive vars'.
Proof.
  unfold train. intros U H M. destruct (optimizer_of settings) as [o|err]; [|discriminate H]. cbn [bind] in H. revert H. generalize 0%nat. revert vars M.
  induction batches as [|[lr gr] batches IH]; intros vars M n H; cbn [steps] in H; [congruence|].
  destruct (step root k o lr n (gr vars) vars) as [w|err] eqn:S; [|discriminate H]. cbn [bind] in H. eapply IH; [|exact H]. eapply step_means; eauto.
Qed.

Lemma mean_at vars i r c y a b : means_positive vars -> number_at vars i r c y a b -> 0 <= b.
Proof.
  intros M (x & row & m & v & N & (_ & _ & V & _) & _ & _ & B). unfold means_positive in M. rewrite Forall_forall in M. specialize (M x (nth_error_In _ _ N)).
  rewrite Forall_forall in M. specialize (M v (nth_error_In _ _ V)). rewrite Forall_forall in M. exact (M b (nth_error_In _ _ B)).
Qed.
