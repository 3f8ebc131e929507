(* Lemmas about clipping. *)
From Coq Require Import String Ascii ZArith NArith QArith QArith.Qminmax Bool List Lia Lqa.
From Verif Require Import Base BaseFacts Model_Step Spec_Step.
Import ListNotations.
Open Scope Q_scope.

Lemma sq_nonneg x : 0 <= x * x.
Proof. destruct (Qlt_le_dec x 0) as [H|H]; nra. Qed.

Lemma squares_nonneg v : 0 <= squares v.
Proof. induction v as [|x v IH]; cbn [squares fold_right]; [lra|]. pose proof (sq_nonneg x). unfold squares in IH. lra. Qed.
Lemma sum_squares_nonneg vs : 0 <= sum_squares vs.
Proof. induction vs as [|v vs IH]; cbn [sum_squares fold_right]; [lra|]. pose proof (squares_nonneg v). unfold sum_squares in IH. lra. Qed.

Lemma squares_scale q v : squares (vscale q v) == q * q * squares v.
Proof.
  induction v as [|x v IH]; cbn [vscale map squares fold_right]; [ring|].
  unfold squares, vscale in IH. rewrite IH. ring.
Qed.
Lemma sum_squares_scale q vs : sum_squares (map (vscale q) vs) == q * q * sum_squares vs.
Proof.
  induction vs as [|v vs IH]; cbn [map sum_squares fold_right]; [ring|].
  unfold sum_squares in IH. rewrite IH, squares_scale. ring.
Qed.
Lemma sum_squares_app a b : sum_squares (a ++ b) == sum_squares a + sum_squares b.
Proof. unfold sum_squares. induction a as [|v a IH]; cbn [app fold_right]; [ring|]. rewrite IH. ring. Qed.

Definition some_values (gs : list (option gradient)) : list vec :=
  concat (map values (concat (map (fun g => match g with Some g => [g] | None => [] end) gs))).

Lemma some_values_scale q gs : some_values (map (option_map (scale_gradient q)) gs) = map (vscale q) (some_values gs).
Proof.
  unfold some_values. induction gs as [|[g|] gs IH]; cbn [map concat option_map]; [reflexivity| |exact IH].
  cbn [app map concat]. rewrite IH, map_app. f_equal. destruct g as [rows|l]; cbn; [reflexivity|]. now rewrite !map_map.
Qed.

Lemma clip_shape root gs gs' : clip root gs = Ok gs' ->
  gs' = map (option_map (scale_gradient (clip_scale 5 (root (sum_squares (some_values gs)))))) gs.
Proof.
  unfold clip, global_norm, some_values. destruct (concat (map (fun g => match g with Some g => [g] | None => [] end) gs)) as [|g l];
    cbn [bind]; [discriminate|]. intros H. congruence.
Qed.

(* the scale, for a root that is not negative *)
Lemma clip_scale_cases n : 0 <= n -> (n <= 5 /\ clip_scale 5 n == 1) \/ (5 < n /\ clip_scale 5 n == 5 / n).
Proof.
  intros H. unfold clip_scale. destruct (Qeq_bool n 0) eqn:E.
  - left. apply Qeq_bool_iff in E. split; [lra|reflexivity].
  - assert (P : 0 < n).
    { destruct (Qlt_le_dec 0 n) as [L|L]; [exact L|]. exfalso. apply Qeq_bool_neq in E. apply E. lra. }
    destruct (Qlt_le_dec 5 n) as [L|L].
    + right. split; [exact L|]. rewrite Q.min_l; [unfold Qdiv; ring|].
      apply Qle_shift_div_l; [reflexivity|].
      setoid_replace (1 / n * 5) with (5 / n) by (unfold Qdiv; ring). apply Qle_shift_div_r; lra.
    + left. split; [exact L|]. rewrite Q.min_r; [reflexivity|].
      apply Qle_shift_div_l; [exact P|]. setoid_replace (1 / 5 * n) with (n / 5) by (unfold Qdiv; ring). apply Qle_shift_div_r; lra.
Qed.

Lemma clipped_squares root e s : accurate e root -> 0 <= e -> 0 <= s ->
  let q := clip_scale 5 (root s) in 0 < q <= 1 /\ q * q * s <= 25 * (1 + e) /\ (root s <= 5 -> q == 1).
Proof.
  intros A He Hs q. destruct (A s Hs) as (A1 & A2 & A3). unfold q. clear q.
  destruct (clip_scale_cases (root s) A1) as [[L E]|[L E]]; rewrite E.
  - split; [lra|]. split; [|reflexivity]. assert (root s * root s <= 25) by nra. nra.
  - assert (N : ~ root s == 0) by lra. split.
    + split; [apply Qlt_shift_div_l; lra|apply Qle_shift_div_r; lra].
    + split; [|intros; lra].
      setoid_replace (5 / root s * (5 / root s) * s) with (25 * s / (root s * root s)) by (field; exact N).
      apply Qle_shift_div_r; [nra|]. nra.
Qed.

(* ---------- Cauchy and Schwarz ---------- *)

Lemma qsum_nonneg l : (forall x, In x l -> 0 <= x) -> 0 <= qsum l.
Proof.
  induction l as [|x l IH]; intros H; cbn [qsum fold_right]; [lra|].
  pose proof (H x (or_introl eq_refl)). specialize (IH (fun y Hy => H y (or_intror Hy))). unfold qsum in IH. lra.
Qed.

Definition qn (n : nat) : Q := inject_Z (Z.of_nat n).
Lemma qn_S n : qn (S n) == qn n + 1.
Proof. unfold qn. rewrite Nat2Z.inj_succ. unfold Z.succ. rewrite inject_Z_plus. reflexivity. Qed.
Lemma qn_nonneg n : 0 <= qn n.
Proof. induction n as [|n IH]; [unfold qn, Qle; cbn; lia|]. rewrite qn_S. lra. Qed.
Lemma qn_le a b : (a <= b)%nat -> qn a <= qn b.
Proof. induction 1; [lra|]. rewrite qn_S. lra. Qed.

Lemma sum_zeros {X} (l : list X) (p : X -> bool) (f : X -> Q) : filter p l = [] -> qsum (map (fun x => if p x then f x else 0) l) == 0.
Proof.
  induction l as [|x l IH]; intros H; cbn [map qsum fold_right]; [reflexivity|]. cbn [filter] in H.
  destruct (p x); [discriminate H|]. unfold qsum in IH. rewrite (IH H). ring.
Qed.

Lemma cauchy {X} (p : X -> bool) (f : X -> Q) : forall l,
  let s := qsum (map (fun x => if p x then f x else 0) l) in
  s * s <= qn (length (filter p l)) * qsum (map (fun x => if p x then f x * f x else 0) l).
Proof.
  induction l as [|x l IH]; cbn [map filter qsum fold_right]; cbv zeta; [cbn; lra|]. cbv zeta in IH.
  destruct (p x) eqn:P.
  - cbn [length]. rewrite qn_S. fold (qsum (map (fun x => if p x then f x else 0) l)).
    fold (qsum (map (fun x => if p x then f x * f x else 0) l)).
    set (s := qsum (map (fun x => if p x then f x else 0) l)) in *.
    set (t := qsum (map (fun x => if p x then f x * f x else 0) l)) in *.
    set (y := f x). set (n := qn (length (filter p l))) in *.
    assert (N : 0 <= n) by apply qn_nonneg.
    assert (T : 0 <= t).
    { unfold t. apply qsum_nonneg. intros z Hz. apply in_map_iff in Hz. destruct Hz as [w [<- _]]. destruct (p w); [apply sq_nonneg|lra]. }
    (* 2 s y <= t + n y^2 *)
    assert (K : 2 * s * y <= t + n * (y * y)).
    { destruct (filter p l) as [|w m] eqn:F.
      - assert (S0 : s == 0) by (unfold s; now apply sum_zeros).
        rewrite S0. pose proof (sq_nonneg y). nra.
      - assert (N1 : 1 <= n). { unfold n. cbn [length]. rewrite qn_S. pose proof (qn_nonneg (length m)). lra. }
        pose proof (sq_nonneg (s - n * y)) as Sq.
        assert (M : n * (2 * s * y) <= n * (t + n * (y * y))) by nra.
        assert (N2 : 0 < n) by lra. exact (proj1 (Qmult_le_l (2 * s * y) (t + n * (y * y)) n N2) M). }
    nra.
  - fold (qsum (map (fun x => if p x then f x else 0) l)). fold (qsum (map (fun x => if p x then f x * f x else 0) l)).
    rewrite !Qplus_0_l. exact IH.
Qed.

(* sums over rows and columns *)
Lemma qsum_map_le {X} (f g : X -> Q) l : (forall x, In x l -> f x <= g x) -> qsum (map f l) <= qsum (map g l).
Proof.
  induction l as [|x l IH]; intros H; cbn [map qsum fold_right]; [lra|].
  pose proof (H x (or_introl eq_refl)). specialize (IH (fun y Hy => H y (or_intror Hy))). unfold qsum in IH. lra.
Qed.
Lemma qsum_map_eq {X} (f g : X -> Q) l : (forall x, In x l -> f x == g x) -> qsum (map f l) == qsum (map g l).
Proof.
  induction l as [|x l IH]; intros H; cbn [map qsum fold_right]; [reflexivity|].
  rewrite (H x (or_introl eq_refl)). unfold qsum in IH. rewrite (IH (fun y Hy => H y (or_intror Hy))). reflexivity.
Qed.
Lemma qsum_scale {X} (f : X -> Q) q l : qsum (map (fun x => q * f x) l) == q * qsum (map f l).
Proof. induction l as [|x l IH]; cbn [map qsum fold_right]; [ring|]. unfold qsum in IH. rewrite IH. ring. Qed.
Lemma qsum_plus {X} (f g : X -> Q) l : qsum (map (fun x => f x + g x) l) == qsum (map f l) + qsum (map g l).
Proof. induction l as [|x l IH]; cbn [map qsum fold_right]; [ring|]. unfold qsum in IH. rewrite IH. ring. Qed.

Lemma columns_le v : forall k d, qsum (map (fun c => nth c v 0 * nth c v 0) (seq k d)) <= squares (skipn k v).
Proof.
  intros k d. revert k. induction d as [|d IH]; intros k; cbn [seq map qsum fold_right]; [apply squares_nonneg|].
  specialize (IH (S k)). unfold qsum in IH.
  assert (E : squares (skipn k v) == nth k v 0 * nth k v 0 + squares (skipn (S k) v)).
  { clear. revert k. induction v as [|x v IHv]; intros [|k].
    - cbn. ring.
    - cbn. ring.
    - reflexivity.
    - cbn [skipn nth]. apply IHv. }
  rewrite E. lra.
Qed.

Lemma rows_pick {X} (key : X -> nat) (f : X -> Q) x : 0 <= f x -> forall n k,
  qsum (map (fun r => if Nat.eqb (key x) r then f x else 0) (seq k n)) <= f x
  /\ ((key x < k)%nat -> qsum (map (fun r => if Nat.eqb (key x) r then f x else 0) (seq k n)) == 0).
Proof.
  intros P n. induction n as [|n IH]; intros k; cbn [seq map qsum fold_right].
  - split; [exact P|reflexivity].
  - destruct (IH (S k)) as [I1 I2]. unfold qsum in I1, I2. destruct (Nat.eqb_spec (key x) k) as [E|N].
    + split; [|lia]. rewrite I2 by lia. lra.
    + split; [lra|]. intros L. rewrite I2 by lia. ring.
Qed.

(* slices: by rows and columns *)
Lemma slices_length m l n d : at_most m (Slices l) ->
  qsum (map (fun r => qsum (map (fun c => entry (Slices l) r c * entry (Slices l) r c) (seq 0 d))) (seq 0 n))
  <= qn m * sum_squares (map snd l).
Proof.
  intros [M1 M]. cbn [entry].
  (* every entry by Cauchy and Schwarz *)
  apply Qle_trans with (qsum (map (fun r => qsum (map (fun c =>
      qn m * qsum (map (fun s => if Nat.eqb (fst s) r then nth c (snd s) 0 * nth c (snd s) 0 else 0) l)) (seq 0 d))) (seq 0 n))).
  { apply qsum_map_le. intros r _. apply qsum_map_le. intros c _.
    pose proof (cauchy (fun s : nat * vec => Nat.eqb (fst s) r) (fun s => nth c (snd s) 0) l) as C. cbv zeta in C.
    eapply Qle_trans; [exact C|].
    assert (T : 0 <= qsum (map (fun s : nat * vec => if Nat.eqb (fst s) r then nth c (snd s) 0 * nth c (snd s) 0 else 0) l)).
    { apply qsum_nonneg. intros z Hz. apply in_map_iff in Hz. destruct Hz as [w [<- _]]. destruct (Nat.eqb _ _); [apply sq_nonneg|lra]. }
    pose proof (qn_le _ _ (M r)) as Q1. apply Qmult_le_compat_r; assumption. }
  rewrite (qsum_map_eq _ (fun r => qn m * qsum (map (fun c => qsum (map (fun s => if Nat.eqb (fst s) r then nth c (snd s) 0 * nth c (snd s) 0 else 0) l)) (seq 0 d)))).
  2:{ intros r _. apply qsum_scale. }
  rewrite qsum_scale.
  rewrite (Qmult_comm (qn m)), (Qmult_comm (qn m)). apply Qmult_le_compat_r; [|apply qn_nonneg].
  clear M M1. induction l as [|s l IH].
  - cbn [map qsum fold_right sum_squares].
    rewrite (qsum_map_eq _ (fun _ => 0)). { clear. induction (seq 0 n); cbn [map qsum fold_right]; [lra|]. unfold qsum in *. lra. }
    intros r _. clear. induction (seq 0 d); cbn [map qsum fold_right]; [reflexivity|]. unfold qsum in *. rewrite IHl. ring.
  - cbn [map sum_squares fold_right]. fold (sum_squares (map snd l)).
    rewrite (qsum_map_eq _ (fun r =>
        (if Nat.eqb (fst s) r then qsum (map (fun c => nth c (snd s) 0 * nth c (snd s) 0) (seq 0 d)) else 0)
        + qsum (map (fun c => qsum (map (fun s => if Nat.eqb (fst s) r then nth c (snd s) 0 * nth c (snd s) 0 else 0) l)) (seq 0 d)))).
    2:{ intros r _. cbn [qsum fold_right].
        rewrite (qsum_plus (fun c => if Nat.eqb (fst s) r then nth c (snd s) 0 * nth c (snd s) 0 else 0)
                  (fun c => qsum (map (fun s => if Nat.eqb (fst s) r then nth c (snd s) 0 * nth c (snd s) 0 else 0) l))).
        destruct (Nat.eqb (fst s) r); [reflexivity|].
        apply Qplus_comp; [|reflexivity]. clear. induction (seq 0 d); cbn [map qsum fold_right]; [reflexivity|]. unfold qsum in *. rewrite IHl. ring. }
    rewrite qsum_plus. apply Qplus_le_compat; [|exact IH].
    set (w := qsum (map (fun c => nth c (snd s) 0 * nth c (snd s) 0) (seq 0 d))).
    assert (W0 : 0 <= w).
    { apply qsum_nonneg. intros z Hz. apply in_map_iff in Hz. destruct Hz as [c [<- _]]. apply sq_nonneg. }
    assert (W1 : w <= squares (snd s)) by apply (columns_le (snd s) 0 d).
    destruct (rows_pick (fun s' : nat * vec => fst s') (fun _ => w) s W0 n 0) as [R _]. cbv beta in R. lra.
Qed.

Lemma whole_length rows n d : qsum (map (fun r => qsum (map (fun c => entry (Whole rows) r c * entry (Whole rows) r c) (seq 0 d))) (seq 0 n))
  <= sum_squares rows.
Proof.
  cbn [entry]. assert (G : forall k, qsum (map (fun r => qsum (map (fun c => nth c (nth r rows []) 0 * nth c (nth r rows []) 0) (seq 0 d))) (seq k n))
    <= sum_squares (skipn k rows)).
  2:{ apply (G 0%nat). }
  induction n as [|n IH]; intros k; cbn [seq map qsum fold_right]; [apply sum_squares_nonneg|].
  specialize (IH (S k)). unfold qsum in IH.
  assert (E : sum_squares (skipn k rows) == squares (nth k rows []) + sum_squares (skipn (S k) rows)).
  { clear. revert k. induction rows as [|x v IHv]; intros [|k].
    - cbn. ring.
    - cbn. ring.
    - reflexivity.
    - cbn [skipn nth]. apply IHv. }
  pose proof (columns_le (nth k rows []) 0 d) as C. cbn [skipn] in C. rewrite E.
  eapply Qle_trans; [apply Qplus_le_compat; [exact C|exact IH]|]. lra.
Qed.

Lemma at_most_scale m q g : at_most m g -> at_most m (scale_gradient q g).
Proof.
  destruct g as [rows|l]; cbn [scale_gradient at_most]; [auto|]. intros [H1 H2]. split; [exact H1|]. intros r. specialize (H2 r).
  replace (length (filter _ (map _ l))) with (length (filter (fun s : nat * vec => Nat.eqb (fst s) r) l)); [exact H2|].
  clear. induction l as [|s l IH]; cbn [map filter]; [reflexivity|]. cbn [fst]. destruct (Nat.eqb (fst s) r); cbn [length]; now rewrite IH.
Qed.

Lemma gradients_length m n d gs : (1 <= m)%nat -> (forall g, In (Some g) gs -> at_most m g) ->
  squared_length n d gs <= qn m * sum_squares (some_values gs).
Proof.
  intros M. unfold squared_length, some_values. induction gs as [|[g|] gs IH]; intros H; cbn [map concat].
  - cbn. lra.
  - cbn [app map concat qsum fold_right]. rewrite sum_squares_app.
    specialize (IH (fun g' Hg => H g' (or_intror Hg))). unfold qsum at 1 in IH.
    assert (G : qsum (map (fun r => qsum (map (fun c => entry g r c * entry g r c) (seq 0 d))) (seq 0 n)) <= qn m * sum_squares (values g)).
    { destruct g as [rows|l].
      - eapply Qle_trans; [apply whole_length|]. cbn [values]. pose proof (sum_squares_nonneg rows).
        assert (1 <= qn m). { pose proof (qn_le 1 m M) as Q1. assert (Q2 : qn 1 == 1) by reflexivity. lra. } nra.
      - apply slices_length. apply H. now left. }
    lra.
  - cbn [app qsum fold_right]. specialize (IH (fun g' Hg => H g' (or_intror Hg))). unfold qsum at 1 in IH. lra.
Qed.

Theorem clipped_length root e m n d gs gs' : accurate e root -> 0 <= e -> (1 <= m)%nat -> (forall g, In (Some g) gs -> at_most m g) ->
  clip root gs = Ok gs' -> squared_length n d gs' <= qn m * (25 * (1 + e)).
Proof.
  intros A He M H C. apply clip_shape in C. subst gs'.
  destruct (clipped_squares root e (sum_squares (some_values gs)) A He (sum_squares_nonneg _)) as (_ & B & _).
  set (q := clip_scale 5 (root (sum_squares (some_values gs)))) in *.
  eapply Qle_trans.
  { apply (gradients_length m); [exact M|]. intros g Hg. apply in_map_iff in Hg. destruct Hg as [[g0|] [E I]]; [|discriminate E].
    cbn in E. injection E as <-. apply at_most_scale. now apply H. }
  rewrite some_values_scale, sum_squares_scale. pose proof (qn_nonneg m).
  rewrite (Qmult_comm (qn m)), (Qmult_comm (qn m)). apply Qmult_le_compat_r; assumption.
Qed.

(* ---------- direction ---------- *)

Lemma entry_scale q g r c : entry (scale_gradient q g) r c == q * entry g r c.
Proof.
  assert (N : forall v k, nth k (vscale q v) 0 == q * nth k v 0).
  { unfold vscale. induction v as [|x v IH]; intros [|k]; cbn [map nth]; try ring. apply IH. }
  destruct g as [rows|l]; cbn [scale_gradient entry].
  - assert (R : nth r (map (vscale q) rows) [] = vscale q (nth r rows [])).
    { revert r. induction rows as [|v rows IH]; intros [|r]; cbn [map nth]; try reflexivity. apply IH. }
    rewrite R. apply N.
  - rewrite map_map. cbn [fst snd]. rewrite <- qsum_scale. apply qsum_map_eq. intros [k v] _. cbn [fst snd]. destruct (Nat.eqb k r); [apply N|ring].
Qed.

Theorem clipped_direction root e gs gs' : accurate e root -> 0 <= e -> clip root gs = Ok gs' ->
  exists q, 0 < q <= 1 /\ (root (sum_squares (some_values gs)) <= 5 -> q == 1) /\ length gs' = length gs
    /\ forall i, match nth_error gs i, nth_error gs' i with
                 | Some (Some g), Some (Some g') => forall r c, entry g' r c == q * entry g r c
                 | Some None, Some None => True
                 | None, None => True
                 | _, _ => False
                 end.
Proof.
  intros A He C. apply clip_shape in C. subst gs'.
  destruct (clipped_squares root e (sum_squares (some_values gs)) A He (sum_squares_nonneg _)) as (B1 & _ & B2).
  set (q := clip_scale 5 (root (sum_squares (some_values gs)))) in *.
  exists q. split; [exact B1|]. split; [exact B2|]. split; [apply map_length|]. intros i. rewrite nth_error_map.
  destruct (nth_error gs i) as [[g|]|]; cbn [option_map]; [|exact I|exact I]. intros r c. apply entry_scale.
Qed.
