(* The learning rate and the epochs of training *)
From Coq Require Import String ZArith NArith QArith Qpower Qfield Bool Lia Lqa Permutation List.
From Verif Require Import Base BaseFacts Proofs_Datamodel Model_UDEval Model_Harness Spec_Harness Model_Training Spec_Training Proofs_Training.
Import ListNotations.
Open Scope nat_scope.

Lemma accuracy_is t : (accuracy t == acc_of t)%Q.
Proof.
  unfold accuracy, acc_of.
  assert (G : forall q, (fold_left (fun a (kv : str * score) => match s_aligned (snd kv) with Some x => a + x | None => a end) t q ==
            q + sumq (concat (map (fun kv : str * score => match s_aligned (snd kv) with Some x => [x] | None => [] end) t)))%Q).
  { induction t as [|[k s] t IH]; intros q; cbn [fold_left map concat sumq snd]; [ring|]. rewrite IH.
    destruct (s_aligned s); cbn [app sumq]; ring. }
  rewrite G. ring.
Qed.

Lemma total_is l l' : Forall2 Qeq l l' -> (total l == sumq l')%Q.
Proof. induction 1 as [|x y l l' E F IH]; cbn [total sumq]; [reflexivity|]. rewrite E, IH. reflexivity. Qed.

Lemma last_is l l' : Forall2 Qeq l l' -> (last l 0 == last l' 0)%Q.
Proof.
  induction 1 as [|x y l l' E F IH]; [reflexivity|]. destruct F as [|x1 y1 l l' E1 F]; [exact E|]. exact IH.
Qed.

Lemma stagnates_is prev win a b : Forall2 Qeq prev win -> (a == b)%Q ->
  (stagnates prev a = true <-> (b <= last win 0 /\ b <= meanq win)%Q).
Proof.
  intros F E. unfold stagnates. rewrite andb_true_iff, !Qle_bool_iff. unfold meanq, zlen. rewrite (last_is _ _ F), (total_is _ _ F), E.
  rewrite (Forall2_length' _ _ _ F). reflexivity.
Qed.

(* ---- the window ---- *)

Lemma firstn_snoc {B} (l : list B) n x : nth_error l n = Some x -> firstn (S n) l = firstn n l ++ [x].
Proof.
  revert l. induction n as [|n IH]; intros [|y l] H; try discriminate; cbn [nth_error] in H.
  - injection H as ->. auto.
  - change (y :: firstn (S n) l = y :: firstn n l ++ [x]). f_equal. auto.
Qed.

Lemma skipn_tl {B} (l : list B) k : skipn (S k) l = tl (skipn k l).
Proof. revert l. induction k as [|k IH]; intros [|x l]; auto. change (skipn (S k) l = tl (skipn k l)). auto. Qed.

Lemma window_move {B} (l : list B) n x : forall k, nth_error l (k + S n) = Some x ->
  firstn (S n) (skipn (S k) l) = tl (firstn (S n) (skipn k l) ++ [x]).
Proof.
  intros k. revert l. induction k as [|k IH]; intros [|y l] H; try discriminate; cbn [plus nth_error] in H.
  - cbn [skipn]. change (firstn (S n) (y :: l)) with (y :: firstn n l). cbn [app tl]. apply firstn_snoc. auto.
  - change (skipn (S (S k)) (y :: l)) with (skipn (S k) l). change (skipn (S k) (y :: l)) with (skipn k l). apply IH. auto.
Qed.

Lemma window_step accs k a : nth_error accs k = Some a -> window accs (S k) = tl (window accs k ++ [a]).
Proof.
  intros H. unfold window. apply window_move. rewrite nth_error_app2 by (cbn; lia). cbn [length]. replace (k + 5 - 5) with k by lia. auto.
Qed.

Definition stagb (accs : list Q) (k : nat) : bool :=
  match nth_error accs k with
  | Some a => Qle_bool a (last (window accs k) 0%Q) && Qle_bool a (meanq (window accs k))
  | None => false
  end.
Lemma stagb_iff accs k : stagb accs k = true <-> stagnant accs k.
Proof.
  unfold stagb, stagnant. destruct (nth_error accs k) as [a|].
  - rewrite andb_true_iff, !Qle_bool_iff. split; [intros; exists a; auto|]. intros (b & E & H). injection E as <-. auto.
  - split; [discriminate|]. intros (b & E & _). discriminate.
Qed.

Definition halts (accs : list Q) (i : nat) : list nat := filter (stagb accs) (seq 0 i).
Lemma halts_ok accs i : NoDup (halts accs i) /\ forall k, In k (halts accs i) <-> k < i /\ stagnant accs k.
Proof.
  split; [apply NoDup_filter, seq_NoDup|]. intros k. unfold halts. rewrite filter_In, in_seq, stagb_iff. intuition lia.
Qed.
Lemma halts_S accs i : halts accs (S i) = halts accs i ++ if stagb accs i then [i] else [].
Proof. unfold halts. rewrite seq_S, filter_app. cbn [plus filter]. auto. Qed.

(* ---- the rate at an epoch ---- *)

Fixpoint pow (q : Q) (n : nat) : Q := match n with O => 1 | S n' => q * pow q n' end%Q.
Lemma pow_power q n : ~ (q == 0)%Q -> (pow q n == Qpower q (Z.of_nat n))%Q.
Proof.
  intros NE. induction n as [|n IH]; [reflexivity|]. cbn [pow]. rewrite IH.
  replace (Z.of_nat (S n)) with (1 + Z.of_nat n)%Z by lia. rewrite Qpower_plus by auto. cbn. ring.
Qed.

Fixpoint before (decay : Q) (k : nat) : Q := match k with O => 1 | S k' => before decay k' * (1 + decay * inject_Z (Z.of_nat k')) end%Q.
Lemma before_decays decay k : (before decay (S k) == decays decay k)%Q.
Proof.
  induction k as [|k IH]; [cbn; ring|]. change (before decay (S (S k))) with (before decay (S k) * (1 + decay * inject_Z (Z.of_nat (S k))))%Q.
  rewrite IH. cbn [decays]. reflexivity.
Qed.

Section Loop.
Context {M T : Type} (run : Z -> Q -> M -> result M) (save : M -> str -> T) (path_of : Z -> str) (initial decay factor : Q).
Hypothesis D0 : (0 <= decay)%Q.
Hypothesis F1 : (1 <= factor)%Q.
Notation loop dev := (train_loop run save dev path_of decay factor).

Lemma growth_pos k : (1 <= 1 + decay * inject_Z (Z.of_nat k))%Q.
Proof.
  assert (0 <= decay * inject_Z (Z.of_nat k))%Q; [|lra]. apply Qmult_le_0_compat; auto. unfold Qle. cbn. lia.
Qed.

Lemma get_lr_ok k lr : exists q, get_lr (Z.of_nat k) lr decay = Ok q /\ (q == lr / (1 + decay * inject_Z (Z.of_nat k)))%Q.
Proof.
  unfold get_lr, divide. pose proof (growth_pos k) as G. destruct (Qeq_bool (1 + decay * inject_Z (Z.of_nat k)) 0) eqn:E.
  - apply Qeq_bool_iff in E. rewrite E in G. lra.
  - eexists. split; reflexivity.
Qed.

Lemma divide_ok lr : exists q, divide lr factor = Ok q /\ (q == lr / factor)%Q.
Proof.
  unfold divide. destruct (Qeq_bool factor 0) eqn:E; [apply Qeq_bool_iff in E; lra|]. eexists. split; reflexivity.
Qed.

Lemma before_pos k : (0 < before decay k)%Q.
Proof.
  induction k as [|k IH]; cbn [before]; [lra|]. pose proof (growth_pos k). apply Qmult_lt_0_compat; lra.
Qed.
Lemma pow_pos n : (0 < pow factor n)%Q.
Proof. induction n as [|n IH]; cbn [pow]; [lra|]. apply Qmult_lt_0_compat; lra. Qed.

(* the rates, for the accuracies A of the whole run *)
Lemma rates test A n : forall k lr prev m,
  Forall2 Qeq prev (window A k) -> (lr == initial / before decay k / pow factor (length (halts A k)))%Q ->
  skipn k A = map (fun y => acc_of (fst y)) (fst (snd (loop (Some test) n (Z.of_nat k) lr prev m))) ->
  forall i q, nth_error (fst (loop (Some test) n (Z.of_nat k) lr prev m)) i = Some q ->
    (q == initial / before decay (S (k + i)) / pow factor (length (halts A (k + i))))%Q.
Proof.
  induction n as [|n IH]; intros k lr prev m W E SK i q N; [destruct i; discriminate|]. cbn [train_loop] in *.
  destruct (get_lr_ok k lr) as (u & EU & HU). rewrite EU in *.
  assert (FIRST : (u == initial / before decay (S (k + 0)) / pow factor (length (halts A (k + 0))))%Q).
  { rewrite HU, E, Nat.add_0_r. cbn [before]. pose proof (growth_pos k). pose proof (before_pos k). pose proof (pow_pos (length (halts A k))).
    field. repeat split; lra. }
  assert (ONE : forall i0 (l : list Q), l = [u] -> nth_error l i0 = Some q -> i0 = 0 /\ q = u).
  { intros i0 l -> N0. destruct i0 as [|i0]; [injection N0 as <-; auto|destruct i0; discriminate]. }
  destruct (run (Z.of_nat k) u m) as [m'|e]; [|destruct (ONE _ _ eq_refl N) as [-> ->]; exact FIRST].
  destruct (test (save m' (path_of (Z.of_nat k)))) as [scores|e]; [|destruct (ONE _ _ eq_refl N) as [-> ->]; exact FIRST].
  assert (NEXT : exists u', (if stagnates prev (accuracy scores) then divide u factor else Ok u) = Ok u' /\
            (u' == if stagnates prev (accuracy scores) then u / factor else u)%Q).
  { destruct (stagnates prev (accuracy scores)); [apply divide_ok|]. eexists. split; reflexivity. }
  destruct NEXT as (u' & EU' & HU'). rewrite EU' in *.
  replace (Z.of_nat k + 1)%Z with (Z.of_nat (S k)) in * by lia.
  specialize (IH (S k) u' (tl (prev ++ [accuracy scores])) m').
  destruct (train_loop run save (Some test) path_of decay factor n (Z.of_nat (S k)) u' (tl (prev ++ [accuracy scores])) m') as [lrs ys].
  cbn [fst snd] in *.
  assert (NA : nth_error A k = Some (acc_of scores)).
  { rewrite <- (Nat.add_0_r k). rewrite <- nth_error_skipn. rewrite SK. reflexivity. }
  assert (ST : stagnates prev (accuracy scores) = stagb A k).
  { apply eq_true_iff_eq. rewrite stagb_iff. rewrite (stagnates_is _ _ _ _ W (accuracy_is scores)). unfold stagnant. rewrite NA.
    split; [intros; eexists; split; eauto|]. intros (b & Eb & H). injection Eb as <-. auto. }
  destruct i as [|i]; [injection N as <-; exact FIRST|]. cbn [nth_error] in N.
  replace (k + S i) with (S k + i) by lia. apply IH; auto.
  - rewrite (window_step _ _ _ NA). clear - W. inversion W as [|x y l l' E F EX EY]; cbn [app tl]; [constructor|].
    apply Forall2_app; auto. constructor; auto. apply accuracy_is.
  - rewrite HU', ST, halts_S, app_length. destruct (stagb A k).
    + cbn [length]. rewrite HU, E. replace (length (halts A k) + 1) with (S (length (halts A k))) by lia. cbn [before pow].
      pose proof (growth_pos k). pose proof (before_pos k). pose proof (pow_pos (length (halts A k))). field. repeat split; lra.
    + cbn [length]. rewrite Nat.add_0_r, HU, E. cbn [before].
      pose proof (growth_pos k). pose proof (before_pos k). pose proof (pow_pos (length (halts A k))). field. repeat split; lra.
  - rewrite skipn_tl, SK. reflexivity.
Qed.

Lemma rates_untested n : forall k lr prev m, (lr == initial / before decay k)%Q ->
  fst (snd (loop None n (Z.of_nat k) lr prev m)) = [] /\
  forall i q, nth_error (fst (loop None n (Z.of_nat k) lr prev m)) i = Some q -> (q == initial / before decay (S (k + i)))%Q.
Proof.
  induction n as [|n IH]; intros k lr prev m E; [split; auto; intros [|i]; discriminate|]. cbn [train_loop].
  destruct (get_lr_ok k lr) as (u & EU & HU). rewrite EU.
  assert (FIRST : (u == initial / before decay (S k))%Q).
  { rewrite HU, E. cbn [before]. pose proof (growth_pos k). pose proof (before_pos k). field. repeat split; lra. }
  destruct (run (Z.of_nat k) u m) as [m'|e].
  2:{ split; auto. intros [|i] q N; [injection N as <-; rewrite Nat.add_0_r; exact FIRST|destruct i; discriminate]. }
  replace (Z.of_nat k + 1)%Z with (Z.of_nat (S k)) by lia. destruct (IH (S k) u prev m' FIRST) as [A B].
  destruct (train_loop run save None path_of decay factor n (Z.of_nat (S k)) u prev m') as [lrs ys]. cbn [fst snd] in *. split; auto.
  intros [|i] q N; [injection N as <-; rewrite Nat.add_0_r; exact FIRST|]. replace (k + S i) with (S k + i) by lia. apply B. auto.
Qed.

Lemma falling dev n : forall k lr prev m, (0 < lr)%Q ->
  (forall i q, nth_error (fst (loop dev n (Z.of_nat k) lr prev m)) i = Some q -> 0 < q <= lr)%Q /\
  (forall i j p q, i <= j -> nth_error (fst (loop dev n (Z.of_nat k) lr prev m)) i = Some p ->
     nth_error (fst (loop dev n (Z.of_nat k) lr prev m)) j = Some q -> (q <= p)%Q).
Proof.
  induction n as [|n IH]; intros k lr prev m P; [split; [intros [|i]|intros [|i] ]; discriminate|]. cbn [train_loop].
  destruct (get_lr_ok k lr) as (u & EU & HU). rewrite EU. pose proof (growth_pos k) as G.
  assert (UP : (0 < u <= lr)%Q).
  { rewrite HU. split; [apply Qlt_shift_div_l; lra|]. apply Qle_shift_div_r; [lra|]. 
    setoid_replace lr with (lr * 1)%Q at 1 by ring. apply Qmult_le_l; auto. }
  assert (ONE : (forall i q, nth_error [u] i = Some q -> 0 < q <= lr)%Q /\
    (forall i j p q, i <= j -> nth_error [u] i = Some p -> nth_error [u] j = Some q -> (q <= p)%Q)).
  { split; [intros [|i] q N; [injection N as <-; auto|destruct i; discriminate]|].
    intros [|i] j p q L N N'; [|destruct i; discriminate]. destruct j as [|j]; [|destruct j; discriminate]. injection N as <-. injection N' as <-. lra. }
  assert (MORE : forall u' prev' m', (0 < u' <= u)%Q ->
     (forall i q, nth_error (u :: fst (loop dev n (Z.of_nat (S k)) u' prev' m')) i = Some q -> 0 < q <= lr)%Q /\
     (forall i j p q, i <= j -> nth_error (u :: fst (loop dev n (Z.of_nat (S k)) u' prev' m')) i = Some p ->
        nth_error (u :: fst (loop dev n (Z.of_nat (S k)) u' prev' m')) j = Some q -> (q <= p)%Q)).
  { intros u' prev' m' U'. destruct (IH (S k) u' prev' m' ltac:(lra)) as [A B]. split.
    - intros [|i] q N; [injection N as <-; auto|]. cbn [nth_error] in N. specialize (A _ _ N). lra.
    - intros [|i] [|j] p q L N N'; cbn [nth_error] in *; try lia.
      + injection N as <-. injection N' as <-. lra.
      + injection N as <-. specialize (A _ _ N'). lra.
      + eapply (B i j); eauto. lia. }
  destruct (run (Z.of_nat k) u m) as [m'|e]; [|exact ONE].
  replace (Z.of_nat k + 1)%Z with (Z.of_nat (S k)) by lia. destruct dev as [test|].
  - destruct (test (save m' (path_of (Z.of_nat k)))) as [scores|e]; [|exact ONE].
    assert (NEXT : exists u', (if stagnates prev (accuracy scores) then divide u factor else Ok u) = Ok u' /\ (0 < u' <= u)%Q).
    { destruct (stagnates prev (accuracy scores)).
      - destruct (divide_ok u) as (u' & E & H). exists u'. split; auto. rewrite H. split; [apply Qlt_shift_div_l; lra|].
        apply Qle_shift_div_r; [lra|]. setoid_replace u with (u * 1)%Q at 1 by ring. apply Qmult_le_l; lra.
      - exists u. split; auto. lra. }
    destruct NEXT as (u' & EU' & HU'). rewrite EU'. specialize (MORE u' (tl (prev ++ [accuracy scores])) m' HU').
    destruct (train_loop run save (Some test) path_of decay factor n (Z.of_nat (S k)) u' (tl (prev ++ [accuracy scores])) m') as [lrs ys].
    exact MORE.
  - specialize (MORE u prev m' ltac:(lra)).
    destruct (train_loop run save None path_of decay factor n (Z.of_nat (S k)) u prev m') as [lrs ys]. exact MORE.
Qed.
End Loop.

Section Epochs.
Context {M T : Type} (run : Z -> Q -> M -> result M) (save : M -> str -> T) (path_of : Z -> str) (decay factor : Q).
Notation loop dev := (train_loop run save dev path_of decay factor).

Lemma epochs_done test n : forall k lr prev m,
  (snd (snd (loop (Some test) n (Z.of_nat k) lr prev m)) = None ->
     length (fst (snd (loop (Some test) n (Z.of_nat k) lr prev m))) = n /\ length (fst (loop (Some test) n (Z.of_nat k) lr prev m)) = n) /\
  exists ms, nth_error ms 0 = Some m /\
    forall i scores tagger, nth_error (fst (snd (loop (Some test) n (Z.of_nat k) lr prev m))) i = Some (scores, tagger) ->
      exists u m1 m2, nth_error (fst (loop (Some test) n (Z.of_nat k) lr prev m)) i = Some u /\
        nth_error ms i = Some m1 /\ nth_error ms (S i) = Some m2 /\ run (Z.of_nat (k + i)) u m1 = Ok m2 /\
        tagger = save m2 (path_of (Z.of_nat (k + i))) /\ test tagger = Ok scores.
Proof.
  induction n as [|n IH]; intros k lr prev m; cbn [train_loop].
  { split; auto. exists [m]. split; auto. intros [|i]; discriminate. }
  assert (NONE : forall (ys : list (table * T)), ys = [] -> forall (Q0 : Prop), forall i st, nth_error ys i = Some st -> Q0).
  { intros ys -> Q0 [|i] st; discriminate. }
  destruct (get_lr (Z.of_nat k) lr decay) as [u|e].
  2:{ split; [discriminate|]. exists [m]. split; auto. intros i s t N. exact (NONE _ eq_refl _ _ _ N). }
  destruct (run (Z.of_nat k) u m) as [m'|e] eqn:ER.
  2:{ split; [discriminate|]. exists [m]. split; auto. intros i s t N. exact (NONE _ eq_refl _ _ _ N). }
  destruct (test (save m' (path_of (Z.of_nat k)))) as [scores|e] eqn:ET.
  2:{ split; [discriminate|]. exists [m]. split; auto. intros i s t N. exact (NONE _ eq_refl _ _ _ N). }
  destruct (if stagnates prev (accuracy scores) then divide u factor else Ok u) as [u'|e].
  2:{ split; [discriminate|]. exists [m]. split; auto. intros i s t N. exact (NONE _ eq_refl _ _ _ N). }
  replace (Z.of_nat k + 1)%Z with (Z.of_nat (S k)) by lia.
  destruct (IH (S k) u' (tl (prev ++ [accuracy scores])) m') as (A & ms & M0 & B).
  destruct (train_loop run save (Some test) path_of decay factor n (Z.of_nat (S k)) u' (tl (prev ++ [accuracy scores])) m') as [lrs [ys e]].
  cbn [fst snd length] in *. split; [intros ->; destruct (A eq_refl); auto|].
  exists (m :: ms). split; auto. intros [|i] s t N; cbn [nth_error] in N.
  - injection N as <- <-. exists u, m, m'. rewrite Nat.add_0_r. cbn [nth_error]. auto 10.
  - destruct (B i s t N) as (v & m1 & m2 & B1 & B2 & B3 & B4 & B5 & B6). exists v, m1, m2. cbn [nth_error].
    replace (k + S i) with (S k + i) by lia. auto 10.
Qed.

Lemma epochs_untested n : forall k lr prev m,
  fst (snd (loop None n (Z.of_nat k) lr prev m)) = [] /\
  (snd (snd (loop None n (Z.of_nat k) lr prev m)) = None -> length (fst (loop None n (Z.of_nat k) lr prev m)) = n).
Proof.
  induction n as [|n IH]; intros k lr prev m; cbn [train_loop]; auto.
  destruct (get_lr (Z.of_nat k) lr decay) as [u|e]; [|split; [auto|discriminate]].
  destruct (run (Z.of_nat k) u m) as [m'|e]; [|split; [auto|discriminate]].
  replace (Z.of_nat k + 1)%Z with (Z.of_nat (S k)) by lia. specialize (IH (S k) u prev m').
  destruct (train_loop run save None path_of decay factor n (Z.of_nat (S k)) u prev m') as [lrs ys]. cbn [fst snd length] in *.
  destruct IH as [A B]. split; auto.
Qed.
End Epochs.

Section Train.
Context {W M T : Type} (step : Q -> M -> list W -> result (M * Q)) (documents : Z -> result (list (list W))) (batch_size : Z)
  (save : M -> str -> T) (dev : option (T -> result table)) (dir : str).

Lemma lr_exact initial decay factor epochs m lrs ys : (0 <= decay)%Q -> (1 <= factor)%Q ->
  train step documents batch_size save dev dir initial decay factor epochs m = (lrs, ys) ->
  forall i lr, nth_error lrs i = Some lr -> exists ks, NoDup ks /\
    (forall k, In k ks <-> (k < i /\ stagnant (map (fun y => acc_of (fst y)) (fst ys)) k)) /\
    (lr == initial / decays decay i / Qpower factor (Z.of_nat (length ks)))%Q.
Proof.
  intros D F E i lr N. unfold train in E. set (A := map (fun y => acc_of (fst y)) (fst ys)).
  exists (halts A i). destruct (halts_ok A i) as [H1 H2]. split; auto. split; auto.
  rewrite <- pow_power by lra. rewrite <- before_decays. destruct dev as [test|].
  - assert (X := rates (fun e lr m => do ds <- documents e; do r <- train_epoch step batch_size ds lr m; Ok (fst r)) save
                       (fun e => path_join dir (epoch_name e)) initial decay factor D F test A (Z.to_nat epochs) 0 initial [0; 0; 0; 0; 0]%Q m).
    change (Z.of_nat 0) with 0%Z in X. rewrite E in X. cbn [fst snd plus] in X. apply X; auto.
    + unfold window. cbn. repeat constructor; reflexivity.
    + cbn. field.
  - destruct (rates_untested (fun e lr m => do ds <- documents e; do r <- train_epoch step batch_size ds lr m; Ok (fst r)) save
                       (fun e => path_join dir (epoch_name e)) initial decay factor D (Z.to_nat epochs) 0 initial [0; 0; 0; 0; 0]%Q m) as [X Y].
    { cbn. field. }
    change (Z.of_nat 0) with 0%Z in X, Y. rewrite E in X, Y. cbn [fst snd plus] in X, Y. subst A. rewrite X.
    assert (halts (map (fun y : table * T => acc_of (fst y)) []) i = []) as ->.
    { destruct (halts (map (fun y : table * T => acc_of (fst y)) []) i) as [|k l] eqn:EH; auto. exfalso.
      assert (I : In k (halts (map (fun y : table * T => acc_of (fst y)) []) i)) by (rewrite EH; left; auto).
      apply halts_ok in I. destruct I as (_ & a & Ea & _). destruct k; discriminate. }
    cbn [length pow]. rewrite (Y i lr N), Nat.add_0_l. pose proof (before_pos decay D (S i)). field. lra.
Qed.

Lemma lr_falling initial decay factor epochs m lrs ys : (0 < initial)%Q -> (0 <= decay)%Q -> (1 <= factor)%Q ->
  train step documents batch_size save dev dir initial decay factor epochs m = (lrs, ys) ->
  (forall i lr, nth_error lrs i = Some lr -> 0 < lr <= initial)%Q /\
  (forall i j p q, i <= j -> nth_error lrs i = Some p -> nth_error lrs j = Some q -> (q <= p)%Q).
Proof.
  intros P D F E. unfold train in E.
  pose proof (falling (fun e lr m => do ds <- documents e; do r <- train_epoch step batch_size ds lr m; Ok (fst r)) save
                       (fun e => path_join dir (epoch_name e)) decay factor D F dev (Z.to_nat epochs) 0 initial [0; 0; 0; 0; 0]%Q m P) as X.
  change (Z.of_nat 0) with 0%Z in X. rewrite E in X. exact X.
Qed.

Lemma decays_zero decay i : (decay == 0)%Q -> (decays decay i == 1)%Q.
Proof. intros E. induction i as [|i IH]; cbn [decays]; [reflexivity|]. rewrite IH, E. ring. Qed.

Lemma lr_constant initial decay factor epochs m lrs ys : (decay == 0)%Q -> (1 <= factor)%Q ->
  train step documents batch_size save dev dir initial decay factor epochs m = (lrs, ys) ->
  (forall k, ~ stagnant (map (fun y => acc_of (fst y)) (fst ys)) k) ->
  forall i lr, nth_error lrs i = Some lr -> (lr == initial)%Q.
Proof.
  intros D F E NS i lr N. destruct (lr_exact initial decay factor epochs m lrs ys ltac:(lra) F E i lr N) as (ks & ND & IN & H).
  destruct ks as [|k ks]; [|exfalso; apply (NS k); apply IN; left; auto]. rewrite H, (decays_zero _ _ D).
  change (Qpower factor (Z.of_nat (length (@nil nat)))) with 1%Q. field.
Qed.

Lemma train_epochs initial decay factor epochs m lrs ys :
  train step documents batch_size save dev dir initial decay factor epochs m = (lrs, ys) ->
  (snd ys = None -> length lrs = Z.to_nat epochs) /\
  match dev with
  | None => fst ys = []
  | Some test =>
      (snd ys = None -> length (fst ys) = Z.to_nat epochs) /\
      exists ms, nth_error ms 0 = Some m /\
        forall i scores tagger, nth_error (fst ys) i = Some (scores, tagger) ->
          exists lr m1 m2 docs loss, nth_error lrs i = Some lr /\ nth_error ms i = Some m1 /\ nth_error ms (S i) = Some m2 /\
            documents (Z.of_nat i) = Ok docs /\ train_epoch step batch_size docs lr m1 = Ok (m2, loss) /\
            tagger = save m2 (path_join dir (epoch_name (Z.of_nat i))) /\ test tagger = Ok scores
  end.
Proof.
  intros E. unfold train in E. set (run := fun e lr m => _) in E. destruct dev as [test|].
  - destruct (epochs_done run save (fun e => path_join dir (epoch_name e)) decay factor test (Z.to_nat epochs) 0 initial [0; 0; 0; 0; 0]%Q m) as (X & ms & M0 & B).
    change (Z.of_nat 0) with 0%Z in X, B. rewrite E in X, B. cbn [fst snd] in X, B.
    split; [intros Y; apply X; auto|]. split; [intros Y; apply X; auto|]. exists ms. split; auto.
    intros i s t N. destruct (B i s t N) as (u & m1 & m2 & B1 & B2 & B3 & B4 & B5 & B6). unfold run in B4. cbn [plus] in *.
    apply bind_ok_iff in B4. destruct B4 as (docs & E1 & B4). apply bind_ok_iff in B4. destruct B4 as ([m3 loss] & E2 & B4).
    injection B4 as <-. exists u, m1, m3, docs, loss. auto 10.
  - destruct (epochs_untested run save (fun e => path_join dir (epoch_name e)) decay factor (Z.to_nat epochs) 0 initial [0; 0; 0; 0; 0]%Q m) as [X Y].
    change (Z.of_nat 0) with 0%Z in X, Y. rewrite E in X, Y. auto.
Qed.
End Train.
