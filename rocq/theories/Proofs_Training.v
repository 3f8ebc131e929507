(* Shuffled data sets and minibatches *)
From Coq Require Import String ZArith NArith QArith Bool Lia Permutation List.
From Verif Require Import Base BaseFacts Proofs_Datamodel Model_UDEval Model_Harness Spec_Harness Model_Training Spec_Training.
Import ListNotations.
Open Scope nat_scope.

Section Shuffle.
Context {A R : Type} (seed_of : Z -> R) (below : R -> Z -> Z * R).
Hypothesis RANGE : in_range below.

Lemma swap_ok (l : list A) i j : i < length l -> j < length l -> exists l', swap l i j = Ok l' /\ Permutation l l'.
Proof.
  intros Li Lj. unfold swap. destruct (nth_error l i) as [x|] eqn:Ex; [|apply nth_error_None in Ex; lia].
  destruct (nth_error l j) as [y|] eqn:Ey; [|apply nth_error_None in Ey; lia]. eexists. split; [reflexivity|].
  apply Permutation_nth_error. split; [rewrite !set_nth_length; auto|].
  exists (fun n => if n =? i then j else if n =? j then i else n). split.
  - intros n m. destruct (Nat.eqb_spec n i), (Nat.eqb_spec m i), (Nat.eqb_spec n j), (Nat.eqb_spec m j); subst; intros; subst; congruence.
  - intros n. destruct (Nat.eqb_spec n i) as [->|N1].
    + destruct (Nat.eq_dec i j) as [<-|NE]; [rewrite set_nth_same; [congruence|rewrite set_nth_length; auto]|].
      rewrite set_nth_other by congruence. rewrite set_nth_same; auto.
    + destruct (Nat.eqb_spec n j) as [->|N2]; [rewrite set_nth_same; [congruence|rewrite set_nth_length; auto]|].
      rewrite !set_nth_other; auto.
Qed.

Lemma shuffle_from_ok i : forall (l : list A) r, i < length l \/ i = 0 ->
  exists l' r', shuffle_from below i l r = Ok (l', r') /\ Permutation l l'.
Proof.
  induction i as [|i IH]; intros l r L; cbn [shuffle_from]; [eauto|].
  pose proof (RANGE r (Z.of_nat (S i) + 1)%Z ltac:(lia)) as B. destruct (below r (Z.of_nat (S i) + 1)%Z) as [j r1]. cbn [fst] in B.
  destruct (swap_ok l (S i) (Z.to_nat j)) as (l1 & E & P); [lia|lia|]. rewrite E. cbn [bind].
  destruct (IH l1 r1) as (l2 & r2 & E2 & P2); [rewrite <- (Permutation_length P); lia|].
  exists l2, r2. split; auto. etransitivity; eauto.
Qed.

Lemma shuffle_ok (l : list A) r : exists l' r', shuffle below l r = Ok (l', r') /\ Permutation l l'.
Proof. unfold shuffle. apply shuffle_from_ok. destruct l; cbn; lia. Qed.

Lemma randrange_ok a b r : (a < b)%Z -> exists x r', randrange below a b r = Ok (x, r') /\ (a <= x < b)%Z.
Proof.
  intros L. unfold randrange. destruct (Z.ltb_spec a b) as [_|N]; [|lia]. pose proof (RANGE r (b - a)%Z ltac:(lia)) as B.
  destruct (below r (b - a)%Z) as [x r']. cbn [fst] in B. exists (a + x)%Z, r'. split; auto. lia.
Qed.

Lemma quot_half bs : (1 <= bs -> 1 <= Z.quot bs 2 + 1 < bs + 1)%Z.
Proof.
  intros H. rewrite Z.quot_div_nonneg by lia. pose proof (Z.div_pos bs 2 ltac:(lia) ltac:(lia)).
  assert (bs / 2 < bs)%Z by (apply Z.div_lt; lia). lia.
Qed.

Lemma split_ok bs : (1 <= bs)%Z -> forall fuel (data : list A) r, length data < fuel ->
  exists out chunks, split_batches below bs fuel data r = Ok out /\ concat chunks = data /\
    Forall2 (fun c o => Permutation c o /\ (Z.of_nat (length c) <= bs)%Z) chunks out.
Proof.
  intros B. induction fuel as [|fuel IH]; intros data r L; [lia|]. cbn [split_batches].
  pose proof (quot_half bs B) as Q. destruct (randrange_ok (Z.quot bs 2 + 1) (bs + 1) r ltac:(lia)) as (x & r1 & E & X).
  rewrite E. cbn [bind fst snd]. destruct data as [|d data].
  { rewrite firstn_nil. exists [], []. split; auto. }
  destruct (Z.to_nat x) as [|n] eqn:EX; [lia|]. cbn [firstn skipn].
  destruct (shuffle_ok (d :: firstn n data) r1) as (l' & r2 & E2 & P2). rewrite E2. cbn [bind fst snd].
  destruct (IH (skipn n data) r2) as (out & chunks & E3 & C & F); [rewrite skipn_length; cbn [length] in L; lia|].
  rewrite E3. cbn [bind]. exists (l' :: out), ((d :: firstn n data) :: chunks). split; auto. split.
  - cbn [concat app]. rewrite C, firstn_skipn. auto.
  - constructor; auto. split; auto. cbn [length]. rewrite firstn_length. lia.
Qed.

Lemma combine_seq {B} (l : list B) : forall n, map snd (combine (seq n (length l)) l) = l /\ map fst (combine (seq n (length l)) l) = seq n (length l) /\
  forall i x, In (i, x) (combine (seq n (length l)) l) -> n <= i /\ nth_error l (i - n) = Some x.
Proof.
  induction l as [|x l IH]; intros n; cbn [length seq combine map]; [repeat split; auto; contradiction|].
  destruct (IH (S n)) as (E1 & E2 & E3). split; [f_equal; auto|]. split; [f_equal; auto|].
  intros i y [E|I]; [injection E as <- <-; rewrite Nat.sub_diag; split; auto|].
  destruct (E3 i y I) as [L N]. split; [lia|]. replace (i - n) with (S (i - S n)) by lia. exact N.
Qed.

Lemma perm_index {B} (l l' : list B) : Permutation l l' -> exists p, Permutation p (seq 0 (length l)) /\ Forall2 (fun i x => nth_error l i = Some x) p l'.
Proof.
  intros P. destruct (combine_seq l 0) as (E1 & E2 & E3). apply Permutation_sym in P. rewrite <- E1 in P at 1.
  apply Permutation_map_inv in P. destruct P as (l3 & -> & P). exists (map fst l3). split.
  - rewrite <- E2. apply Permutation_map. apply Permutation_sym. auto.
  - assert (F : Forall (fun ix => nth_error l (fst ix) = Some (snd ix)) l3).
    { apply Forall_forall. intros [i x] I. apply (Permutation_in _ (Permutation_sym P)) in I. apply E3 in I. rewrite Nat.sub_0_r in I. apply I. }
    clear - F. induction F as [|[i x] l3 H F IH]; cbn; constructor; auto.
Qed.

Lemma chunks_moved bs (chunks out : list (list A)) :
  Forall2 (fun c o => Permutation c o /\ (Z.of_nat (length c) <= bs)%Z) chunks out -> moved_less bs (concat chunks) (concat out).
Proof.
  induction 1 as [|c o chunks out [P L] F (p & PP & FP & D)]; cbn [concat].
  - exists []. split; [constructor|]. split; [constructor|]. intros [|q] i; discriminate.
  - destruct (perm_index c o P) as (p1 & P1 & F1). pose proof (Permutation_length P1) as L1. rewrite seq_length in L1.
    exists (p1 ++ map (fun i => length c + i) p). split; [|split].
    + rewrite app_length, seq_app. apply Permutation_app; auto. rewrite Nat.add_0_l.
      replace (seq (length c) (length (concat chunks))) with (map (fun i => length c + i) (seq 0 (length (concat chunks)))); [apply Permutation_map; auto|].
      generalize (length (concat chunks)) (length c). clear. intros n k.
      assert (G : forall m, map (fun i => k + i) (seq m n) = seq (k + m) n).
      { induction n as [|n IH]; intros m; cbn [seq map]; auto. f_equal. rewrite IH. f_equal. lia. }
      rewrite G. f_equal. lia.
    + apply Forall2_app.
      * clear - F1. induction F1 as [|i x p1 o N F1 IH]; constructor; auto. rewrite nth_error_app1; auto. apply nth_error_Some. congruence.
      * clear - FP. induction FP as [|i x p o N FP IH]; cbn [map]; constructor; auto. rewrite nth_error_app2 by lia.
        replace (length c + i - length c) with i by lia. auto.
    + intros q i N. destruct (Nat.lt_ge_cases q (length p1)) as [LT|GE].
      * rewrite nth_error_app1 in N by auto. assert (I : In i (seq 0 (length c))) by (apply (Permutation_in _ P1); eapply nth_error_In; eauto).
        apply in_seq in I. lia.
      * rewrite nth_error_app2 in N by auto. rewrite nth_error_map in N. destruct (nth_error p (q - length p1)) as [i'|] eqn:E; [|discriminate].
        cbn in N. injection N as <-. specialize (D _ _ E). lia.
Qed.

Lemma pass_ok bs r (data : list A) : (1 <= bs)%Z ->
  exists out, snd (shuffled_pass seed_of below bs r data) = Ok out /\ moved_less bs data out.
Proof.
  intros B. unfold shuffled_pass. destruct (below r 1000000%Z) as [s r']. cbn [snd].
  destruct (split_ok bs B (S (length data)) data (seed_of s) ltac:(lia)) as (out & chunks & E & C & F). rewrite E. cbn [bind].
  exists (concat out). split; auto. rewrite <- C. apply chunks_moved. auto.
Qed.

Lemma passes_ok bs seed (datas : list (list A)) : (1 <= bs)%Z ->
  Forall2 (fun d o => exists out, o = Ok out /\ moved_less bs d out) datas (passes seed_of below bs seed datas).
Proof.
  intros B. unfold passes. generalize (seed_of seed). induction datas as [|d datas IH]; intros r; cbn [passes_from]; [constructor|].
  pose proof (pass_ok bs r d B) as (out & E & M). destruct (shuffled_pass seed_of below bs r d) as [r' o]. cbn [snd] in E. constructor; eauto.
Qed.
End Shuffle.

Lemma passes_same {A R} (seed_of : Z -> R) below bs seed (datas datas' : list (list A)) k :
  nth_error datas k = nth_error datas' k -> nth_error (passes seed_of below bs seed datas) k = nth_error (passes seed_of below bs seed datas') k.
Proof.
  unfold passes. generalize (seed_of seed). revert datas datas'. induction k as [|k IH]; intros datas datas' r H.
  - destruct datas as [|d datas], datas' as [|d' datas']; cbn in H; try discriminate; auto. injection H as <-.
    cbn [passes_from]. destruct (shuffled_pass seed_of below bs r d). auto.
  - destruct datas as [|d datas], datas' as [|d' datas']; cbn [nth_error] in H; try discriminate; auto.
    + cbn [passes_from nth_error]. unfold shuffled_pass. destruct (below r 1000000%Z) as [x r'].
      rewrite <- (IH [] datas' r'); [destruct k; reflexivity|]. destruct k; auto.
    + cbn [passes_from nth_error]. unfold shuffled_pass. destruct (below r 1000000%Z) as [x r'].
      rewrite (IH datas [] r'); [destruct k; reflexivity|]. destruct k; auto.
    + cbn [passes_from nth_error]. unfold shuffled_pass. destruct (below r 1000000%Z) as [x r']. cbn [nth_error]. apply IH. auto.
Qed.

Lemma passes_refused {A R} (seed_of : Z -> R) below bs seed (datas : list (list A)) : (bs <= 0)%Z ->
  Forall (fun o => o = Err EValue) (passes seed_of below bs seed datas).
Proof.
  intros B. unfold passes. generalize (seed_of seed). induction datas as [|d datas IH]; intros r; cbn [passes_from]; [constructor|].
  unfold shuffled_pass. destruct (below r 1000000%Z) as [x r']. constructor; auto. cbn [split_batches]. unfold randrange.
  assert (Z.quot bs 2 + 1 >= bs + 1)%Z.
  { assert (0 - Z.quot (- bs) 2 >= bs)%Z; [|rewrite <- (Z.opp_involutive bs) at 1; rewrite Z.quot_opp_l by lia; lia].
    rewrite Z.quot_div_nonneg by lia. pose proof (Z.div_le_upper_bound (- bs) 2 (- bs)). lia. }
  destruct (Z.ltb_spec (Z.quot bs 2 + 1) (bs + 1)); [lia|]. auto.
Qed.

(* ---- minibatches ---- *)

Section Batches.
Context {W M : Type}.

Lemma zlen_snoc {B} (l : list B) x : (zlen (l ++ [x]) = zlen l + 1)%Z.
Proof. unfold zlen. rewrite app_length. cbn. lia. Qed.

Definition full (size : Z) (ps : list (list W)) : Prop := Forall (fun p => zlen p = size) ps.

Lemma take_all bs (sents : list W) : forall done wait, full (Z.max 1 bs) done -> (zlen wait < Z.max 1 bs)%Z ->
  let (done', wait') := fold_left (take_sentence bs) sents (done, wait) in
  full (Z.max 1 bs) done' /\ (zlen wait' < Z.max 1 bs)%Z /\ concat done' ++ wait' = concat done ++ wait ++ sents.
Proof.
  induction sents as [|s sents IH]; intros done wait F L; cbn [fold_left].
  - split; auto. split; auto. rewrite app_nil_r. auto.
  - unfold take_sentence at 2. cbn [fst snd]. pose proof (zlen_snoc wait s) as Z1. assert (0 <= zlen wait)%Z by (unfold zlen; lia).
    destruct (Z.leb_spec bs (zlen (wait ++ [s]))) as [LE|GT].
    + specialize (IH (done ++ [wait ++ [s]]) []). destruct (fold_left (take_sentence bs) sents (done ++ [wait ++ [s]], [])) as [done' wait'].
      destruct IH as (A & B & C).
      * apply Forall_app. split; auto. constructor; auto. lia.
      * unfold zlen. cbn. lia.
      * split; auto. split; auto. rewrite C, concat_app. cbn [concat]. rewrite app_nil_r, <- !app_assoc. auto.
    + specialize (IH done (wait ++ [s])). destruct (fold_left (take_sentence bs) sents (done, wait ++ [s])) as [done' wait'].
      destruct IH as (A & B & C); auto; [lia|]. split; auto. split; auto. rewrite C, <- app_assoc. auto.
Qed.

Lemma batches_pieces bs (docs : list (list W)) : pieces (Z.max 1 bs) (concat docs) (minibatches bs docs).
Proof.
  unfold minibatches.
  assert (E : forall s, fold_left (fun s d => fold_left (take_sentence bs) d s) docs s = fold_left (take_sentence bs) (concat docs) s).
  { induction docs as [|d docs IH]; intros s; cbn [fold_left concat]; auto. rewrite IH, fold_left_app. auto. }
  rewrite E. pose proof (take_all bs (concat docs) [] [] ltac:(constructor) ltac:(unfold zlen; cbn; lia)) as T.
  destruct (fold_left (take_sentence bs) (concat docs) ([], [])) as [done wait]. destruct T as (F & L & C). cbn [concat app] in C.
  assert (FULL : forall i p, nth_error done i = Some p -> zlen p = Z.max 1 bs).
  { intros i p N. unfold full in F. rewrite Forall_forall in F. apply F. eapply nth_error_In; eauto. }
  destruct wait as [|w wait].
  - rewrite app_nil_r in C. split; auto. intros i p N. rewrite (FULL i p N). lia.
  - split; [rewrite concat_app; cbn [concat]; rewrite app_nil_r; auto|]. intros i p N. rewrite app_length. cbn [length].
    destruct (Nat.lt_ge_cases i (length done)) as [LT|GE].
    + rewrite nth_error_app1 in N by auto. rewrite (FULL i p N). lia.
    + rewrite nth_error_app2 in N by auto. destruct (i - length done) as [|k] eqn:EK; [|destruct k; discriminate]. injection N as <-.
      split; [unfold zlen in *; cbn [length] in *; lia|lia].
Qed.

Lemma epoch_steps (step : Q -> M -> list W -> result (M * Q)) bs docs lr m m' ls : concat docs <> [] ->
  steps (step lr) m (minibatches bs docs) m' ls -> exists q, train_epoch step bs docs lr m = Ok (m', q) /\ (q == meanq ls)%Q.
Proof.
  intros NE ST. unfold train_epoch.
  assert (G : forall q0, exists q, foldM (fun s b => do r <- step lr (fst s) b; Ok (fst r, (snd s + snd r)%Q)) (m, q0) (minibatches bs docs) = Ok (m', q) /\ (q == q0 + sumq ls)%Q).
  { clear NE. induction ST as [m|m b l m1 x m2 ls E ST IH]; intros q0; cbn [foldM fst snd].
    - exists q0. split; auto. cbn. ring.
    - rewrite E. cbn [bind fst snd]. destruct (IH (q0 + x)%Q) as (q & Eq & Hq). exists q. split; auto. rewrite Hq. cbn [sumq]. ring. }
  destruct (G 0%Q) as (q & E & H). rewrite E. cbn [bind fst snd].
  assert (LEN : length (minibatches bs docs) = length ls).
  { clear - ST. induction ST; cbn; auto. }
  destruct (batches_pieces bs docs) as [C _]. destruct (minibatches bs docs) as [|b batches] eqn:EB; [cbn in C; congruence|].
  eexists. split; [reflexivity|]. unfold meanq. rewrite H. unfold zlen. rewrite LEN. apply Qdiv_comp; [ring|reflexivity].
Qed.

Lemma epoch_empty (step : Q -> M -> list W -> result (M * Q)) bs docs lr m : concat docs = [] -> train_epoch step bs docs lr m = Err EZeroDiv.
Proof.
  intros E. unfold train_epoch. destruct (batches_pieces bs docs) as [C P]. rewrite E in C.
  destruct (minibatches bs docs) as [|b l]; auto. exfalso. destruct (P 0 b eq_refl) as [X _]. cbn in C. apply app_eq_nil in C. destruct C as [-> _].
  unfold zlen in X. cbn in X. lia.
Qed.

Lemma epoch_inv (step : Q -> M -> list W -> result (M * Q)) bs docs lr m m' q :
  train_epoch step bs docs lr m = Ok (m', q) -> exists ls, steps (step lr) m (minibatches bs docs) m' ls /\ (q == meanq ls)%Q.
Proof.
  intros E.
  assert (G : exists ls, steps (step lr) m (minibatches bs docs) m' ls).
  { unfold train_epoch in E. apply bind_ok_iff in E. destruct E as ((m2 & x) & E & E2). cbn [fst snd] in E2.
    assert (m2 = m') as -> by (destruct (minibatches bs docs); [discriminate|injection E2; auto]). clear E2. revert E. generalize (0%Q).
    generalize m. induction (minibatches bs docs) as [|b l IH]; intros m0 q0 E; cbn [foldM fst snd] in E.
    - injection E as <- _. exists []. constructor.
    - apply bind_ok_iff in E. destruct E as ([m1 y] & E1 & E). cbn [fst snd] in *. apply bind_ok_iff in E1. destruct E1 as ([m3 z] & E1 & E3).
      injection E3 as <- _. destruct (IH _ _ E) as (ls & ST). exists (z :: ls). econstructor; eauto. }
  destruct G as (ls & ST). exists ls. split; auto. destruct (concat docs) as [|w ws] eqn:EC; [rewrite epoch_empty in E by auto; discriminate|].
  destruct (epoch_steps step bs docs lr m m' ls ltac:(congruence) ST) as (q' & E' & H). rewrite E in E'. injection E' as ->. auto.
Qed.
End Batches.
