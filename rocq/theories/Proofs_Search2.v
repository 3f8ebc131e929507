(* Two experiments with the same trainings report the same *)
From Coq Require Import String Ascii ZArith NArith QArith Bool Lia List.
From Verif Require Import Base BaseFacts Model_UDEval Model_Harness Spec_Harness Proofs_Harness Proofs_Harness4
  Model_Experiment Spec_Experiment Proofs_Experiment Proofs_Experiment2 Proofs_Experiment3 Proofs_Experiment5 Proofs_Search.
Import ListNotations.
Open Scope Z_scope.

Lemma nth_error_same {A} (l l' : list A) : length l = length l' -> (forall i x y, nth_error l i = Some x -> nth_error l' i = Some y -> x = y) -> l = l'.
Proof.
  revert l'. induction l as [|x l IH]; intros [|y l'] L H; cbn in L; try lia; auto. f_equal; [apply (H 0%nat); reflexivity|].
  apply IH; [lia|]. intros i u v. apply (H (S i)).
Qed.

Section Two.
Context {M : Type}.
Variable dirs : files M -> str -> list str.

(* settings that differ at most in what does not matter for scores *)
Definition agree (c c' : settings M) : Prop :=
  printed c' = printed c /\ fields c' = fields c /\ compared c' = compared c /\ random_seed c' = random_seed c
  /\ dev_set c' = dev_set c /\ test_set c' = test_set c.
(* the k-th training of the first is the k'-th of the second, for n seeds *)
Definition same_training (n : nat) (nt : training M) (k : nat) (nt' : training M) (k' : nat) : Prop :=
  epochs nt' k' = epochs nt k /\
  forall j, (j < n)%nat -> set_up nt' k' j = set_up nt k j
    /\ (forall seen, learn nt' k' j seen = learn nt k j seen) /\ (forall seen, adapt nt' k' j seen = adapt nt k j seen).

Lemma agree_sym c c' : agree c c' -> agree c' c.
Proof. unfold agree. intuition. Qed.

Lemma trained_agree c c' nt nt' k k' n j run : agree c c' -> same_training n nt k nt' k' -> (j < n)%nat ->
  trained c' nt' k' j run -> trained c nt k j run.
Proof.
  intros (_ & _ & _ & _ & A & _) (E & S) J (H1 & H2 & H3). destruct (S j J) as (S1 & S2 & S3). split; [congruence|]. split; [congruence|].
  intros e x Hx. destruct (H3 e x Hx) as (G1 & G2 & G3). rewrite <- S2, <- S3, <- A. auto.
Qed.

Lemma evaluated_agree c c' nt nt' k k' x : agree c c' -> same_training (length (runs_of (random_seed c))) nt k nt' k' ->
  evaluated c' nt' k' x -> evaluated c nt k x.
Proof.
  intros A S (L & T & B & Su). assert (A' := A). destruct A' as (A1 & A2 & A3 & A4 & A5 & A6). split; [congruence|]. split; [|split].
  - intros j run Hj. apply (trained_agree c c' nt nt' k k' _ j run A S); auto. rewrite <- A4, <- L. apply nth_error_Some. congruence.
  - unfold chosen in *. rewrite A2, A3 in B. exact B.
  - unfold summary in *. rewrite A4, A1 in Su. exact Su.
Qed.

Lemma scored_unique (t : tester M) (bs : list (epoch M)) : forall scs scs',
  Forall2 (fun x sc => exists text, scored t (ep_model x) text sc) bs scs ->
  Forall2 (fun x sc => exists text, scored t (ep_model x) text sc) bs scs' -> scs = scs'.
Proof.
  induction bs as [|b bs IH]; intros scs scs' H H'; inversion H as [|? ? ? ? (t1 & P1 & S1) ?]; inversion H' as [|? ? ? ? (t2 & P2 & S2) ?]; subst; auto.
  f_equal; [|apply IH; auto]. assert (t1 = t2) by congruence. congruence.
Qed.

(* what a successful experiment says *)
Definition said {P} (c : settings M) (nt : training M) (hyper : list P) (rep : report P) (k : nat) (w : candidate M) : Prop :=
  nth_error hyper k = r_params rep /\ (k < length hyper)%nat /\ evaluated c nt k w /\ r_dev rep = Some (c_scores w) /\
  match test_set c with
  | None => r_test rep = None
  | Some t => exists scs sc, Forall2 (fun x sc => exists text, scored t (ep_model x) text sc) (c_best w) scs /\
                summary c scs sc /\ r_test rep = Some sc
  end.

Lemma main_said {P} c nt (hyper : list P) fs fs' rep : hyper <> [] -> NoDup (runs_of (random_seed c)) -> printed c <> [] ->
  main c nt dirs (of_string "neural") hyper fs = (fs', Ok rep) ->
  all_compared c nt (length hyper) /\
  exists cands k w, length cands = length hyper /\ (forall i x, nth_error cands i = Some x -> evaluated c nt i x) /\
    nth_error cands k = Some w /\ said c nt hyper rep k w /\
    exists qs, ((2 <= length hyper)%nat -> Forall2 (worth (fields c) (compared c)) (map c_scores cands) qs) /\
      ((2 <= length hyper)%nat -> first_best qs k).
Proof.
  intros N ND NP H.
  assert (exists fs1 s, search_params c nt dirs Neural 0 hyper (mkSel None []) fs = (fs1, (s, None))) as (fs1 & s & HS).
  { unfold main in H. destruct (delete_after c && is_filled (model_dir c) fs); [discriminate|].
    replace (get_trainer (of_string "neural")) with (Ok Neural) in H by (vm_compute; reflexivity).
    destruct (search_params c nt dirs Neural 0 hyper (mkSel None []) fs) as (fs1 & (s & e)). cbn [snd] in H. destruct e; [discriminate|]. eauto. }
  destruct (search_compared c nt dirs hyper fs fs1 s ND (or_introl NP) HS) as (AC & WW). split; auto.
  destruct (experiment c nt dirs hyper fs fs' rep N ND (or_introl NP) H) as (cands & k & w & L & Ev & Hk & FB & Pr & De & Te & _).
  assert (K : (k < length hyper)%nat) by (rewrite <- L; apply nth_error_Some; congruence).
  exists cands, k, w. split; auto. split; auto. split; auto. split; [unfold said; auto 6|].
  destruct (le_lt_dec 2 (length hyper)) as [L2|L2]; [|exists []; split; lia].
    assert (exists qs, Forall2 (worth (fields c) (compared c)) (map c_scores cands) qs) as (qs & Q).
    { assert (F : Forall (fun x => has_worth (fields c) (compared c) (c_scores x)) cands).
      { apply Forall_forall. intros x I. apply In_nth_error in I. destruct I as (i & I).
        apply (WW L2 i x); [rewrite <- L; apply nth_error_Some; congruence|apply Ev; auto]. }
      clear -F. induction F as [|x l (q & Hq) _ (qs & IH)]; [exists []; constructor|]. exists (q :: qs). cbn [map]. constructor; auto. }
    exists qs. split; auto.
Qed.

Lemma same_said {P P'} c c' nt nt' (hyper : list P) (hyper' : list P') rep rep' k w k' w' :
  agree c c' -> all_compared c nt (length hyper) -> said c nt hyper rep k w -> said c' nt' hyper' rep' k' w' ->
  same_training (length (runs_of (random_seed c))) nt k nt' k' -> r_dev rep' = r_dev rep /\ r_test rep' = r_test rep.
Proof.
  intros A AC (_ & K & Ev & De & Te) (_ & _ & Ev' & De' & Te') S.
  assert (w = w') as <-. { eapply evaluated_unique; eauto. eapply evaluated_agree; eauto. }
  split; [congruence|]. destruct A as (A1 & _ & _ & A4 & _ & A6). rewrite A6 in Te'. destruct (test_set c) as [t|]; [|congruence].
  destruct Te as (scs & sc & F & Su & ->). destruct Te' as (scs' & sc' & F' & Su' & ->). f_equal.
  assert (scs = scs') as <- by (eapply scored_unique; eauto).
  unfold summary in Su'. rewrite A4, A1 in Su'. eapply summary_unique; eauto.
Qed.

Lemma alone {P P'} c nt (hyper : list P) fs fs' rep : hyper <> [] -> NoDup (runs_of (random_seed c)) -> printed c <> [] ->
  main c nt dirs (of_string "neural") hyper fs = (fs', Ok rep) ->
  exists k, (k < length hyper)%nat /\ nth_error hyper k = r_params rep /\
    forall c' nt' (p' : P') fs2 fs2' rep', agree c c' -> main c' nt' dirs (of_string "neural") [p'] fs2 = (fs2', Ok rep') ->
    (forall i, (i < length hyper)%nat -> same_training (length (runs_of (random_seed c))) nt i nt' 0 ->
       exists sc sc', r_dev rep = Some sc /\ r_dev rep' = Some sc' /\
         forall q q', worth (fields c) (compared c) sc q -> worth (fields c) (compared c) sc' q' -> (q' <= q)%Q) /\
    (same_training (length (runs_of (random_seed c))) nt k nt' 0 -> r_dev rep' = r_dev rep /\ r_test rep' = r_test rep).
Proof.
  intros N ND NP H. destruct (main_said c nt hyper fs fs' rep N ND NP H) as (AC & cands & k & w & L & Ev & Hk & Sa & qs & Q & FB).
  assert (Sa' := Sa). destruct Sa' as (Pr & K & Evw & De & _). exists k. split; auto. split; auto.
  intros c' nt' p' fs2 fs2' rep' A H'. assert (A' := A). destruct A' as (A1 & _ & _ & A4 & _).
  destruct (main_said c' nt' [p'] fs2 fs2' rep') as (_ & cands' & k' & w' & L' & _ & _ & Sa' & _); try congruence.
  assert (Sb := Sa'). destruct Sb as (_ & K' & Ev' & De' & _). cbn [length] in K'. assert (k' = 0%nat) as -> by lia. split.
  - intros i Hi S. exists (c_scores w), (c_scores w'). split; auto. split; auto. intros q q' Wq Wq'.
    destruct (nth_error cands i) as [x|] eqn:Hx; [|apply nth_error_None in Hx; lia].
    assert (x = w') as ->. { eapply evaluated_unique; [exact AC|exact Hi|apply Ev; auto|]. eapply evaluated_agree; eauto. }
    destruct (le_lt_dec 2 (length hyper)) as [L2|L2].
    + specialize (Q L2). specialize (FB L2). destruct FB as (qb & Hqb & Le & _).
      assert (WQ : forall m y, nth_error cands m = Some y -> exists r, nth_error qs m = Some r /\ worth (fields c) (compared c) (c_scores y) r).
      { clear -Q. intros m y Hm. revert cands Q m Hm. induction qs as [|r rs IH]; intros [|z cands] Q m Hm; inversion Q; subst; destruct m; try discriminate.
        - cbn in Hm. injection Hm as <-. exists r. auto.
        - cbn in Hm. destruct (IH cands) with (m := m) as (r' & ? & ?); auto. exists r'. auto. }
      destruct (WQ k w Hk) as (r & Hr & Wr). destruct (WQ i w' Hx) as (r' & Hr' & Wr').
      assert (qb = r) as -> by congruence. rewrite (worth_unique _ _ _ _ _ Wq Wr), (worth_unique _ _ _ _ _ Wq' Wr'). eapply Le. exact Hr'.
    + assert (i = k) as -> by lia. assert (w = w') as <- by congruence. rewrite (worth_unique _ _ _ _ _ Wq Wq'). apply Qle_refl.
  - intros S. eapply same_said; eauto.
Qed.

Lemma repeated {P} c c' nt nt' (hyper : list P) fs fs1 fs2 fs3 rep rep' : hyper <> [] -> NoDup (runs_of (random_seed c)) -> printed c <> [] ->
  agree c c' -> (forall k, (k < length hyper)%nat -> same_training (length (runs_of (random_seed c))) nt k nt' k) ->
  main c nt dirs (of_string "neural") hyper fs = (fs1, Ok rep) -> main c' nt' dirs (of_string "neural") hyper fs2 = (fs3, Ok rep') -> rep = rep'.
Proof.
  intros N ND NP A S H H'. assert (A' := A). destruct A' as (A1 & A2 & A3 & A4 & _).
  destruct (main_said c nt hyper fs fs1 rep N ND NP H) as (AC & cands & k & w & L & Ev & Hk & Sa & qs & Q & FB).
  destruct (main_said c' nt' hyper fs2 fs3 rep') as (_ & cands' & k' & w' & L' & Ev' & Hk' & Sa' & qs' & Q' & FB'); try congruence.
  assert (cands = cands') as <-.
  { apply nth_error_same; [congruence|]. intros i x y Hx Hy. assert (i < length hyper)%nat by (rewrite <- L; apply nth_error_Some; congruence).
    eapply evaluated_unique; [exact AC| |apply Ev; eauto|]; auto. eapply evaluated_agree; [exact A|apply S; auto|apply Ev'; auto]. }
  assert (Sb := Sa). destruct Sb as (Pr & K & _). assert (Sb' := Sa'). destruct Sb' as (Pr' & K' & _).
  assert (k = k') as <-.
  { destruct (le_lt_dec 2 (length hyper)) as [L2|L2]; [|lia]. specialize (Q L2). specialize (Q' L2).
    eapply first_best_unique; [exact (FB L2)|].
    assert (E : Forall2 Qeq qs qs').
    { clear -Q Q' A2 A3. rewrite A2, A3 in Q'. revert qs qs' Q Q'. induction (map c_scores cands) as [|t ts IH]; intros qs qs' Q Q';
        inversion Q; inversion Q'; subst; constructor; [|apply IH; auto]. eapply worth_unique; eauto. }
    specialize (FB' L2). clear -FB' E. destruct FB' as (q & Hq & Le & Lt).
    assert (X : forall m r, nth_error qs m = Some r -> exists r', nth_error qs' m = Some r' /\ (r == r')%Q).
    { clear -E. induction E as [|a b l l' Eab _ IH]; intros [|m] r Hm; try discriminate; cbn in *; [injection Hm as <-; eauto|auto]. }
    assert (X' : forall m r, nth_error qs' m = Some r -> exists r', nth_error qs m = Some r' /\ (r' == r)%Q).
    { clear -E. induction E as [|a b l l' Eab _ IH]; intros [|m] r Hm; try discriminate; cbn in *; [injection Hm as <-; eauto|auto]. }
    destruct (X' k' q Hq) as (q0 & Hq0 & E0). exists q0. split; auto. split.
    - intros j r Hr. destruct (X j r Hr) as (r' & Hr' & Er). rewrite Er, E0. eapply Le. exact Hr'.
    - intros j r Hj Hr. destruct (X j r Hr) as (r' & Hr' & Er). rewrite Er, E0. eapply Lt; [exact Hj|exact Hr']. }
  destruct (same_said c c' nt nt' hyper hyper rep rep' k w k w' A AC Sa Sa' (S k K)) as (D & T).
  destruct rep as [rp rd rt], rep' as [rp' rd' rt']. cbn [r_params r_dev r_test] in *. congruence.
Qed.
End Two.
