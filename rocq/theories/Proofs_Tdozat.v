(* Proofs about the tdozat wrapper: the store of predictions and single tokens. *)
From Coq Require Import String Ascii ZArith NArith Bool Lia Permutation Sorted List.
From Verif Require Import Base BaseFacts Model_Datamodel Spec_Datamodel Proofs_Datamodel Proofs_Syntax Proofs_Datamodel2
  Proofs_Datamodel4 Model_Conllu Proofs_Conllu6 Model_Processors Spec_Processors Proofs_Processors Proofs_Processors2
  Model_Tdozat Spec_Tdozat.
Import ListNotations.
Open Scope Z_scope.

(* ------------------------------------------------------------------ *)
(* argsort *)

Lemma map_nth_seq {A} (d : A) (l : list A) : map (fun i => nth i l d) (seq 0 (length l)) = l.
Proof.
  induction l as [|x l IH]; [reflexivity|]. cbn [length seq map nth]. f_equal. rewrite <- seq_shift, map_map. exact IH.
Qed.

Lemma seq_sorted n : forall a, StronglySorted Z.le (map Z.of_nat (seq a n)).
Proof.
  induction n as [|n IH]; intros a; cbn [seq map]; constructor; auto.
  apply Forall_forall. intros x H. apply in_map_iff in H. destruct H as (k & <- & H). apply in_seq in H. lia.
Qed.

Lemma sorted_map {A B} (f : A -> B) (R : B -> B -> Prop) l : StronglySorted (fun x y => R (f x) (f y)) l -> StronglySorted R (map f l).
Proof.
  induction 1 as [|x l H IH F]; cbn [map]; constructor; auto. apply Forall_forall. intros y J. apply in_map_iff in J.
  destruct J as (z & <- & J). rewrite Forall_forall in F. auto.
Qed.

Lemma argsort_range argsort l total : sorting argsort -> Permutation l (map Z.of_nat (seq 0 total)) ->
  forall n, (n < total)%nat -> exists r, nth_error (argsort l) n = Some r /\ nth_error l r = Some (Z.of_nat n).
Proof.
  intros S P n Hn. destruct (S l) as [P' Os].
  assert (E : map (fun i => nth i l 0) (argsort l) = map Z.of_nat (seq 0 total)).
  { apply sorted_perm_eq with (R := Z.le).
    - intros x y H1 H2. lia.
    - rewrite <- P. etransitivity; [apply Permutation_map; exact P'|]. rewrite map_nth_seq. reflexivity.
    - apply sorted_map. exact Os.
    - apply seq_sorted. }
  assert (L : length l = total) by (rewrite (Permutation_length P), map_length, seq_length; auto).
  pose proof (f_equal (fun x => nth_error x n) E) as F. cbn beta in F. rewrite !nth_error_map in F.
  assert (G : nth_error (seq 0 total) n = Some n) by (rewrite (nth_error_nth' _ 0%nat) by (rewrite seq_length; auto); rewrite seq_nth by auto; reflexivity).
  rewrite G in F. cbn [option_map] in F.
  destruct (nth_error (argsort l) n) as [r|] eqn:Er; [|discriminate]. cbn [option_map] in F. injection F as F. exists r. split; auto.
  assert (R : (r < length l)%nat).
  { apply nth_error_In in Er. eapply Permutation_in in Er; [|exact P']. apply in_seq in Er. lia. }
  rewrite <- F. apply nth_error_nth'. auto.
Qed.

(* ------------------------------------------------------------------ *)
(* the store *)

Lemma indices_fold bs : forall p, indices (fold_left cache bs p) = indices p ++ concat (map fst bs).
Proof.
  induction bs as [|b bs IH]; intros p; cbn [fold_left map concat]; [rewrite app_nil_r; auto|]. rewrite IH. cbn [cache indices]. rewrite app_assoc. auto.
Qed.

Definition or_nil (o : option rows) : rows := match o with Some r => r | None => [] end.

Lemma cache_get b p f : NoDup (dict_keys (snd b)) ->
  dict_get (cached (cache p b)) f = match dict_get (snd b) f with Some r => Some (or_nil (dict_get (cached p) f) ++ r) | None => dict_get (cached p) f end.
Proof.
  destruct b as [ns vs]. cbn [snd cache cached]. generalize (cached p) as c. induction vs as [|[k r] vs IH]; intros c N; cbn [fold_left dict_get]; [auto|].
  cbn [dict_keys map fst] in N. inversion N as [|? ? N1 N2]; subst. rewrite IH by auto. cbn [fst snd].
  destruct (str_eqb f k) eqn:E.
  - apply str_eqb_eq in E. subst f. assert (G : dict_get vs k = None) by (apply dict_get_None; exact N1).
    rewrite G. rewrite dict_get_set_same. reflexivity.
  - assert (f <> k) by (intros X; subst; rewrite str_eqb_refl in E; discriminate).
    rewrite dict_get_set_other by auto. auto.
Qed.

Lemma fold_get f bs : forall p, Forall (fun b => NoDup (dict_keys (snd b))) bs -> Forall (fun b => In f (dict_keys (snd b))) bs -> bs <> [] ->
  dict_get (cached (fold_left cache bs p)) f = Some (or_nil (dict_get (cached p) f) ++ concat (map (fun b => or_nil (dict_get (snd b) f)) bs)).
Proof.
  induction bs as [|b bs IH]; intros p N F E; [congruence|]. inversion N as [|? ? N1 N2]; subst. inversion F as [|? ? F1 F2]; subst. cbn [fold_left map concat].
  assert (G : exists r, dict_get (snd b) f = Some r).
  { destruct (dict_get (snd b) f) eqn:X; eauto. apply dict_get_None in X. contradiction. }
  destruct G as (r & G). destruct bs as [|b' bs].
  - cbn [fold_left map concat]. rewrite cache_get by auto. rewrite G. cbn [or_nil]. rewrite app_nil_r. auto.
  - rewrite IH by (auto; discriminate). rewrite cache_get by auto. rewrite G. cbn [or_nil]. rewrite app_assoc. auto.
Qed.

Lemma fold_get_none f bs : forall p, Forall (fun b => NoDup (dict_keys (snd b))) bs -> Forall (fun b => ~ In f (dict_keys (snd b))) bs ->
  dict_get (cached (fold_left cache bs p)) f = dict_get (cached p) f.
Proof.
  induction bs as [|b bs IH]; intros p N F; [auto|]. inversion N as [|? ? N1 N2]; subst. inversion F as [|? ? F1 F2]; subst. cbn [fold_left].
  rewrite IH by auto. rewrite cache_get by auto. apply dict_get_None in F1. rewrite F1. auto.
Qed.

Lemma concat_aligned {A B C} (f : A -> list B) (g : A -> list C) l : Forall (fun x => length (g x) = length (f x)) l ->
  forall r x, nth_error (concat (map f l)) r = Some x -> exists a m, In a l /\ nth_error (f a) m = Some x /\ nth_error (concat (map g l)) r = nth_error (g a) m.
Proof.
  induction 1 as [|a l H F IH]; intros r x E; cbn [map concat] in *; [destruct r; discriminate|].
  destruct (Nat.lt_ge_cases r (length (f a))).
  - rewrite nth_error_app1 in E by auto. exists a, r. split; [left; auto|]. split; auto. apply nth_error_app1. lia.
  - rewrite nth_error_app2 in E by auto. destruct (IH _ _ E) as (b & m & I & E1 & E2). exists b, m. split; [right; auto|]. split; auto.
    rewrite nth_error_app2 by lia. rewrite H. auto.
Qed.

Section Store.
Variable bs : list batch.
Hypothesis REG : regular bs.
Hypothesis ND : NoDup (concat (map fst bs)).
Let p := fold_left cache bs empty_store.

Lemma provided_all f : provided bs f -> Forall (fun b => In f (dict_keys (snd b))) bs /\ bs <> [].
Proof.
  intros (b & I & K). split; [|intros ->; destruct I]. apply Forall_forall. intros b' I'. destruct REG as (R & _). eapply R; eauto.
Qed.
Lemma keys_distinct : Forall (fun b => NoDup (dict_keys (snd b))) bs.
Proof. apply Forall_forall. apply REG. Qed.

Lemma store_provided f : dict_mem (cached p) f = true <-> provided bs f.
Proof.
  split; intros H.
  - destruct (existsb (fun b => dict_mem (snd b) f) bs) eqn:E.
    + apply existsb_exists in E. destruct E as (b & I & E). exists b. split; auto. apply dict_mem_In. auto.
    + apply dict_mem_In in H. assert (X : dict_get (cached p) f = None).
      { unfold p. rewrite fold_get_none; [reflexivity|apply keys_distinct|]. apply Forall_forall. intros b I J. apply dict_mem_In in J.
        assert (existsb (fun b => dict_mem (snd b) f) bs = true) by (apply existsb_exists; eauto). congruence. }
      apply dict_get_None in X. contradiction.
  - destruct (provided_all f H) as [F N]. apply dict_mem_In. unfold p.
    pose proof (fold_get f bs empty_store keys_distinct F N) as G. apply dict_get_In in G. apply (in_map fst) in G. exact G.
Qed.

Lemma store_rows f n r : nth_error (concat (map fst bs)) r = Some (Z.of_nat n) -> provided bs f ->
  exists rs, dict_get (cached p) f = Some rs /\ forall row, nth_error rs r = Some row <-> gives bs f n row.
Proof.
  intros E P. destruct (provided_all f P) as [F N].
  pose proof (fold_get f bs empty_store keys_distinct F N) as G. cbn [empty_store cached dict_get or_nil app] in G.
  eexists. split; [exact G|]. clear G.
  assert (L : Forall (fun b => length (or_nil (dict_get (snd b) f)) = length (fst b)) bs).
  { apply Forall_forall. intros b I. destruct REG as (_ & R & _). destruct (dict_get (snd b) f) as [x|] eqn:X; [eapply R; eauto|].
    rewrite Forall_forall in F. apply dict_get_None in X. exfalso. apply X, F, I. }
  intros row. split.
  - intros H. destruct (concat_aligned fst (fun b => or_nil (dict_get (snd b) f)) bs L r _ E) as (b & m & I & E1 & E2).
    pose proof (eq_trans (eq_sym H) E2) as E3. clear E2. rename E3 into E2. destruct b as [ns vs]. cbn [fst snd] in *. destruct (dict_get vs f) as [rs|] eqn:X; cbn [or_nil] in E2; [|destruct m; discriminate].
    exists ns, vs, rs, m. auto.
  - intros (ns & vs & rs & m & I & E1 & E2 & E3).
    apply in_split in I. destruct I as (l1 & l2 & I). rewrite I in L, E, ND |- *. rewrite map_app, concat_app in E, ND. rewrite map_app, concat_app. cbn [map concat fst snd] in *.
    rewrite E2. cbn [or_nil]. apply Forall_app in L. destruct L as [L1 L2]. inversion L2 as [|? ? L3 L4]; subst. cbn [fst snd] in L3. rewrite E2 in L3. cbn [or_nil] in L3.
    assert (LL : length (concat (map (fun b => or_nil (dict_get (snd b) f)) l1)) = length (concat (map fst l1))).
    { clear -L1. induction L1 as [|b l H _ IH]; [auto|]. cbn [map concat]. rewrite !app_length. congruence. }
    assert (r = (length (concat (map fst l1)) + m)%nat).
    { eapply NoDup_nth_error; [exact ND|apply nth_error_Some; congruence|]. rewrite E. symmetry. rewrite nth_error_app2 by lia.
      replace (_ + m - _)%nat with m by lia. rewrite nth_error_app1; [auto|]. apply nth_error_Some. congruence. }
    subst r. rewrite nth_error_app2 by lia. rewrite LL. replace (_ + m - _)%nat with m by lia. rewrite nth_error_app1; auto. apply nth_error_Some. congruence.
Qed.

Lemma py_index_nat {A} (l : list A) i : py_index l (Z.of_nat i) = match nth_error l i with Some x => Ok x | None => Err EIndex end.
Proof.
  unfold py_index. destruct (Z.ltb_spec (Z.of_nat i) 0); [lia|]. destruct (Z.ltb_spec (Z.of_nat i) 0); [lia|]. rewrite Nat2Z.id.
  destruct (nth_error l i); reflexivity.
Qed.
End Store.
