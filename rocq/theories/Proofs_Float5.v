(* Sums of scores in floating point: how far they are from the exact sums, and what that means for comparisons. *)
From Coq Require Import String Ascii ZArith NArith QArith Qabs Lia Lqa Bool List Setoid Morphisms.
From Verif Require Import Base BaseFacts Model_Datamodel Model_Conllu Model_UDEval Model_Harness Model_Float Spec_UDEval Spec_Harness Spec_Float
  Proofs_UDEval Proofs_UDEval2 Proofs_UDEval3 Proofs_UDEval4 Proofs_UDEval5 Proofs_UDEval6 Proofs_UDEval7 Proofs_UDEval8
  Proofs_Harness Proofs_Harness5 Proofs_Float Proofs_Float2 Proofs_Float3 Proofs_Float4.
Import ListNotations.
Open Scope Q_scope.

Local Notation total := Spec_UDEval.total.

(* half a unit in the last place of 1 *)
Definition eps : Q := pow2 (-53).
Lemma eps_pos : 0 < eps. Proof. apply pow2_pos. Qed.

(* ---- sums ---- *)

Lemma fsum_from_error (l : list (Q * Q)) (K : Z) : (K <= 9007199254740992)%Z ->
  (forall p, In p l -> 0 <= fst p <= 1 /\ 0 <= snd p <= 1 /\ Qabs (snd p - fst p) <= eps) ->
  forall j t, (0 <= j)%Z -> 0 <= t <= inject_Z j -> (j + zlen l <= K)%Z ->
  0 <= fsum_from snd t l <= inject_Z (j + zlen l) /\
  Qabs (fsum_from snd t l - (t + total fst l)) <= inject_Z (zlen l) * (inject_Z (K + 1) * eps).
Proof.
  intros HK. induction l as [|p l IH]; intros P j t J T B.
  - cbn [fsum_from fold_left]. change (zlen []) with 0%Z. rewrite Z.add_0_r. split; [exact T|].
    change (total fst []) with 0. assert (X : t - (t + 0) == 0) by ring. rewrite X. change (Qabs 0) with 0. change (inject_Z 0) with 0.
    pose proof eps_pos. lra.
  - destruct (P p (or_introl eq_refl)) as (U1 & U2 & U3). set (t' := to_double (t + snd p)).
    assert (Z1 : zlen (p :: l) = (zlen l + 1)%Z) by (unfold zlen; cbn [length]; lia). rewrite Z1 in *.
    assert (L0 : (0 <= zlen l)%Z) by (unfold zlen; lia).
    assert (T' : 0 <= t' <= inject_Z (j + 1)).
    { split; [apply to_double_ge; [apply double_0 | lra]|]. apply to_double_le; [apply double_Z; lia|]. rewrite inject_Z_plus. change (inject_Z 1) with 1. lra. }
    destruct (IH (fun q Iq => P q (or_intror Iq)) (j + 1)%Z t' ltac:(lia) T' ltac:(lia)) as [I1 I2].
    replace (j + (zlen l + 1))%Z with (j + 1 + zlen l)%Z by lia. cbn [fsum_from fold_left]. fold t'. fold (fsum_from (A := Q * Q) snd t' l). split; [exact I1|].
    assert (S1 : Qabs (t' - (t + fst p)) <= inject_Z (K + 1) * eps).
    { pose proof (to_double_err (t + snd p)) as E. fold eps in E. fold t' in E. rewrite (Qabs_pos (t + snd p)) in E by lra.
      assert (X : t' - (t + fst p) == (t' - (t + snd p)) + (snd p - fst p)) by ring. rewrite X.
      eapply Qle_trans; [apply Qabs_triangle|].
      assert (JK : inject_Z (j + 1) <= inject_Z K) by (rewrite <- Zle_Qle; lia). rewrite inject_Z_plus in JK. change (inject_Z 1) with 1 in JK.
      rewrite inject_Z_plus. change (inject_Z 1) with 1. pose proof eps_pos as Ep.
      assert (Y : eps * (t + snd p) <= inject_Z K * eps) by nra. lra. }
    assert (X : fsum_from snd t' l - (t + total fst (p :: l)) == (fsum_from snd t' l - (t' + total fst l)) + (t' - (t + fst p)))
      by (rewrite total_cons; ring).
    rewrite X. eapply Qle_trans; [apply Qabs_triangle|]. rewrite inject_Z_plus. change (inject_Z 1) with 1. lra.
Qed.

Lemma fsum_error (l : list (Q * Q)) : (zlen l <= 9007199254740992)%Z ->
  (forall p, In p l -> 0 <= fst p <= 1 /\ 0 <= snd p <= 1 /\ Qabs (snd p - fst p) <= eps) ->
  0 <= fsum snd l <= inject_Z (zlen l) /\
  Qabs (fsum snd l - total fst l) <= inject_Z (zlen l) * (inject_Z (zlen l + 1) * eps).
Proof.
  intros H P. destruct (fsum_from_error l (zlen l) H P 0 0) as [A B]; [lia | change (inject_Z 0) with 0; lra | lia|].
  split; [exact A|]. unfold fsum. assert (X : fsum_from snd 0 l - total fst l == fsum_from snd 0 l - (0 + total fst l)) by ring.
  rewrite X. exact B.
Qed.

(* ---- the nearest double of a number between 0 and 1 ---- *)

Lemma nearest_unit v r : 0 <= v <= 1 -> nearest_double v r -> 0 <= r <= 1 /\ Qabs (r - v) <= eps.
Proof.
  intros V (D & N). pose proof (N 0 double_0) as N0. pose proof (N 1 double_1) as N1. pose proof (N (to_double v) (double_to_double v)) as Nr.
  pose proof (to_double_err v) as E. fold eps in E. rewrite (Qabs_pos v) in E by lra.
  rewrite (Qabs_pos (v - 0)) in N0 by lra. rewrite (Qabs_neg (v - 1)) in N1 by lra.
  apply Qabs_Qle_condition in N0. apply Qabs_Qle_condition in N1. split; [lra|].
  assert (A : Qabs (r - v) == Qabs (v - r)) by (rewrite <- Qabs_opp; apply Qabs_wd; ring).
  assert (B : Qabs (v - to_double v) == Qabs (to_double v - v)) by (rewrite <- Qabs_opp; apply Qabs_wd; ring).
  pose proof eps_pos. rewrite A. rewrite B in Nr. nra.
Qed.

(* ---- sums over a table ---- *)

Lemma fl_foldM fields a t vs : Forall2 (fun f v => exists s, dict_get t f = Some s /\ get_attr a s = Some v) fields vs ->
  forall n, foldM (fun total field =>
           do t <- of_option EAttr (Some t);
           do s <- of_option EAttr (dict_get t field);
           do v <- of_option EType (get_attr a s);
           Ok (num_add total (Float v))) n fields = Ok (fold_left (fun n v => num_add n (Float v)) vs n).
Proof.
  induction 1 as [|f v fields vs (s & Es & Ev) F IH]; intro n; [reflexivity|].
  cbn [foldM fold_left of_option bind]. rewrite Es. cbn [of_option bind]. rewrite Ev. cbn [of_option bind]. apply IH.
Qed.

Lemma fl_sum_ok fields a t vs : Forall2 (fun f v => exists s, dict_get t f = Some s /\ get_attr a s = Some v) fields vs ->
  exists q, fl_score_sum fields a (Some t) = Ok q /\ q == fsum (fun v => v) vs.
Proof.
  intro F. unfold fl_score_sum. rewrite (fl_foldM fields a t vs F). cbn [rmap].
  eexists. split; [reflexivity|]. apply (num_sum_kind (fun v => v) vs).
Qed.

Lemma Qgt_true x y : Qgt x y = true <-> y < x.
Proof.
  unfold Qgt. destruct (Qcompare_spec x y) as [C | C | C]; split; intro H; try discriminate; try reflexivity; try (exfalso; lra); exact C.
Qed.
Lemma Qgt_false x y : Qgt x y = false <-> x <= y.
Proof.
  unfold Qgt. destruct (Qcompare_spec x y) as [C | C | C]; split; intro H; try discriminate; try reflexivity; try (exfalso; lra); lra.
Qed.

(* tables whose values are near to each other *)
Definition approximates (a : attr) (fields : list str) (tx t : table) : Prop :=
  forall f, In f fields -> exists sx s v r, dict_get tx f = Some sx /\ dict_get t f = Some s /\
    get_attr a sx = Some v /\ get_attr a s = Some r /\ 0 <= v <= 1 /\ 0 <= r <= 1 /\ Qabs (r - v) <= eps.

Lemma approximates_sums a fields tx t : (zlen fields <= 9007199254740992)%Z -> approximates a fields tx t ->
  exists x q, score_sum fields a (Some tx) = Ok x /\ fl_score_sum fields a (Some t) = Ok q /\
    Qabs (q - x) <= inject_Z (zlen fields) * (inject_Z (zlen fields + 1) * eps).
Proof.
  intros Z0 H.
  assert (L : exists l : list (Q * Q), zlen l = zlen fields /\
     Forall2 (fun f p => exists s, dict_get tx f = Some s /\ get_attr a s = Some (fst p)) fields l /\
     Forall2 (fun f p => exists s, dict_get t f = Some s /\ get_attr a s = Some (snd p)) fields l /\
     forall p, In p l -> 0 <= fst p <= 1 /\ 0 <= snd p <= 1 /\ Qabs (snd p - fst p) <= eps).
  { clear Z0. induction fields as [|f fields IH]; [exists []; repeat split; try constructor; contradiction|].
    destruct IH as (l & Zl & F1 & F2 & P); [intros g Ig; apply H; now right|].
    destruct (H f (or_introl eq_refl)) as (sx & s & v & r & E1 & E2 & E3 & E4 & E5 & E6 & E7).
    exists ((v, r) :: l). split; [unfold zlen in *; cbn [length]; lia|]. split; [constructor; [exists sx; auto | exact F1]|].
    split; [constructor; [exists s; auto | exact F2]|]. intros p [<- | Ip]; [auto | now apply P]. }
  destruct L as (l & Zl & F1 & F2 & P).
  destruct (worth_sum fields a tx (total fst l)) as (x & Ex & Qx).
  { exists (map fst l). split.
    - clear - F1. induction F1 as [|f p fs l (s & E & G) F IH]; constructor; auto. exists s. split; auto. destruct a; cbn [get_attr] in G; try (injection G as <-; constructor); constructor; exact G.
    - clear. induction l as [|p l IH]; [reflexivity|]. rewrite total_cons. cbn [map sumq]. rewrite IH. reflexivity. }
  destruct (fl_sum_ok fields a t (map snd l)) as (q & Eq & Qq).
  { clear - F2. induction F2 as [|f p fs l (s & E & G) F IH]; constructor; auto. exists s. auto. }
  exists x, q. split; [exact Ex|]. split; [exact Eq|]. rewrite Qx, Qq, fsum_map. rewrite <- Zl in *.
  exact (proj2 (fsum_error l Z0 P)).
Qed.
