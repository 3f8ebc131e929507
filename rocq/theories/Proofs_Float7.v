(* Comparisons of models by one metric in floating point. *)
From Coq Require Import String Ascii ZArith NArith QArith Qabs Lia Lqa Bool List Setoid Morphisms.
From Verif Require Import Base BaseFacts Model_Datamodel Model_Conllu Model_UDEval Model_Harness Model_Float Spec_UDEval Spec_Harness Spec_Float
  Proofs_UDEval Proofs_UDEval2 Proofs_UDEval3 Proofs_UDEval4 Proofs_UDEval5 Proofs_UDEval6 Proofs_UDEval7 Proofs_UDEval8
  Proofs_Harness Proofs_Harness5 Proofs_Float Proofs_Float2 Proofs_Float3 Proofs_Float4 Proofs_Float5 Proofs_Float6.
Import ListNotations.
Open Scope Q_scope.

Local Notation total := Spec_UDEval.total.

Definition quotient (n : Z) (v : Q) : Prop := exists c d : Z, (0 < d <= n)%Z /\ v * inject_Z d == inject_Z c.

Lemma fraction_quotient n c d q : fraction (inject_Z c) (inject_Z d) q -> (0 <= d <= n)%Z -> (1 <= n)%Z -> quotient n q.
Proof.
  intros [F0 F1] D N. destruct (Z.eq_dec d 0) as [-> | D0].
  - exists 0%Z, 1%Z. split; [lia|]. rewrite F0 by reflexivity. reflexivity.
  - exists c, d. split; [lia|]. apply F1. change 0 with (inject_Z 0). rewrite inject_Z_injective. exact D0.
Qed.

Lemma fraction_comp a b q a' b' : fraction a b q -> a == a' -> b == b' -> fraction a' b' q.
Proof. intros [F0 F1] A B. split; intro H; [apply F0; now rewrite B | rewrite <- A, <- B; apply F1; now rewrite B]. Qed.

Lemma scores_quotient n a sx (c g s : Z) (al : option Z) v : scores sx (inject_Z c) (inject_Z g) (inject_Z s) (option_map inject_Z al) ->
  (1 <= n)%Z -> (0 <= g <= n)%Z -> (0 <= s <= n)%Z -> (forall z, al = Some z -> 0 <= z <= n)%Z ->
  get_attr a sx = Some v -> quotient (2 * n) v.
Proof.
  intros (P & R & F & A) N1 G S0 Al E. destruct a; cbn [get_attr] in E; try (injection E as <-).
  - eapply fraction_quotient; [exact P | lia | lia].
  - eapply fraction_quotient; [exact R | lia | lia].
  - apply (fraction_quotient (2 * n) (2 * c) (s + g)); [|lia|lia].
    eapply fraction_comp; [exact F | now rewrite inject_Z_mult | now rewrite inject_Z_plus].
  - rewrite E in A. destruct al as [z|]; [|contradiction]. cbn [option_map] in A. specialize (Al z eq_refl).
    eapply fraction_quotient; [exact A | lia | lia].
Qed.

Lemma subseq_length {A} (l l' : list A) : subseq l l' -> (length l <= length l')%nat.
Proof. induction 1; cbn [length]; lia. Qed.

Lemma value_quotient n lower tg ts gold system weights fx m sx a v :
  load_conllu tg = Ok gold -> load_conllu ts = Ok system -> evaluate lower gold system weights = Ok fx ->
  (1 <= n)%Z -> up_to n gold -> up_to n system -> counts m = true -> fx m = Some sx -> get_attr a sx = Some v -> quotient (2 * n) v.
Proof.
  intros Lg Ls Ex N1 (G1 & G2 & G3) (S1 & S2 & S3) C Em Ev.
  assert (Ch : u_chars gold = u_chars system).
  { unfold evaluate in Ex. destruct (str_eqb (u_chars gold) (u_chars system)) eqn:X; [now apply str_eqb_eq | discriminate]. }
  destruct (evaluate_meaning lower tg ts gold system weights Lg Ls Ch) as (f' & pairs & E' & A & _ & Mt & Ms & Mo).
  rewrite Ex in E'. injection E' as <-. unfold zlen in *.
  destruct (metric_dec m MTokens) as [->|Nt].
  { destruct Mt as (sc & xs & E1 & _ & E2). assert (sc = sx) as -> by congruence.
    eapply (scores_quotient n a sx _ _ _ None); [exact E2 | lia | lia | lia | discriminate | exact Ev]. }
  destruct (metric_dec m MSentences) as [->|Ns].
  { destruct Ms as (sc & xs & E1 & _ & E2). assert (sc = sx) as -> by congruence.
    eapply (scores_quotient n a sx _ _ _ None); [exact E2 | lia | lia | lia | discriminate | exact Ev]. }
  destruct (Mo m Nt Ns) as [_ Mo']. destruct (Mo' sx Em) as (good & _ & (P & R & F & Al)).
  destruct (aligned_matching _ _ _ _ A) as (M1 & _). apply subseq_length in M1. rewrite map_length in M1.
  assert (W : forall l : list word, total (metric_weight weights m) l == count l).
  { intro l. rewrite <- (total_count l). apply total_ext. intros w _. destruct m; try discriminate; reflexivity. }
  assert (Wp : forall l : list (word * word), total (fun p => metric_weight weights m (fst p)) l == count l).
  { intro l. rewrite <- (total_count l). apply total_ext. intros w _. destruct m; try discriminate; reflexivity. }
  apply (scores_quotient n a sx (Z.of_nat (length good)) (Z.of_nat (length (u_words gold))) (Z.of_nat (length (u_words system)))
           (match compared m with None => None | Some _ => Some (Z.of_nat (length pairs)) end) v); try lia; try exact Ev.
  - split; [|split; [|split]].
    + eapply fraction_comp; [exact P | apply Wp | apply W].
    + eapply fraction_comp; [exact R | apply Wp | apply W].
    + eapply fraction_comp; [exact F | now rewrite Wp | now rewrite !W].
    + destruct (compared m); cbn [option_map]; [|exact Al]. destruct (s_aligned sx); [|exact Al].
      eapply fraction_comp; [exact Al | apply Wp | apply Wp].
  - intros z E. destruct (compared m); [|discriminate]. injection E as <-. lia.
Qed.

(* rounding keeps the order of quotients of small numbers *)
Lemma quotient_order x y : 0 <= x -> x < y -> y <= 1 -> quotient 67108864 x -> quotient 67108864 y -> to_double x < to_double y.
Proof.
  intros X L Y (c & d & D & Ed) (c' & d' & D' & Ed').
  pose proof (to_double_err x) as E1. pose proof (to_double_err y) as E2. fold eps in E1, E2.
  rewrite (Qabs_pos x) in E1 by lra. rewrite (Qabs_pos y) in E2 by lra.
  apply Qabs_Qle_condition in E1. apply Qabs_Qle_condition in E2.
  assert (Pd : 0 < inject_Z d) by (change 0 with (inject_Z 0); rewrite <- Zlt_Qlt; lia).
  assert (Pd' : 0 < inject_Z d') by (change 0 with (inject_Z 0); rewrite <- Zlt_Qlt; lia).
  assert (Bd : inject_Z d * inject_Z d' <= inject_Z 4503599627370496).
  { rewrite <- inject_Z_mult, <- Zle_Qle. nia. }
  assert (Pp : 0 < inject_Z d * inject_Z d') by (apply Qmult_lt_0_compat; assumption).
  assert (I0 : (x - y) * (inject_Z d * inject_Z d') == inject_Z (c * d' - c' * d)).
  { unfold Zminus. rewrite inject_Z_plus, inject_Z_opp, !inject_Z_mult, <- Ed, <- Ed'. ring. }
  assert (Neg : (c * d' - c' * d <= -1)%Z).
  { assert (Q0 : inject_Z (c * d' - c' * d) < inject_Z 0).
    { rewrite <- I0. change (inject_Z 0) with 0. nra. }
    rewrite <- Zlt_Qlt in Q0. lia. }
  rewrite Zle_Qle, <- I0 in Neg. change (inject_Z (-1)) with (-(1)) in Neg.
  assert (H : 1 <= (y - x) * inject_Z 4503599627370496) by nra.
  assert (Eh : 2 * eps * inject_Z 4503599627370496 == 1) by reflexivity.
  pose proof eps_pos as Ep.
  assert (G : 2 * eps <= y - x).
  { destruct (Qlt_le_dec (y - x) (2 * eps)) as [K | K]; [exfalso | exact K].
    assert (P0 : 0 < inject_Z 4503599627370496) by reflexivity. nra. }
  assert (Z0 : eps * x + eps * y < 2 * eps) by nra. lra.
Qed.

Lemma quotient_order_eq x y : x == y -> to_double x == to_double y.
Proof. intro E. now rewrite E. Qed.

Lemma order_one lower tg t1 t2 gold s1 s2 w1 w2 fx1 f1 fx2 f2 m a :
  load_conllu tg = Ok gold -> load_conllu t1 = Ok s1 -> load_conllu t2 = Ok s2 ->
  up_to 33554432 gold -> up_to 33554432 s1 -> up_to 33554432 s2 ->
  evaluate lower gold s1 w1 = Ok fx1 -> fl_evaluate lower gold s1 w1 = Ok f1 ->
  evaluate lower gold s2 w2 = Ok fx2 -> fl_evaluate lower gold s2 w2 = Ok f2 ->
  counts m = true -> (a = AAligned -> compared m <> None) ->
  exists b, compare_scores [metric_name m] a (Some (table_of fx1)) (Some (table_of fx2)) = Ok b /\
    fl_compare_scores [metric_name m] a (Some (table_of f1)) (Some (table_of f2)) = Ok b.
Proof.
  intros Lg L1 L2 Ug U1 U2 E1 F1 E2 F2 C Ha.
  assert (One : forall ts s w fx f, load_conllu ts = Ok s -> up_to 33554432 s -> evaluate lower gold s w = Ok fx -> fl_evaluate lower gold s w = Ok f ->
     exists x q v, score_sum [metric_name m] a (Some (table_of fx)) = Ok x /\ fl_score_sum [metric_name m] a (Some (table_of f)) = Ok q /\
       x == v /\ q == to_double v /\ 0 <= v <= 1 /\ quotient 67108864 v).
  { intros ts s w fx f Ls Us Ex Ef.
    destruct (row_exact lower tg ts gold s w fx Lg Ls Ex m (counts_weighted m C)) as (sx & X1 & X2).
    destruct (row_float lower gold s w f Ef m (counts_weighted m C)) as (sf & Y1 & Y2).
    pose proof (fl_rounds lower tg ts gold s w fx f m sx sf Lg Ls Ex Ef X1 Y1 (or_introl C)) as R.
    destruct (exact_attr lower gold s w fx f Ex Ef a m sx Ha X1) as (v & Ev). destruct (rounds_attr a sx sf v R Ev) as (r & Er & Qr).
    pose proof (rows_approximate lower tg ts gold s w fx f Lg Ls Ex Ef a [m] (Forall_cons _ (conj C Ha) (Forall_nil _))) as Ap.
    destruct (Ap (metric_name m) (or_introl eq_refl)) as (sx' & s' & v' & r' & A1 & A2 & A3 & A4 & A5 & _).
    assert (sx' = sx) as -> by congruence. assert (v' = v) as -> by congruence.
    destruct (worth_sum [metric_name m] a (table_of fx) v) as (x & Sx & Qx).
    { exists [v]. split; [|cbn [sumq]; ring]. constructor; [|constructor]. exists sx. split; auto.
      destruct a; cbn [get_attr] in Ev; try (injection Ev as <-; constructor); constructor; exact Ev. }
    destruct (fl_sum_ok [metric_name m] a (table_of f) [r]) as (q & Sq & Qq).
    { constructor; [|constructor]. exists sf. auto. }
    exists x, q, v. split; [exact Sx|]. split; [exact Sq|]. split; [exact Qx|]. split.
    - rewrite Qq. unfold fsum, fsum_from. cbn [fold_left].
      assert (D : double (to_double v)) by apply double_to_double.
      assert (Z0 : 0 + r == to_double v) by (rewrite Qr; ring). rewrite Z0. now apply to_double_exact.
    - split; [exact A5|]. exact (value_quotient 33554432 lower tg ts gold s w fx m sx a v Lg Ls Ex ltac:(lia) Ug Us C X1 Ev). }
  destruct (One t1 s1 w1 fx1 f1 L1 U1 E1 F1) as (x1 & q1 & v1 & A1 & B1 & C1 & D1 & V1 & K1).
  destruct (One t2 s2 w2 fx2 f2 L2 U2 E2 F2) as (x2 & q2 & v2 & A2 & B2 & C2 & D2 & V2 & K2).
  exists (Qgt x1 x2). unfold compare_scores, fl_compare_scores. rewrite A1, B1. cbn [bind]. rewrite A2, B2. cbn [bind].
  split; [reflexivity|]. f_equal.
  destruct (Qlt_le_dec v2 v1) as [L | L].
  - pose proof (quotient_order v2 v1 (proj1 V2) L (proj2 V1) K2 K1). transitivity true; [|symmetry]; apply Qgt_true; lra.
  - transitivity false; [|symmetry]; apply Qgt_false; [|lra]. rewrite D1, D2. now apply to_double_mono.
Qed.
