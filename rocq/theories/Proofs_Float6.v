(* Comparisons of models in floating point. *)
From Coq Require Import String Ascii ZArith NArith QArith Qabs Lia Lqa Bool List Setoid Morphisms.
From Verif Require Import Base BaseFacts Model_Datamodel Model_Conllu Model_UDEval Model_Harness Model_Float Spec_UDEval Spec_Harness Spec_Float
  Proofs_UDEval Proofs_UDEval2 Proofs_UDEval3 Proofs_UDEval4 Proofs_UDEval5 Proofs_UDEval6 Proofs_UDEval7 Proofs_UDEval8
  Proofs_Harness Proofs_Harness5 Proofs_Float Proofs_Float2 Proofs_Float3 Proofs_Float4 Proofs_Float5.
Import ListNotations.
Open Scope Q_scope.

Local Notation total := Spec_UDEval.total.

(* ---- the rows of the tables ---- *)

Lemma evaluate_present lower tg ts gold system weights f : load_conllu tg = Ok gold -> load_conllu ts = Ok system ->
  evaluate lower gold system weights = Ok f -> forall m, m <> MWeightedLAS -> exists s, f m = Some s.
Proof.
  intros Lg Ls E m N. unfold evaluate in E. destruct (raise_if _ _); [|discriminate]. cbn [bind] in E.
  destruct (align lower _ _) as [pairs|]; [|discriminate]. cbn [bind] in E. injection E as <-.
  destruct m; cbn [metric_score]; eauto. contradiction.
Qed.

Lemma fl_present lower gold system weights f :
  fl_evaluate lower gold system weights = Ok f -> forall m, m <> MWeightedLAS -> exists s, f m = Some s.
Proof.
  intros E m N. unfold fl_evaluate in E. destruct (raise_if _ _); [|discriminate]. cbn [bind] in E.
  destruct (align lower _ _) as [pairs|]; [|discriminate]. cbn [bind] in E. injection E as <-.
  destruct m; cbn [fl_metric_score]; eauto. contradiction.
Qed.

Lemma counts_weighted m : counts m = true -> m <> MWeightedLAS.
Proof. intros C ->. discriminate. Qed.

(* an attribute of a metric: aligned accuracy is there if the metric compares something *)
Definition has_attr (a : attr) (m : metric) : Prop := a = AAligned -> compared m <> None.

Lemma rounds_attr a sx s v : rounds sx s -> get_attr a sx = Some v -> exists r, get_attr a s = Some r /\ r == to_double v.
Proof.
  intros (P & R & F & A) E. destruct a; cbn [get_attr] in *; try (injection E as <-; eauto).
  rewrite E in A. destruct (s_aligned s) as [b|]; [eauto | contradiction].
Qed.

Lemma unit_attr a (sx : score) v : unit_interval (s_precision sx) -> unit_interval (s_recall sx) -> unit_interval (s_f1 sx) ->
  (forall q, s_aligned sx = Some q -> unit_interval q) -> get_attr a sx = Some v -> 0 <= v <= 1.
Proof. intros P R F A E. destruct a; cbn [get_attr] in E; try (injection E as <-; assumption). now apply A. Qed.

Lemma scores_attr a sx c g s al m : scores sx c g s (match compared m with None => None | Some _ => Some al end) -> has_attr a m ->
  exists v, get_attr a sx = Some v.
Proof.
  intros (_ & _ & _ & A) H. destruct a; cbn [get_attr]; eauto. destruct (compared m) as [x|] eqn:C; [|exfalso; now apply H].
  destruct (s_aligned sx); [eauto | contradiction].
Qed.

(* ---- several metrics, for outputs with the tokens of the gold file ---- *)

Section Same.
Variables (lower : str -> str) (tg ts : str) (gold system : ud) (weights : option (dict Q)) (fx f : metric -> option score).
Hypotheses (Lg : load_conllu tg = Ok gold) (Ls : load_conllu ts = Ok system) (Ex : evaluate lower gold system weights = Ok fx)
  (Ef : fl_evaluate lower gold system weights = Ok f).

Lemma row_exact m : m <> MWeightedLAS -> exists s, fx m = Some s /\ dict_get (table_of fx) (metric_name m) = Some s.
Proof.
  intro N. pose proof (evaluate_present _ _ _ _ _ _ _ Lg Ls Ex) as H. destruct (H m N) as (s & E). exists s. split; [exact E|].
  now apply table_of_get.
Qed.
Lemma row_float m : m <> MWeightedLAS -> exists s, f m = Some s /\ dict_get (table_of f) (metric_name m) = Some s.
Proof.
  intro N. pose proof (fl_present _ _ _ _ _ Ef) as H. destruct (H m N) as (s & E). exists s. split; [exact E|]. now apply table_of_get.
Qed.

Lemma exact_attr a m s : has_attr a m -> fx m = Some s -> exists v, get_attr a s = Some v.
Proof.
  intros H E. unfold evaluate in Ex. destruct (raise_if _ _); [|discriminate]. cbn [bind] in Ex.
  destruct (align lower _ _) as [pairs|]; [|discriminate]. cbn [bind] in Ex. injection Ex as <-.
  destruct a; cbn [get_attr]; eauto. assert (C : compared m <> None) by now apply H.
  destruct m; cbn [metric_score compared] in *; try contradiction; try (injection E as <-; cbn; eauto).
  destruct weights; [|discriminate]. injection E as <-. cbn. eauto.
Qed.

Lemma rows_approximate a ms : Forall (fun m => counts m = true /\ has_attr a m) ms ->
  approximates a (map metric_name ms) (table_of fx) (table_of f).
Proof.
  intros H k Ik. apply in_map_iff in Ik. destruct Ik as (m & <- & Im). rewrite Forall_forall in H. destruct (H m Im) as [C A].
  destruct (row_exact m (counts_weighted m C)) as (sx & E1 & G1). destruct (row_float m (counts_weighted m C)) as (s & E2 & G2).
  pose proof (fl_rounds lower tg ts gold system weights fx f m sx s Lg Ls Ex Ef E1 E2 (or_introl C)) as R.
  destruct (exact_attr a m sx A E1) as (v & Ev). destruct (rounds_attr a sx s v R Ev) as (r & Er & Qr).
  assert (U : 0 <= v <= 1).
  { assert (Wn : weights_nonneg (None : option (dict Q))) by (intros d k q; discriminate).
    assert (E' : evaluate lower gold system None = Ok (match evaluate lower gold system None with Ok g => g | Err _ => fx end)).
    { unfold evaluate in *. destruct (raise_if _ _); [|discriminate]. cbn [bind] in *. destruct (align lower _ _); [reflexivity | discriminate]. }
    set (g := match evaluate lower gold system None with Ok g => g | Err _ => fx end) in E'.
    assert (Eg : g m = Some sx).
    { rewrite <- E1. unfold g. clear - Ex C. unfold evaluate in *. destruct (raise_if _ _); [|discriminate]. cbn [bind] in *.
      destruct (align lower _ _); [|discriminate]. cbn [bind] in *. injection Ex as <-. destruct m; try discriminate; reflexivity. }
    destruct (evaluate_unit lower tg ts gold system None g m sx Lg Ls Wn E' Eg) as (U1 & U2 & U3 & U4 & _).
    now apply (unit_attr a sx v). }
  destruct (nearest_unit v r) as [Ur Er']; [exact U | now apply ieee_of |].
  exists sx, s, v, r. repeat split; auto; lra.
Qed.

Lemma values_multiple a ms x : same_tokenization gold system -> u_words gold <> [] ->
  Forall (fun m => counts m = true /\ compared m <> None) ms ->
  score_sum (map metric_name ms) a (Some (table_of fx)) = Ok x ->
  exists z, x * count (u_words gold) == inject_Z z.
Proof.
  intros ST Nw H Es. apply sum_worth in Es. destruct Es as (vs & F & Qx).
  destruct (same_scores lower tg ts gold system weights Lg Ls ST) as (fx' & Ex' & _ & _ & _ & M).
  assert (fx' = fx) as -> by congruence.
  pose proof (same_length gold system ST) as SL.
  assert (N0 : ~ count (u_words gold) == 0).
  { unfold count. intro X. apply Nw. destruct (u_words gold); auto. cbn [length] in X. change 0 with (inject_Z 0) in X. rewrite inject_Z_injective in X. lia. }
  assert (V : forall v, In v vs -> exists z, v * count (u_words gold) == inject_Z z).
  { intros v Iv. assert (X : exists k sx, In k (map metric_name ms) /\ dict_get (table_of fx) k = Some sx /\ attribute a sx v).
    { clear - F Iv. induction F as [|k w ks vs (sx & G & A) F IH]; [destruct Iv|]. destruct Iv as [<- | Iv].
      - exists k, sx. split; [now left | auto].
      - destruct (IH Iv) as (k' & sx' & I1 & I2). exists k', sx'. split; [now right | auto]. }
    destruct X as (k & sx & Ik & G & At). apply in_map_iff in Ik. destruct Ik as (m & <- & Im).
    rewrite Forall_forall in H. destruct (H m Im) as [C Cm].
    destruct (row_exact m (counts_weighted m C)) as (sx' & E1 & G1). assert (sx' = sx) as -> by congruence.
    destruct (M m sx Cm E1) as (good & _ & (P & R & F1 & A)).
    assert (W : forall l : list word, total (metric_weight weights m) l == count l).
    { intro l. rewrite <- (total_count l). apply total_ext. intros w _. destruct m; try discriminate; reflexivity. }
    assert (Wg : total (fun p => metric_weight weights m (fst p)) good == count good).
    { rewrite <- (total_count good). apply total_ext. intros w _. destruct m; try discriminate; reflexivity. }
    assert (Cs : count (u_words system) == count (u_words gold)) by (unfold count; now rewrite SL).
    exists (Z.of_nat (length good)). change (inject_Z (Z.of_nat (length good))) with (count good).
    assert (Fr : forall c d q, fraction c d q -> c == count good -> d == count (u_words gold) -> q * count (u_words gold) == count good).
    { intros c d q [_ Fq] Ec Ed. rewrite <- Ec, <- Ed. apply Fq. rewrite Ed. exact N0. }
    inversion At as [s E | s E | s E | s q E]; subst.
    - eapply Fr; [exact P | exact Wg |]. now rewrite W, Cs.
    - eapply Fr; [exact R | exact Wg |]. now rewrite W.
    - destruct F1 as [_ F1]. assert (Z1 : s_f1 sx * (count (u_words gold) + count (u_words gold)) == 2 * count good).
      { assert (Y : total (metric_weight weights m) (u_words system) + total (metric_weight weights m) (u_words gold) == count (u_words gold) + count (u_words gold))
          by (now rewrite !W, Cs). rewrite <- Y, <- Wg. apply F1. rewrite Y. intro Z2. apply N0. lra. }
      lra.
    - rewrite E in A. eapply Fr; [exact A | exact Wg | apply W]. }
  clear - V Qx. revert x Qx. induction vs as [|v vs IH]; intros x Qx; cbn [sumq] in Qx.
  - exists 0%Z. rewrite Qx. change (inject_Z 0) with 0. ring.
  - destruct (V v (or_introl eq_refl)) as (z & Ez). destruct (IH (fun w Iw => V w (or_intror Iw)) (sumq vs) ltac:(reflexivity)) as (y & Ey).
    exists (z + y)%Z. rewrite Qx, inject_Z_plus, <- Ez, <- Ey. ring.
Qed.

End Same.

Lemma pow2_52_eps : eps * inject_Z 9007199254740992 == 1.
Proof. reflexivity. Qed.

(* the float sums are in the order of different exact sums *)
Lemma order_kept (n : Z) (N : Q) x1 x2 q1 q2 z1 z2 : (0 <= n)%Z -> 0 < N ->
  inject_Z (n * (n + 1)) * N < inject_Z 4503599627370496 ->
  Qabs (q1 - x1) <= inject_Z n * (inject_Z (n + 1) * eps) -> Qabs (q2 - x2) <= inject_Z n * (inject_Z (n + 1) * eps) ->
  x1 * N == inject_Z z1 -> x2 * N == inject_Z z2 -> x1 < x2 -> q1 < q2.
Proof.
  intros Hn HN B E1 E2 Z1 Z2 L. apply Qabs_Qle_condition in E1. apply Qabs_Qle_condition in E2.
  assert (D : (z1 + 1 <= z2)%Z).
  { assert (X : inject_Z z1 < inject_Z z2) by (rewrite <- Z1, <- Z2; nra). rewrite <- Zlt_Qlt in X. lia. }
  rewrite Zle_Qle, inject_Z_plus in D. change (inject_Z 1) with 1 in D. rewrite <- Z1, <- Z2 in D.
  rewrite inject_Z_mult in B. pose proof pow2_52_eps as P. pose proof eps_pos as Ep.
  assert (Eh : 2 * eps * inject_Z 4503599627370496 == 1) by reflexivity.
  set (E := inject_Z n * (inject_Z (n + 1) * eps)) in *.
  assert (G : 2 * E * N < 1).
  { assert (X : 2 * E * N == (2 * eps) * (inject_Z n * inject_Z (n + 1) * N)) by (unfold E; ring). rewrite X.
    assert (Y : 0 < 2 * eps) by lra. rewrite <- Eh. apply Qmult_lt_l; assumption. }
  assert (K : (x2 - x1 - 2 * E) * N > 0) by lra.
  assert (K' : 0 < x2 - x1 - 2 * E).
  { destruct (Qlt_le_dec 0 (x2 - x1 - 2 * E)) as [Y | Y]; [exact Y|]. exfalso. nra. }
  lra.
Qed.

Lemma order_several lower tg t1 t2 gold s1 s2 w1 w2 fx1 f1 fx2 f2 ms a x1 x2 :
  load_conllu tg = Ok gold -> load_conllu t1 = Ok s1 -> load_conllu t2 = Ok s2 ->
  same_tokenization gold s1 -> same_tokenization gold s2 ->
  evaluate lower gold s1 w1 = Ok fx1 -> fl_evaluate lower gold s1 w1 = Ok f1 ->
  evaluate lower gold s2 w2 = Ok fx2 -> fl_evaluate lower gold s2 w2 = Ok f2 ->
  Forall (fun m => counts m = true /\ compared m <> None) ms ->
  (zlen ms * (zlen ms + 1) * zlen (u_words gold) < 4503599627370496)%Z -> (zlen ms <= 9007199254740992)%Z ->
  score_sum (map metric_name ms) a (Some (table_of fx1)) = Ok x1 ->
  score_sum (map metric_name ms) a (Some (table_of fx2)) = Ok x2 ->
  (x2 < x1 -> fl_compare_scores (map metric_name ms) a (Some (table_of f1)) (Some (table_of f2)) = Ok true) /\
  (x1 < x2 -> fl_compare_scores (map metric_name ms) a (Some (table_of f1)) (Some (table_of f2)) = Ok false).
Proof.
  intros Lg L1 L2 T1 T2 E1 F1 E2 F2 Hm B Bl S1 S2.
  assert (Hm' : Forall (fun m => counts m = true /\ has_attr a m) ms).
  { eapply Forall_impl; [|exact Hm]. intros m [C D]. split; [exact C|]. intros _. exact D. }
  assert (Zn : zlen (map metric_name ms) = zlen ms) by (unfold zlen; now rewrite map_length).
  pose proof (rows_approximate lower tg t1 gold s1 w1 fx1 f1 Lg L1 E1 F1 a ms Hm') as A1.
  pose proof (rows_approximate lower tg t2 gold s2 w2 fx2 f2 Lg L2 E2 F2 a ms Hm') as A2.
  destruct (approximates_sums a _ _ _ ltac:(rewrite Zn; exact Bl) A1) as (y1 & q1 & Y1 & Q1 & D1).
  destruct (approximates_sums a _ _ _ ltac:(rewrite Zn; exact Bl) A2) as (y2 & q2 & Y2 & Q2 & D2).
  assert (y1 = x1) as -> by congruence. assert (y2 = x2) as -> by congruence. rewrite Zn in D1, D2.
  assert (C : fl_compare_scores (map metric_name ms) a (Some (table_of f1)) (Some (table_of f2)) = Ok (Qgt q1 q2))
    by (unfold fl_compare_scores; rewrite Q1; cbn [bind]; rewrite Q2; reflexivity).
  rewrite C.
  destruct (u_words gold) as [|w0 ws] eqn:Ew.
  - (* all sums are 0 *)
    assert (Zero : forall ts s w fx y, load_conllu ts = Ok s -> same_tokenization gold s -> evaluate lower gold s w = Ok fx ->
              score_sum (map metric_name ms) a (Some (table_of fx)) = Ok y -> y == 0).
    { intros ts s w fx y Ly Ty Ey Sy. apply sum_worth in Sy. destruct Sy as (vs & F & Qy).
      destruct (same_scores lower tg ts gold s w Lg Ly Ty) as (fx' & Ex' & _ & _ & _ & M). assert (fx' = fx) as -> by congruence.
      pose proof (same_length gold s Ty) as SL. rewrite Ew in SL. symmetry in SL. apply length_zero_iff_nil in SL.
      assert (V : forall v, In v vs -> v == 0).
      { intros v Iv. assert (X : exists k sx, In k (map metric_name ms) /\ dict_get (table_of fx) k = Some sx /\ attribute a sx v).
        { clear - F Iv. induction F as [|k u ks vs (sx & G & A) F IH]; [destruct Iv|]. destruct Iv as [<- | Iv].
          - exists k, sx. split; [now left | auto].
          - destruct (IH Iv) as (k' & sx' & I1 & I2). exists k', sx'. split; [now right | auto]. }
        destruct X as (k & sx & Ik & G & At). apply in_map_iff in Ik. destruct Ik as (m & <- & Im).
        rewrite Forall_forall in Hm. destruct (Hm m Im) as [Cm Km].
        destruct (row_exact lower tg ts gold s w fx Lg Ly Ey m (counts_weighted m Cm)) as (sx' & E1' & G1). assert (sx' = sx) as -> by congruence.
        destruct (M m sx Km E1') as (good & _ & (P & R & Fq & A)). rewrite Ew, SL in *.
        inversion At as [s' E | s' E | s' E | s' q E]; subst; [apply P | apply R | apply Fq | rewrite E in A; apply A]; reflexivity. }
      rewrite Qy. clear - V. induction vs as [|v vs IH]; [reflexivity|]. cbn [sumq]. rewrite (V v (or_introl eq_refl)), IH; [reflexivity|].
      intros u Iu. apply V. now right. }
    pose proof (Zero t1 s1 w1 fx1 x1 L1 T1 E1 S1). pose proof (Zero t2 s2 w2 fx2 x2 L2 T2 E2 S2). split; intro; exfalso; lra.
  - assert (Nw : u_words gold <> []) by (rewrite Ew; discriminate).
    destruct (values_multiple lower tg t1 gold s1 w1 fx1 Lg L1 E1 a ms x1 T1 Nw Hm S1) as (z1 & Z1).
    destruct (values_multiple lower tg t2 gold s2 w2 fx2 Lg L2 E2 a ms x2 T2 Nw Hm S2) as (z2 & Z2).
    assert (HN : 0 < count (u_words gold)) by (unfold count; change 0 with (inject_Z 0); rewrite <- Zlt_Qlt, Ew; cbn [length]; lia).
    assert (B' : inject_Z (zlen ms * (zlen ms + 1)) * count (u_words gold) < inject_Z 4503599627370496).
    { unfold count. rewrite <- inject_Z_mult, <- Zlt_Qlt, Ew. exact B. }
    assert (Hn : (0 <= zlen ms)%Z) by (unfold zlen; lia).
    split; intro L; f_equal.
    + apply Qgt_true. eapply (order_kept (zlen ms) (count (u_words gold))); eauto.
    + apply Qgt_false. assert (q1 < q2); [|lra]. eapply (order_kept (zlen ms) (count (u_words gold)) x1 x2); eauto.
Qed.
