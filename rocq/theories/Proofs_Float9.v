(* Averages of reported tables; the outcomes of the two evaluations. *)
From Coq Require Import String Ascii ZArith NArith QArith Qabs Lia Lqa Bool List Setoid Morphisms.
From Verif Require Import Base BaseFacts Model_Datamodel Model_Conllu Model_UDEval Model_Harness Model_Float Spec_UDEval Spec_Harness Spec_Float
  Proofs_UDEval Proofs_UDEval2 Proofs_UDEval3 Proofs_UDEval4 Proofs_UDEval5 Proofs_UDEval6 Proofs_UDEval7 Proofs_UDEval8
  Proofs_Harness Proofs_Harness5 Proofs_Float Proofs_Float2 Proofs_Float3 Proofs_Float4 Proofs_Float5 Proofs_Float6 Proofs_Float8.
Import ListNotations.
Open Scope Q_scope.

Local Notation total := Spec_UDEval.total.

Lemma metric_name_inj m m' : metric_name m = metric_name m' -> m = m'.
Proof. destruct m, m'; intro E; try reflexivity; discriminate. Qed.

Lemma names_nodup ms : NoDup ms -> NoDup (map metric_name ms).
Proof.
  induction 1 as [|m ms N D IH]; cbn [map]; constructor; [|exact IH].
  rewrite in_map_iff. intros (m' & E & Im). apply metric_name_inj in E. subst. contradiction.
Qed.

Lemma outcomes lower tg ts gold system weights : load_conllu tg = Ok gold -> load_conllu ts = Ok system ->
  match evaluate lower gold system weights, fl_evaluate lower gold system weights with
  | Ok fx, Ok f => forall m, match fx m, f m with
                             | Some scx, Some sc =>
                                 counts m = true \/
                                   weights_whole weights /\
                                   total (metric_weight weights m) (u_words gold) + total (metric_weight weights m) (u_words system)
                                     <= inject_Z 9007199254740992 ->
                                 rounded_score scx sc
                             | None, None => True
                             | _, _ => False
                             end
  | Err e, Err e' => e = e'
  | _, _ => False
  end.
Proof.
  intros Lg Ls.
  destruct (evaluate lower gold system weights) as [fx|e] eqn:Ex, (fl_evaluate lower gold system weights) as [f|e'] eqn:Ef.
  - intro m. destruct (fx m) as [scx|] eqn:Mx, (f m) as [sc|] eqn:Mf; [|exfalso|exfalso|exact I].
    + intro H. apply rounds_score. exact (fl_rounds lower tg ts gold system weights fx f m scx sc Lg Ls Ex Ef Mx Mf H).
    + unfold evaluate, fl_evaluate in *. destruct (raise_if _ _); [|discriminate]. cbn [bind] in *.
      destruct (align lower _ _); [|discriminate]. cbn [bind] in *. injection Ex as <-. injection Ef as <-.
      destruct m; try discriminate. destruct weights; discriminate.
    + unfold evaluate, fl_evaluate in *. destruct (raise_if _ _); [|discriminate]. cbn [bind] in *.
      destruct (align lower _ _); [|discriminate]. cbn [bind] in *. injection Ex as <-. injection Ef as <-.
      destruct m; try discriminate. destruct weights; discriminate.
  - unfold evaluate, fl_evaluate in *. destruct (raise_if _ _); [|discriminate]. cbn [bind] in *. destruct (align lower _ _); discriminate.
  - unfold evaluate, fl_evaluate in *. destruct (raise_if _ _); [|discriminate]. cbn [bind] in *. destruct (align lower _ _); discriminate.
  - unfold evaluate, fl_evaluate in *. destruct (raise_if _ _); cbn [bind] in *; [|congruence].
    destruct (align lower _ _); [discriminate | cbn [bind] in *; congruence].
Qed.

(* ---- reported numbers are doubles ---- *)

Lemma div_double a b : double (value (num_div a b)).
Proof. destruct a, b; cbn [num_div value]; apply double_to_double. Qed.

Lemma ratio_double a b : double (fl_ratio a b).
Proof. unfold fl_ratio. destruct (num_true b); [apply div_double | apply double_0]. Qed.

Lemma new_score_double g s c al a v : attribute a (fl_new_score g s c al) v -> double v.
Proof.
  intro H. inversion H as [? E | ? E | ? E | ? q E]; subst; cbn [fl_new_score s_precision s_recall s_f1]; try apply ratio_double.
  cbn [fl_new_score s_aligned] in E. destruct al as [x|]; [|discriminate]. cbn [option_map] in E. injection E as <-.
  destruct (num_true x) eqn:T; [apply div_double|]. apply (double_comp 0); [|apply double_0].
  unfold num_true in T. apply negb_false_iff, Qeq_bool_iff in T. now symmetry.
Qed.

Lemma fl_value_double lower gold system weights f m sc a v :
  fl_evaluate lower gold system weights = Ok f -> f m = Some sc -> attribute a sc v -> double v.
Proof.
  intros E Em H. unfold fl_evaluate in E. destruct (raise_if _ _); [|discriminate]. cbn [bind] in E.
  destruct (align lower _ _); [|discriminate]. cbn [bind] in E. injection E as <-.
  assert (X : exists g s c al, sc = fl_new_score g s c al).
  { destruct m; cbn [fl_metric_score] in Em; try (injection Em as <-; unfold fl_spans_score, fl_alignment_score; eauto 6).
    destruct weights; [|discriminate]. cbn [option_map] in Em. injection Em as <-. unfold fl_alignment_score. eauto 6. }
  destruct X as (g & s & c & al & ->). now apply new_score_double in H.
Qed.

Lemma fl_row t m : fl_reported t -> compared m <> None -> m <> MWeightedLAS ->
  exists s q, dict_get t (metric_name m) = Some s /\ s_aligned s = Some q /\
    forall a v, attribute a s v -> double v /\ unit_interval v.
Proof.
  intros (lower & tg & ts & gold & system & weights & f & Lg & Ls & Wn & E & ->) C N.
  destruct (row_float lower gold system weights f E m N) as (s & Es & Gs).
  destruct (fl_evaluate_unit lower tg ts gold system weights f m s Lg Ls Wn E Es) as (U1 & U2 & U3 & U4 & _).
  assert (A : exists q, s_aligned s = Some q).
  { pose proof E as E'. unfold fl_evaluate in E'. destruct (raise_if _ _); [|discriminate]. cbn [bind] in E'.
    destruct (align lower _ _); [|discriminate]. cbn [bind] in E'. injection E' as <-.
    destruct m; cbn [compared] in C; try contradiction; cbn [fl_metric_score] in Es; injection Es as <-; cbn; eauto. }
  destruct A as (q & Eq). exists s, q. split; [exact Gs|]. split; [exact Eq|]. intros a v H.
  split; [exact (fl_value_double lower gold system weights f m s a v E Es H)|].
  inversion H; subst; auto.
Qed.

Lemma fl_average_facts ms ts : NoDup ms -> ts <> [] -> (zlen ts <= 9007199254740992)%Z -> Forall fl_reported ts ->
  Forall (fun m => compared m <> None /\ m <> MWeightedLAS) ms ->
  exists out, fl_average_scores (map metric_name ms) (map Some ts) = Ok out /\
    forall m a, In m ms -> exists vs, averaged a (metric_name m) ts out vs (fmean vs) /\ zlen vs = zlen ts /\
      Forall double vs /\ Forall unit_interval vs.
Proof.
  intros ND Nt B Rt Hm. rewrite Forall_forall in Rt, Hm.
  destruct (fl_averages (map metric_name ms) ts (names_nodup ms ND) Nt) as (out & E & G).
  { intros t k It Ik. apply in_map_iff in Ik. destruct Ik as (m & <- & Im). destruct (Hm m Im) as [C N].
    destruct (fl_row t m (Rt t It) C N) as (s & q & Es & Eq & _). eauto. }
  exists out. split; [exact E|]. intros m a Im. destruct (Hm m Im) as [C N].
  assert (X : exists ss vs, scores_for (metric_name m) ts ss /\ Forall2 (attribute a) ss vs /\ zlen vs = zlen ts /\ Forall double vs /\ Forall unit_interval vs).
  { clear - Rt C N. induction ts as [|t ts IH]; [exists [], []; repeat split; constructor|].
    destruct IH as (ss & vs & I1 & I2 & I3 & I4 & I5); [intros t' It; apply Rt; now right|].
    destruct (fl_row t m (Rt t (or_introl eq_refl)) C N) as (s & q & Es & Eq & D).
    assert (A : exists v, attribute a s v) by (destruct a; eexists; constructor; exact Eq).
    destruct A as (v & Av). destruct (D a v Av) as [D1 D2]. exists (s :: ss), (v :: vs).
    split; [constructor; auto|]. split; [constructor; auto|]. split; [unfold zlen in *; cbn [length]; lia|]. split; constructor; auto. }
  destruct X as (ss & vs & X1 & X2 & X3 & X4 & X5).
  destruct (G (metric_name m) ss (in_map metric_name ms m Im) X1) as (s & Es & Gs).
  exists vs. split; [|auto]. exists ss, s. split; [exact X1|]. split; [exact X2|]. split; [exact Es|]. now apply Gs.
Qed.

Lemma zlen_nil {A B} (l : list A) (l' : list B) : l <> [] -> zlen l' = zlen l -> l' <> [].
Proof. intros N E ->. apply N. unfold zlen in E. destruct l; [reflexivity | cbn [length] in E; lia]. Qed.

Lemma averaged_fun a m ts out vs r vs' r' : averaged a m ts out vs r -> averaged a m ts out vs' r' -> vs = vs' /\ r = r'.
Proof.
  intros (ss & s & S1 & F1 & D1 & A1) (ss' & s' & S2 & F2 & D2 & A2).
  assert (AF : forall s v w, attribute a s v -> attribute a s w -> v = w).
  { intros s0 v w H1 H2. inversion H1; subst; inversion H2; subst; congruence. }
  assert (ss = ss') as <-.
  { clear - S1 S2. revert ss' S2. induction S1 as [|t s ts ss E S1 IH]; intros ss' S'; inversion S'; subst; [reflexivity|]. f_equal; [congruence | auto]. }
  assert (s = s') as <- by congruence. split; [|eapply AF; eauto].
  clear - F1 F2 AF. revert vs' F2. induction F1 as [|x v ss vs A F IH]; intros vs' F2; inversion F2; subst; [reflexivity|]. f_equal; eauto.
Qed.

Lemma fl_average_numbers ms ts : NoDup ms -> ts <> [] -> (zlen ts <= 9007199254740992)%Z -> Forall fl_reported ts ->
  Forall (fun m => compared m <> None /\ m <> MWeightedLAS) ms ->
  exists out, fl_average_scores (map metric_name ms) (map Some ts) = Ok out /\
    forall m a, In m ms -> exists vs r, averaged a (metric_name m) ts out vs r /\
      unit_interval r /\
      (Forall (fun v => v == 1) vs -> r == 1) /\ (Forall (fun v => v == 0) vs -> r == 0) /\
      ((zlen ts <= 2)%Z -> forall lo hi, Forall (fun v => lo <= v <= hi) vs -> lo <= r <= hi) /\
      Qabs (r - meanq vs) <= inject_Z (zlen ts + 2) / inject_Z 9007199254740992.
Proof.
  intros ND Nt B Rt Hm. destruct (fl_average_facts ms ts ND Nt B Rt Hm) as (out & E & G). exists out. split; [exact E|].
  intros m a Im. destruct (G m a Im) as (vs & Av & Zv & Dv & Uv). exists vs, (fmean vs). split; [exact Av|].
  pose proof (zlen_nil ts vs Nt Zv) as Nv. rewrite <- Zv in *.
  split; [now apply fmean_unit|]. split; [now apply fmean_ones|]. split; [now apply fmean_zeros|]. split.
  - intros L2 lo hi F. destruct vs as [|v [|w [|x vs]]].
    + congruence.
    + inversion Dv; subst. inversion F; subst. rewrite fmean_one by assumption. assumption.
    + inversion Dv as [|? ? Dv1 Dv']; subst. inversion Dv'; subst. inversion F as [|? ? F1 F']; subst. inversion F'; subst.
      destruct (fmean_two v w) as [X | X]; auto; lra.
    + unfold zlen in L2. cbn [length] in L2. lia.
  - pose proof (fmean_error vs Nv B Uv) as H. assert (X : inject_Z (zlen vs + 2) / inject_Z 9007199254740992 == inject_Z (zlen vs + 2) * eps).
    { unfold Qdiv. apply Qmult_comp; reflexivity. } rewrite X. exact H.
Qed.

Lemma fl_average_mono ms ts ts' out out' m a vs r ws r' :
  NoDup ms -> ts <> [] -> (zlen ts <= 9007199254740992)%Z -> Forall fl_reported ts -> Forall fl_reported ts' ->
  Forall (fun m => compared m <> None /\ m <> MWeightedLAS) ms ->
  fl_average_scores (map metric_name ms) (map Some ts) = Ok out -> fl_average_scores (map metric_name ms) (map Some ts') = Ok out' ->
  In m ms -> averaged a (metric_name m) ts out vs r -> averaged a (metric_name m) ts' out' ws r' ->
  Forall2 Qle vs ws -> r <= r'.
Proof.
  intros ND Nt B R R' Hm E E' Im A A' F.
  assert (Len : forall t o v q, averaged a (metric_name m) t o v q -> length v = length t).
  { intros t o v q (ss & s & S0 & F0 & _). transitivity (length ss).
    - clear - F0. induction F0; cbn; congruence.
    - clear - S0. induction S0; cbn; congruence. }
  assert (Lv : length vs = length ws) by (clear - F; induction F; cbn; congruence).
  pose proof (Len _ _ _ _ A) as L1. pose proof (Len _ _ _ _ A') as L2.
  assert (Zt : zlen ts' = zlen ts) by (unfold zlen; f_equal; congruence).
  pose proof (zlen_nil ts ts' Nt Zt) as Nt'.
  destruct (fl_average_facts ms ts ND Nt B R Hm) as (o & Eo & G). rewrite E in Eo. injection Eo as <-.
  destruct (fl_average_facts ms ts' ND Nt' ltac:(lia) R' Hm) as (o' & Eo' & G'). rewrite E' in Eo'. injection Eo' as <-.
  destruct (G m a Im) as (v & Av & Zv & _). destruct (G' m a Im) as (w & Aw & _).
  destruct (averaged_fun _ _ _ _ _ _ _ _ A Av) as [-> ->]. destruct (averaged_fun _ _ _ _ _ _ _ _ A' Aw) as [-> ->].
  apply fmean_mono; [exact (zlen_nil ts v Nt Zv) | lia | exact F].
Qed.
