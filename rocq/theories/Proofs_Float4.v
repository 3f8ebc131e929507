(* Scores in floating point are the exact scores rounded; a file against itself scores exactly 1. *)
From Coq Require Import String Ascii ZArith NArith QArith Qabs Lia Lqa Bool List Setoid Morphisms.
From Verif Require Import Base BaseFacts Model_Datamodel Model_Conllu Model_UDEval Model_Harness Model_Float Spec_UDEval Spec_Float
  Proofs_UDEval Proofs_UDEval2 Proofs_UDEval3 Proofs_UDEval4 Proofs_UDEval5 Proofs_UDEval6 Proofs_UDEval7 Proofs_UDEval8
  Proofs_Float Proofs_Float2 Proofs_Float3.
Import ListNotations.
Open Scope Q_scope.

(* each number is the rounded exact one *)
Definition rounds (exact sc : score) : Prop :=
  s_precision sc == to_double (s_precision exact) /\ s_recall sc == to_double (s_recall exact) /\
  s_f1 sc == to_double (s_f1 exact) /\
  match s_aligned exact, s_aligned sc with
  | None, None => True
  | Some a, Some b => b == to_double a
  | _, _ => False
  end.

Lemma ieee_of q r : r == to_double q -> ieee_double q r.
Proof. intro E. eapply ieee_comp; [symmetry; exact E | apply to_double_ieee]. Qed.

Lemma rounds_score exact sc : rounds exact sc -> rounded_score exact sc.
Proof.
  intros (P & R & F & A). unfold rounded_score. split; [now apply ieee_of|]. split; [now apply ieee_of|]. split; [now apply ieee_of|].
  destruct (s_aligned exact), (s_aligned sc); auto. now apply ieee_of.
Qed.

Lemma new_score_rounded k g s c a G S0 C A :
  kind k g -> kind k s -> kind k c ->
  G == value g -> S0 == value s -> C == value c -> value (num_add s g) == value s + value g ->
  match A, a with None, None => True | Some y, Some x => kind k x /\ y == value x | _, _ => False end ->
  rounds (new_score G S0 C A) (fl_new_score g s c a).
Proof.
  intros Kg Ks Kc Eg Es Ec Esum Ea. destruct (twice_kind k c Kc) as [K2 E2]. destruct (add_kind k s g Ks Kg) as [Kt _].
  unfold rounds, new_score, fl_new_score. cbn [s_precision s_recall s_f1 s_aligned]. split; [|split; [|split]].
  - rewrite (ratio_kind k) by assumption. apply to_double_Proper. apply ratio_comp; lra.
  - rewrite (ratio_kind k) by assumption. apply to_double_Proper. apply ratio_comp; lra.
  - rewrite (ratio_kind k) by assumption. apply to_double_Proper. apply ratio_comp; lra.
  - destruct A as [y|], a as [x|]; try contradiction; cbn [option_map]; [|exact Ea]. destruct Ea as [Kx Ex].
    destruct (num_true x) eqn:T.
    + pose proof (ratio_kind k c x Kc Kx) as R. unfold fl_ratio in R. rewrite T in R. rewrite R. apply to_double_Proper.
      apply ratio_comp; lra.
    + assert (X : value x == 0) by (unfold num_true in T; apply negb_false_iff, Qeq_bool_iff in T; exact T).
      assert (Y : Qeq_bool y 0 = true) by (apply Qeq_bool_iff; lra).
      unfold ratio, Qzero. rewrite Y, X. rewrite to_double_zero; reflexivity.
Qed.

(* sums of whole numbers up to 2^53 are exact *)
Lemma fsum_from_exact {A} (f : A -> Q) l : (forall x, In x l -> exists z, (0 <= z)%Z /\ f x == inject_Z z) ->
  forall t, (0 <= t)%Z -> inject_Z t + total f l <= inject_Z 9007199254740992 ->
  forall t', t' == inject_Z t -> fsum_from f t' l == inject_Z t + total f l.
Proof.
  induction l as [|x l IH]; intros W t T B t' Et.
  - cbn [fsum_from fold_left]. unfold total. cbn. rewrite Et. ring.
  - rewrite total_cons in *. destruct (W x (or_introl eq_refl)) as (z & Z0 & Ez).
    assert (N : 0 <= total f l).
    { apply total_nonneg. intros y Iy. destruct (W y (or_intror Iy)) as (u & U0 & ->). change 0 with (inject_Z 0). now rewrite <- Zle_Qle. }
    assert (Le : (t + z <= 9007199254740992)%Z) by (rewrite Zle_Qle, inject_Z_plus; lra).
    assert (S0 : to_double (t' + f x) == inject_Z (t + z)).
    { rewrite Et, Ez, <- inject_Z_plus. apply to_double_exact, double_Z. lia. }
    cbn [fsum_from fold_left]. unfold fsum_from in IH. rewrite (IH (fun y Iy => W y (or_intror Iy)) (t + z)%Z); [| lia | rewrite inject_Z_plus; lra | exact S0].
    rewrite inject_Z_plus. lra.
Qed.

Lemma fsum_exact {A} (f : A -> Q) l : (forall x, In x l -> exists z, (0 <= z)%Z /\ f x == inject_Z z) ->
  total f l <= inject_Z 9007199254740992 -> fsum f l == total f l.
Proof.
  intros W B. unfold fsum. rewrite (fsum_from_exact f l W 0 ltac:(lia)); [| change (inject_Z 0) with 0; lra | reflexivity].
  change (inject_Z 0) with 0. ring.
Qed.

Lemma metric_weight_whole weights m w : weights_whole weights -> exists z, (0 <= z)%Z /\ metric_weight weights m w == inject_Z z.
Proof.
  intro H. destruct m; cbn [metric_weight]; try (exists 1%Z; split; [lia | reflexivity]).
  - destruct (existsb _ _); [exists 0%Z | exists 1%Z]; (split; [lia | reflexivity]).
  - destruct weights as [d|]; [|exists 1%Z; split; [lia | reflexivity]]. destruct (dict_get d _) as [q|] eqn:E; [|exists 1%Z; split; [lia | reflexivity]].
    destruct (H d _ q eq_refl E) as (z & Z0 & Ez). eauto.
Qed.

(* what is enough for exact sums *)
Definition small (weights : option (dict Q)) (m : metric) (l : list word) : Prop :=
  counts m = true \/ weights_whole weights /\ total (metric_weight weights m) l <= inject_Z 9007199254740992.

Lemma metric_sum_exact weights m l : small weights m l ->
  total (metric_weight weights m) l == value (num_sum (metric_number weights m) l).
Proof.
  intro H. rewrite (proj2 (metric_sum_kind _ _ _)). destruct (counts m) eqn:C.
  - assert (X : total (metric_weight weights m) l == total (fun _ => 1) l) by (apply total_ext; intros w _; destruct m; try discriminate; reflexivity).
    rewrite X, total_count. reflexivity.
  - destruct H as [H | [W B]]; [congruence|]. symmetry. apply fsum_exact; [|exact B]. intros x _. now apply metric_weight_whole.
Qed.

Lemma whole_nonneg weights : weights_whole weights -> weights_nonneg weights.
Proof.
  intros H d k q E G. destruct (H d k q E G) as (z & Z0 & ->). change 0 with (inject_Z 0). now rewrite <- Zle_Qle.
Qed.

Lemma small_subseq weights m l l' : subseq l l' -> small weights m l' -> small weights m l.
Proof.
  intros S0 [H | [W B]]; [now left|]. right. split; [exact W|].
  pose proof (total_subseq (metric_weight weights m) l l' S0 ltac:(intros; apply metric_weight_nonneg; now apply whole_nonneg)). lra.
Qed.

Lemma fl_rounds lower tg ts gold system weights fx f m scx sc :
  load_conllu tg = Ok gold -> load_conllu ts = Ok system ->
  evaluate lower gold system weights = Ok fx -> fl_evaluate lower gold system weights = Ok f ->
  fx m = Some scx -> f m = Some sc ->
  counts m = true \/
    weights_whole weights /\
    total (metric_weight weights m) (u_words gold) + total (metric_weight weights m) (u_words system) <= inject_Z 9007199254740992 ->
  rounds scx sc.
Proof.
  intros Lg Ls Ex E Emx Em H. pose proof (fl_chars _ _ _ _ _ E) as C.
  destruct (align_ok lower (u_words gold) (u_words system)) as (pairs & EA & A);
    [eapply load_nonempty; eauto|eapply load_nonempty; eauto|].
  destruct (aligned_matching _ _ _ _ A) as (M1 & M2 & _).
  unfold evaluate in Ex. unfold fl_evaluate in E. rewrite C, str_eqb_refl in Ex, E. cbn [negb raise_if bind] in Ex, E.
  rewrite EA in Ex, E. cbn [bind] in Ex, E. injection Ex as <-. injection E as <-.
  assert (Span : forall g s, rounds (spans_score g s) (fl_spans_score g s)).
  { intros g s. apply (new_score_rounded true); try (eexists; reflexivity); try reflexivity; try exact I.
    cbn [num_add value]. now rewrite inject_Z_plus. }
  destruct (metric_dec m MTokens) as [->|Nt]; [cbn in Emx, Em; injection Emx as <-; injection Em as <-; apply Span|].
  destruct (metric_dec m MSentences) as [->|Ns]; [cbn in Emx, Em; injection Emx as <-; injection Em as <-; apply Span|].
  assert (Km : compared m <> None \/ m = MWords) by (destruct m; try contradiction; auto; left; discriminate).
  destruct (metric_alignment gold system (fill_parents pairs) weights m scx Km Emx) as (wt & -> & W).
  destruct (fl_metric_alignment gold system (fill_parents pairs) weights m sc Km Em) as (wn & -> & Wn).
  assert (Hg : small weights m (u_words gold)).
  { destruct H as [H | [H1 H2]]; [now left|]. right. split; [exact H1|].
    pose proof (total_nonneg (metric_weight weights m) (u_words system) ltac:(intros; apply metric_weight_nonneg; now apply whole_nonneg)). lra. }
  assert (Hs : small weights m (u_words system)).
  { destruct H as [H | [H1 H2]]; [now left|]. right. split; [exact H1|].
    pose proof (total_nonneg (metric_weight weights m) (u_words gold) ltac:(intros; apply metric_weight_nonneg; now apply whole_nonneg)). lra. }
  assert (Sum : value (num_add (num_sum (metric_number weights m) (u_words system)) (num_sum (metric_number weights m) (u_words gold)))
                == value (num_sum (metric_number weights m) (u_words system)) + value (num_sum (metric_number weights m) (u_words gold))).
  { destruct (metric_sum_kind weights m (u_words system)) as [K1 _]. destruct (metric_sum_kind weights m (u_words gold)) as [K2 _].
    rewrite (proj2 (add_kind _ _ _ K1 K2)). destruct (counts m) eqn:Cm; [reflexivity|].
    destruct H as [H | [H1 H2]]; [congruence|]. apply to_double_exact.
    assert (T : forall l, exists z, (0 <= z)%Z /\ total (metric_weight weights m) l == inject_Z z).
    { induction l as [|x l (z & Z0 & IH)]; [exists 0%Z; split; [lia | reflexivity]|].
      destruct (metric_weight_whole weights m x H1) as (y & Y0 & Ey). exists (y + z)%Z. split; [lia|].
      rewrite total_cons, IH, Ey, inject_Z_plus. reflexivity. }
    destruct (T (u_words gold)) as (zg & G0 & Eg). destruct (T (u_words system)) as (zs & S0 & Es).
    rewrite Eg, Es, <- inject_Z_plus, <- Zle_Qle in H2.
    apply (double_comp (inject_Z (zs + zg))); [rewrite inject_Z_plus, <- !metric_sum_exact by assumption; rewrite Eg, Es; reflexivity|]. apply double_Z. lia. }
  assert (Q1 : forall l, small weights m l -> qsum wt l == value (num_sum wn l)).
  { intros l Hl. rewrite qsum_total, (num_sum_ext wn (metric_number weights m)) by exact Wn. rewrite <- metric_sum_exact by exact Hl.
    apply total_ext. intros. rewrite W. reflexivity. }
  assert (Q2 : forall l, subseq l (fill_parents pairs) ->
     qsum (fun a => wt (a_gold a)) l == value (num_sum (fun a => wn (a_gold a)) l) /\
     kind (counts m) (num_sum (fun a => wn (a_gold a)) l)).
  { intros l Sl. rewrite <- (num_sum_map wn a_gold). split.
    - rewrite qsum_total, <- (total_map wt a_gold), <- qsum_total. apply Q1.
      eapply small_subseq; [|exact Hg]. eapply subseq_trans; [exact M1|].
      assert (X : map fst pairs = map a_gold (fill_parents pairs)) by (rewrite fill_parents_aw, map_map; reflexivity).
      rewrite X. now apply subseq_map.
    - rewrite (num_sum_ext wn (metric_number weights m)) by exact Wn. apply metric_sum_kind. }
  assert (Kind : forall l, kind (counts m) (num_sum wn l)).
  { intro l. rewrite (num_sum_ext wn (metric_number weights m)) by exact Wn. apply metric_sum_kind. }
  assert (Sum' : value (num_add (num_sum wn (u_words system)) (num_sum wn (u_words gold)))
                == value (num_sum wn (u_words system)) + value (num_sum wn (u_words gold))).
  { rewrite !(num_sum_ext wn (metric_number weights m)) by exact Wn. exact Sum. }
  destruct (Q2 (fill_parents pairs) (subseq_refl _)) as [Qa Ka].
  unfold alignment_score, fl_alignment_score. destruct (key_of m) as [k|].
  - set (good := filter _ (fill_parents pairs)). destruct (Q2 good (subseq_filter _ _)) as [Qg Kg].
    apply (new_score_rounded (counts m)); auto.
  - apply (new_score_rounded (counts m)); auto.
Qed.

(* ---- a file against itself ---- *)

Lemma fsum_positive {A} (f : A -> Q) l : (forall x, In x l -> 0 <= f x) -> ~ total f l == 0 -> 0 < fsum f l.
Proof.
  intros P N. assert (X : exists x, In x l /\ 0 < f x).
  { induction l as [|x l IH]; [exfalso; apply N; reflexivity|]. destruct (Qlt_le_dec 0 (f x)) as [L | L]; [exists x; split; [now left | exact L]|].
    destruct IH as (y & Iy & Py); [intros y Iy; apply P; now right | | exists y; split; [now right | exact Py]].
    intro E. apply N. rewrite total_cons, E. specialize (P x (or_introl eq_refl)). lra. }
  destruct X as (x & Ix & Px).
  assert (S0 : subseq [x] l).
  { clear - Ix. induction l as [|y l IH]; [destruct Ix|]. destruct Ix as [-> | Ix]; [constructor; constructor | constructor; auto]. }
  pose proof (fsum_subseq f [x] l S0 P) as L. unfold fsum in *. cbn [fsum_from fold_left] in L.
  assert (0 < to_double (0 + f x)); [|unfold fsum_from in *; lra].
  rewrite to_double_pos by lra. apply round_pos_pos. lra.
Qed.

Lemma new_score_one k g s c a : kind k g -> kind k s -> kind k c -> (forall x, a = Some x -> kind k x /\ value x == value c) ->
  0 < value c -> value g == value c -> value s == value c -> perfect (fl_new_score g s c a).
Proof.
  intros Kg Ks Kc Ka P Eg Es. destruct (twice_kind k c Kc) as [K2 E2]. destruct (add_kind k s g Ks Kg) as [Kt Et].
  assert (R : forall x y, kind k x -> kind k y -> value x == value y -> 0 < value y -> fl_ratio x y == 1).
  { intros x y Kx Ky Exy Py. rewrite (ratio_kind k) by assumption.
    destruct (ratio_cases (value x) (value y) ltac:(lra)) as [[Z0 _] | [_ Q]]; [exfalso; lra|]. rewrite Q, Exy.
    assert (X : value y / value y == 1) by (field; lra). rewrite X. apply to_double_exact, double_1. }
  assert (Dt : value (num_add s g) == 2 * value c).
  { rewrite Et. destruct k; [lra|]. assert (X : value s + value g == 2 * value c) by lra. rewrite X.
    apply to_double_exact, double_twice. now apply as_float_value. }
  unfold perfect, fl_new_score. cbn [s_precision s_recall s_f1 s_aligned]. split; [|split; [|split]].
  - apply R; auto; lra.
  - apply R; auto; lra.
  - apply R; auto; lra.
  - intros q Eq. destruct a as [x|]; [|discriminate]. injection Eq as <-. destruct (Ka x eq_refl) as [Kx Ex].
    assert (T : num_true x = true) by (apply num_true_spec; lra). rewrite T.
    pose proof (R c x Kc Kx ltac:(lra) ltac:(lra)) as Y. unfold fl_ratio in Y. rewrite T in Y. exact Y.
Qed.

Lemma fl_self_perfect lower text u weights : load_conllu text = Ok u -> weights_nonneg weights ->
  exists f, fl_evaluate lower u u weights = Ok f /\
    (forall m, f m = None <-> m = MWeightedLAS /\ weights = None) /\
    forall m sc, f m = Some sc -> ~ metric_total weights u m == 0 -> perfect sc.
Proof.
  intros L Wn.
  destruct (fl_evaluate_meaning lower text text u u weights L L eq_refl) as (f & pairs & E & A & EA & (xt & Ct & Et) & (xs & Cs & Es) & Mo).
  rewrite (same_align lower text u u L (same_self u)) in EA. injection EA as <-. exists f. split; [exact E|].
  assert (Sp : forall ys l, increasing_starts l -> common_spans ys l l -> ~ count l == 0 ->
            perfect (fl_new_score (Int (zlen l)) (Int (zlen l)) (Int (zlen ys)) None)).
  { intros ys l Il Cy N. destruct (common_self l Il) as [N1 _]. destruct Cy as [N2 Cy].
    assert (Len : length ys = length l).
    { apply Nat.le_antisymm; apply NoDup_incl_length; auto; intros y Iy; apply Cy; auto. }
    apply (new_score_one true); try (eexists; reflexivity); try discriminate; cbn [value]; unfold zlen; rewrite Len; try reflexivity.
    change 0 with (inject_Z 0). rewrite <- Zlt_Qlt. unfold count in N. change 0 with (inject_Z 0) in N.
    destruct (length l); [exfalso; apply N; reflexivity | lia]. }
  destruct (load_tiles _ _ L) as (Tg & Sg & _).
  split.
  { intro m.
    destruct (metric_dec m MTokens) as [->|N1]; [rewrite Et; split; [discriminate|intros [X _]; discriminate]|].
    destruct (metric_dec m MSentences) as [->|N2]; [rewrite Es; split; [discriminate|intros [X _]; discriminate]|].
    now apply Mo. }
  intros m sc Em N.
  destruct (metric_dec m MTokens) as [->|N1].
  { rewrite Et in Em. injection Em as <-. apply Sp; [exact (proj1 (consecutive_increasing _ _ _ Tg)) | exact Ct | exact N]. }
  destruct (metric_dec m MSentences) as [->|N2].
  { rewrite Es in Em. injection Em as <-. apply Sp; [exact (proj1 (consecutive_increasing _ _ _ Sg)) | exact Cs | exact N]. }
  destruct (Mo m N1 N2) as [_ Mo']. destruct (Mo' sc Em) as (good & AG & ->).
  assert (Ld : loaded u) by (eapply load_loaded; eauto).
  assert (NP : NoDup (combine (u_words u) (u_words u))).
  { apply (NoDup_map_inv (fun p => w_ix (fst p))). rewrite <- (map_map fst w_ix), combine_fst by auto. now apply loaded_ix. }
  assert (G : good = combine (u_words u) (u_words u)).
  { apply (agreeing_self_eq _ m); [|exact NP|exact AG]. intros w v I0. pose proof (combine_self _ _ _ I0) as X.
    destruct (compared m) as [[cs h]|]; [|exact I]. split; [subst v; unfold same_columns; apply Forall_forall; auto|].
    intros _. apply (heads_paired_positions u u w v); auto. now subst v. }
  subst good. rewrite combine_fst by auto.
  assert (Nm : ~ total (metric_weight weights m) (u_words u) == 0) by (destruct m; auto; contradiction).
  assert (P : 0 < value (num_sum (metric_number weights m) (u_words u))).
  { rewrite (proj2 (metric_sum_kind _ _ _)). destruct (counts m) eqn:Cm.
    - change 0 with (inject_Z 0). rewrite <- Zlt_Qlt. unfold zlen. destruct (u_words u); [exfalso; apply Nm; reflexivity | cbn; lia].
    - apply fsum_positive; [|exact Nm]. intros. now apply metric_weight_nonneg. }
  apply (new_score_one (counts m)); try apply metric_sum_kind; try reflexivity; [|exact P].
  intros x Ex. destruct (compared m); [|discriminate]. injection Ex as <-. split; [apply metric_sum_kind | reflexivity].
Qed.
