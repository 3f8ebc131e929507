(* Printed scores. *)
From Coq Require Import String Ascii ZArith NArith QArith Qabs Lia Lqa Bool List Setoid Morphisms.
From Verif Require Import Base BaseFacts Model_Datamodel Model_Conllu Model_UDEval Model_Harness Model_Float Model_Script Model_Print
  Spec_Datamodel Spec_Conllu Spec_UDEval Spec_Harness Spec_Float Spec_Script Spec_Print Proofs_Script Proofs_Script3
  Proofs_Float Proofs_Float2 Proofs_Float3 Proofs_Float4 Proofs_Float5 Proofs_Float6 Proofs_Float7 Proofs_Float9.
Import ListNotations.
Open Scope Q_scope.

Lemma print_digit z : (0 <= z < 10)%Z -> print_Z z = [Z.to_N (48 + z)].
Proof.
  intro H. assert (X : (z = 0 \/ z = 1 \/ z = 2 \/ z = 3 \/ z = 4 \/ z = 5 \/ z = 6 \/ z = 7 \/ z = 8 \/ z = 9)%Z) by lia.
  repeat (destruct X as [-> | X]; [reflexivity|]). subst. reflexivity.
Qed.

Lemma print_Z_digits z : (0 <= z)%Z -> Forall is_digit (print_Z z).
Proof. intro H. destruct z; [apply print_N_digits | apply print_N_digits | lia]. Qed.

Lemma reads_fun s k k' : reads_as s k -> reads_as s k' -> k = k'.
Proof.
  intros (a & w & d & e & E & _ & P & _ & _ & ->) (a' & w' & d' & e' & E' & _ & P' & _ & _ & ->).
  rewrite E in E'. assert (L : length a = length a') by (apply (f_equal (@length _)) in E'; rewrite !app_length in E'; cbn [length] in E'; lia).
  assert (X : a = a' /\ [46%N; d; e] = [46%N; d'; e']).
  { clear - E' L. revert a' E' L. induction a as [|c a IH]; intros [|c' a'] E L; try discriminate; [split; auto|].
    cbn [app] in E. injection E as -> E. cbn [length] in L. destruct (IH a' E ltac:(lia)) as [-> H]. auto. }
  destruct X as [-> X]. injection X as -> ->. rewrite P in P'. injection P' as ->. reflexivity.
Qed.

Definition hundredths (q : Q) : Z := nearest_int (100 * q).

Lemma hundredths_nonneg q : 0 <= q -> (0 <= hundredths q)%Z.
Proof. intro H. unfold hundredths. change 0%Z with (nearest_int (inject_Z 0)). apply nearest_int_mono. change (inject_Z 0) with 0. lra. Qed.

Lemma fixed2_text q : 0 <= q -> fixed2 q =
  print_Z (hundredths q / 100) ++ [46%N; Z.to_N (48 + (hundredths q / 10) mod 10); Z.to_N (48 + hundredths q mod 10)].
Proof.
  intro H. unfold fixed2.
  assert (X : nearest_int (100 * Qabs q) = hundredths q) by (apply nearest_int_comp; now rewrite (Qabs_pos q H)). rewrite X.
  rewrite (proj2 (Qle_bool_iff 0 q) H). rewrite (print_digit ((hundredths q / 10) mod 10)) by (apply Z.mod_pos_bound; lia).
  rewrite (print_digit (hundredths q mod 10)) by (apply Z.mod_pos_bound; lia). reflexivity.
Qed.

Lemma digit_char z : (0 <= z < 10)%Z -> is_digit (Z.to_N (48 + z)) /\ (Z.of_N (Z.to_N (48 + z)) - 48 = z)%Z.
Proof. intro H. unfold is_digit. split; lia. Qed.

Lemma fixed2_reads q : 0 <= q -> reads_as (fixed2 q) (hundredths q).
Proof.
  intro H. pose proof (hundredths_nonneg q H) as K. rewrite (fixed2_text q H). set (k := hundredths q) in *.
  pose proof (Z.mod_pos_bound (k / 10) 10 ltac:(lia)) as M1. pose proof (Z.mod_pos_bound k 10 ltac:(lia)) as M2.
  destruct (digit_char _ M1) as [D1 V1]. destruct (digit_char _ M2) as [D2 V2].
  eexists _, (k / 100)%Z, _, _. split; [reflexivity|]. split; [apply print_Z_digits, Z.div_pos; lia|]. split; [apply parse_print_Z|].
  split; [exact D1|]. split; [exact D2|]. rewrite V1, V2.
  assert (E : (k / 100 = k / 10 / 10)%Z) by (rewrite Z.div_div by lia; reflexivity). rewrite E.
  pose proof (Z.div_mod (k / 10) 10 ltac:(lia)). pose proof (Z.div_mod k 10 ltac:(lia)). lia.
Qed.

Lemma percent_eq x : percent x == to_double (100 * x).
Proof.
  unfold percent. cbn [num_mul value as_float].
  assert (H : to_double (inject_Z 100) == 100) by (apply to_double_exact, double_Z; lia). rewrite H. reflexivity.
Qed.

Lemma percent_range x : 0 <= x <= 1 -> 0 <= percent x <= 100.
Proof.
  intro H. rewrite percent_eq. split.
  - apply to_double_ge; [apply double_0 | lra].
  - apply to_double_le; [change 100 with (inject_Z 100); apply double_Z; lia | lra].
Qed.

Lemma percent_mono x y : x <= y -> percent x <= percent y.
Proof. intro H. rewrite !percent_eq. apply to_double_mono. lra. Qed.

Lemma percent_error x : 0 <= x <= 1 -> - (100 * eps) <= percent x - 100 * x <= 100 * eps.
Proof.
  intro H. rewrite percent_eq. pose proof (to_double_err (100 * x)) as E. fold eps in E. rewrite (Qabs_pos (100 * x)) in E by lra.
  apply Qabs_Qle_condition in E. pose proof eps_pos. nra.
Qed.

Lemma hundredths_error q : - (1 # 2) <= inject_Z (hundredths q) - 100 * q <= 1 # 2.
Proof.
  pose proof (nearest_int_err (100 * q)) as E. fold (hundredths q) in E. apply Qabs_Qle_condition in E.
  generalize dependent (inject_Z (hundredths q)). intros k E. lra.
Qed.

Lemma hundredths_mono p q : p <= q -> (hundredths p <= hundredths q)%Z.
Proof. intro H. apply nearest_int_mono. lra. Qed.

Lemma number_printed x : 0 <= x <= 1 -> exists k, reads_as (fixed2 (percent x)) k /\ (0 <= k <= 10000)%Z /\
  Qabs (inject_Z k / 100 - 100 * x) <= (1 # 200) + 1 / inject_Z 70368744177664.
Proof.
  intro H. pose proof (percent_range x H) as P. exists (hundredths (percent x)). split; [now apply fixed2_reads|]. split.
  - split; [now apply hundredths_nonneg|]. change 10000%Z with (hundredths 100). now apply hundredths_mono.
  - pose proof (hundredths_error (percent x)) as E. pose proof (percent_error x H) as F.
    assert (X : 100 * eps <= 1 / inject_Z 70368744177664) by (vm_compute; discriminate).
    apply Qabs_Qle_condition. assert (D : inject_Z (hundredths (percent x)) / 100 == inject_Z (hundredths (percent x)) * (1 # 100)) by (unfold Qdiv; reflexivity).
    rewrite D. generalize dependent (inject_Z (hundredths (percent x))). intros k E D. generalize dependent (1 / inject_Z 70368744177664). intros. split; lra.
Qed.

Lemma order_printed x y k l : 0 <= x -> x <= y -> y <= 1 -> reads_as (fixed2 (percent x)) k -> reads_as (fixed2 (percent y)) l -> (k <= l)%Z.
Proof.
  intros X L Y Rk Rl. pose proof (percent_range x ltac:(lra)) as P1. pose proof (percent_range y ltac:(lra)) as P2.
  rewrite (reads_fun _ _ _ Rk (fixed2_reads _ (proj1 P1))), (reads_fun _ _ _ Rl (fixed2_reads _ (proj1 P2))).
  apply hundredths_mono. now apply percent_mono.
Qed.

(* ---- as numbers for the lines of Model_Script ---- *)


Lemma fixed2_chars q : Forall (fun c => (48 <= c <= 57)%N \/ c = 46%N \/ c = 45%N) (fixed2 q).
Proof.
  assert (Z0 : forall z, Forall (fun c => (48 <= c <= 57)%N \/ c = 46%N \/ c = 45%N) (print_Z z)).
  { intro z. eapply Forall_impl; [|apply print_Z_chars]. unfold is_digit. intros c [H | H]; auto. }
  unfold fixed2. cbv zeta. rewrite !Forall_app. split; [destruct (Qle_bool 0 q); [apply Forall_nil | apply Forall_cons; [right; right; reflexivity | apply Forall_nil]]|]. split; [apply Z0|].
  split; [apply Forall_cons; [right; left; reflexivity | apply Forall_nil]|]. split; apply Z0.
Qed.

Lemma fixed2_comp p q : p == q -> fixed2 p = fixed2 q.
Proof.
  intro E. unfold fixed2. assert (X : nearest_int (100 * Qabs p) = nearest_int (100 * Qabs q)) by (apply nearest_int_comp; now rewrite E).
  rewrite X. assert (Y : Qle_bool 0 p = Qle_bool 0 q).
  { destruct (Qle_bool 0 p) eqn:A, (Qle_bool 0 q) eqn:B; auto; exfalso.
    - apply Qle_bool_iff in A. assert (C : Qle_bool 0 q = true) by (apply Qle_bool_iff; lra). congruence.
    - apply Qle_bool_iff in B. assert (C : Qle_bool 0 p = true) by (apply Qle_bool_iff; lra). congruence. }
  now rewrite Y.
Qed.

Lemma print_short z : (0 <= z <= 100)%Z -> (length (print_Z z) <= 3)%nat.
Proof.
  intro H. assert (F : forallb (fun n => Nat.leb (length (print_Z (Z.of_nat n))) 3) (seq 0 101) = true) by (vm_compute; reflexivity).
  rewrite forallb_forall in F. specialize (F (Z.to_nat z)). rewrite Z2Nat.id in F by lia. apply Nat.leb_le, F. apply in_seq. lia.
Qed.

Lemma fixed2_width q : 0 <= q <= 100 -> (length (fixed2 q) <= 6)%nat.
Proof.
  intro H. rewrite (fixed2_text q) by lra. rewrite app_length. cbn [length].
  assert (K : (0 <= hundredths q <= 10000)%Z).
  { split; [apply hundredths_nonneg; lra|]. change 10000%Z with (hundredths 100). apply hundredths_mono. lra. }
  pose proof (print_short (hundredths q / 100)) as P.
  assert (B : (0 <= hundredths q / 100 <= 100)%Z) by (split; [apply Z.div_pos; lia | apply Z.div_le_upper_bound; lia]).
  specialize (P B). lia.
Qed.

Lemma cell_facts : plain_numbers shown_number /\ same_numbers shown_number /\ (forall q, 0 <= q <= 100 -> (length (shown_number q) <= 10)%nat) /\
  forall x, shown_number (100 * x) = fixed2 (percent x).
Proof.
  split; [intro q; apply fixed2_chars|]. split; [intros p q E; unfold shown_number; now rewrite (to_double_comp p q E)|]. split.
  - intros q H. unfold shown_number. pose proof (fixed2_width (to_double q)) as W.
    assert (R : 0 <= to_double q <= 100).
    { split; [apply to_double_ge; [apply double_0 | lra] | apply to_double_le; [change 100 with (inject_Z 100); apply double_Z; lia | lra]]. }
    specialize (W R). lia.
  - intro x. apply fixed2_comp. symmetry. apply percent_eq.
Qed.

(* ---- the table ---- *)

Lemma score_line_text name sc : score_line name sc =
  row_text name (fixed2 (percent (s_precision sc))) (fixed2 (percent (s_recall sc))) (fixed2 (percent (s_f1 sc)))
    (match s_aligned sc with Some q => percent_cell q | None => [] end).
Proof.
  unfold score_line, row_text, percent_cell. change (of_string "|") with [124%N]. change (of_string " |") with [chSP; 124%N].
  repeat (rewrite <- ?app_assoc; cbn [app]). reflexivity.
Qed.

Lemma fixed2_solid q : ~ In 124%N (fixed2 q) /\ Forall (fun c => isspace_char c = false) (fixed2 q).
Proof. split; [apply (plain_no_bar fixed2 fixed2_chars) | apply (plain_solid fixed2 fixed2_chars)]. Qed.

Lemma last_clean (o : option Q) : ~ In 124%N (match o with Some q => percent_cell q | None => [] end).
Proof. destruct o; [apply no_bar_left, fixed2_solid | tauto]. Qed.

Lemma score_line_shows name sc : plain_name name -> line_shows name sc (score_line name sc).
Proof.
  intros [N1 N2]. unfold line_shows, row_cells. rewrite score_line_text.
  rewrite row_text_cells by (try apply fixed2_solid; try apply last_clean; exact N1). cbn [map].
  rewrite strip_pad_right by exact N2. rewrite !strip_pad_left by (try apply fixed2_solid; repeat constructor). repeat f_equal.
  destruct (s_aligned sc); [|reflexivity]. unfold percent_cell. rewrite <- (app_nil_r (pad_left _ _)).
  apply strip_pad_left; [constructor | apply fixed2_solid].
Qed.

Lemma score_line_bars name sc : plain_name name -> (length name <= 11)%nat -> score_unit sc -> bars 0 (score_line name sc) = [11; 23; 35; 47]%nat.
Proof.
  intros [N1 N2] L (P & R & F & _). rewrite score_line_text.
  apply row_text_bars; try apply fixed2_solid; try apply last_clean; auto.
  - eapply Nat.le_trans; [apply fixed2_width, percent_range; exact P | repeat constructor].
  - eapply Nat.le_trans; [apply fixed2_width, percent_range; exact R | repeat constructor].
  - eapply Nat.le_trans; [apply fixed2_width, percent_range; exact F | repeat constructor].
Qed.

Lemma table_printed metrics t : Forall plain_name metrics ->
  exists h1 h2 rows rest e, print_table metrics (Some t) = (h1 :: h2 :: rows, e) /\
    row_cells h1 = map of_string ["Metrics"; "Precision"; "Recall"; "F1 Score"; "AligndAcc"]%string /\
    (exists shown_, metrics = shown_ ++ rest /\
       Forall2 (fun m line => exists sc, dict_get t m = Some sc /\ line_shows m sc line /\
                  ((length m <= 11)%nat -> score_unit sc -> bars 0 line = bars 0 h1)) shown_ rows) /\
    match e with
    | None => rest = []
    | Some x => x = EKey /\ exists m ms, rest = m :: ms /\ dict_get t m = None
    end.
Proof.
  intro Fm.
  assert (H : exists rows rest e shown_, print_rows metrics (Some t) = (rows, e) /\ metrics = shown_ ++ rest /\
     Forall2 (fun m line => exists sc, dict_get t m = Some sc /\ line_shows m sc line /\
                  ((length m <= 11)%nat -> score_unit sc -> bars 0 line = [11; 23; 35; 47]%nat)) shown_ rows /\
     match e with None => rest = [] | Some x => x = EKey /\ exists m ms, rest = m :: ms /\ dict_get t m = None end).
  { induction Fm as [|m ms Hm Fm IH]; [exists [], [], None, []; repeat split; constructor|].
    cbn [print_rows of_option bind]. destruct (dict_get t m) as [sc|] eqn:Em; cbn [of_option].
    - destruct IH as (rows & rest & e & sh & E1 & E2 & E3 & E4). rewrite E1. exists (score_line m sc :: rows), rest, e, (m :: sh).
      split; [reflexivity|]. split; [cbn [app]; congruence|]. split; [|exact E4]. constructor; [|exact E3].
      exists sc. split; [exact Em|]. split; [now apply score_line_shows | intros; now apply score_line_bars].
    - exists [], (m :: ms), (Some EKey), []. split; [reflexivity|]. split; [reflexivity|]. split; [constructor|]. split; [reflexivity|]. eauto. }
  destruct H as (rows & rest & e & sh & E1 & E2 & E3 & E4). unfold print_table. rewrite E1.
  eexists _, _, rows, rest, e. split; [reflexivity|]. split; [vm_compute; reflexivity|]. split; [|exact E4].
  exists sh. split; [exact E2|]. exact E3.
Qed.

Lemma print_same metrics scores : print_metrics metrics scores = match snd (print_table metrics scores) with None => Ok tt | Some e => Err e end.
Proof.
  unfold print_table. assert (H : print_metrics metrics scores = match snd (print_rows metrics scores) with None => Ok tt | Some e => Err e end).
  { unfold print_metrics. destruct scores as [t|]; [|destruct metrics; reflexivity].
    induction metrics as [|m ms IH]; [reflexivity|]. cbn [foldM print_rows]. cbn [of_option bind] in IH |- *.
    destruct (dict_get t m); cbn [of_option bind]; [|reflexivity].
    etransitivity; [exact IH|]. destruct (print_rows ms (Some t)) as [l e]. reflexivity. }
  rewrite H. destruct (print_rows metrics scores) as [l e]. reflexivity.
Qed.

(* ---- 100.00 and 0.00 ---- *)

Lemma quotient_bounds n v : (1 <= n)%Z -> 0 <= v <= 1 -> quotient n v -> v == 0 \/ v == 1 \/ (inject_Z n * v >= 1 /\ inject_Z n * (1 - v) >= 1).
Proof.
  intros N V (c & d & D & E).
  assert (Pd : 0 < inject_Z d) by (change 0 with (inject_Z 0); rewrite <- Zlt_Qlt; lia).
  assert (Ld : inject_Z d <= inject_Z n) by (rewrite <- Zle_Qle; lia).
  assert (C0 : (0 <= c)%Z) by (rewrite Zle_Qle, <- E; change (inject_Z 0) with 0; nra).
  assert (C1 : (c <= d)%Z) by (rewrite Zle_Qle, <- E; nra).
  destruct (Z.eq_dec c 0) as [-> | N0]; [left; change (inject_Z 0) with 0 in E; nra|].
  destruct (Z.eq_dec c d) as [-> | N1]; [right; left; nra|]. right. right.
  assert (A : 1 <= inject_Z c) by (change 1 with (inject_Z 1); rewrite <- Zle_Qle; lia).
  assert (B : inject_Z c + 1 <= inject_Z d) by (change 1 with (inject_Z 1); rewrite <- inject_Z_plus, <- Zle_Qle; lia).
  rewrite <- E in A, B. split; nra.
Qed.

Lemma ends_printed v r : 0 <= v <= 1 -> quotient 19998 v -> r == to_double v ->
  (fixed2 (percent r) = of_string "100.00" <-> r == 1) /\ (fixed2 (percent r) = of_string "0.00" <-> r == 0).
Proof.
  intros V Qv Er.
  assert (T100 : reads_as (of_string "100.00") 10000).
  { exists (of_string "100"), 100%Z, 48%N, 48%N. split; [reflexivity|]. split; [repeat constructor; unfold is_digit; vm_compute; discriminate|].
    split; [vm_compute; reflexivity|]. unfold is_digit. repeat split; lia. }
  assert (T0 : reads_as (of_string "0.00") 0).
  { exists (of_string "0"), 0%Z, 48%N, 48%N. split; [reflexivity|]. split; [repeat constructor; unfold is_digit; vm_compute; discriminate|].
    split; [vm_compute; reflexivity|]. unfold is_digit. repeat split; lia. }
  assert (U : 0 <= r <= 1) by (rewrite Er; now apply to_double_unit).
  pose proof (percent_range r U) as P. pose proof (fixed2_reads _ (proj1 P)) as R.
  assert (F1 : r == 1 -> fixed2 (percent r) = of_string "100.00").
  { intro H. transitivity (fixed2 (percent 1)); [apply fixed2_comp; rewrite !percent_eq, H; reflexivity | vm_compute; reflexivity]. }
  assert (F0 : r == 0 -> fixed2 (percent r) = of_string "0.00").
  { intro H. transitivity (fixed2 (percent 0)); [apply fixed2_comp; rewrite !percent_eq, H; reflexivity | vm_compute; reflexivity]. }
  assert (D : r == 0 \/ r == 1 \/ (0 < hundredths (percent r) < 10000)%Z).
  { destruct (quotient_bounds 19998 v ltac:(lia) V Qv) as [Z0 | [Z1 | [A B]]].
    - left. rewrite Er, Z0. apply to_double_exact, double_0.
    - right. left. rewrite Er, Z1. apply to_double_exact, double_1.
    - right. right. pose proof (percent_error r U) as E. pose proof (hundredths_error (percent r)) as H.
      pose proof (to_double_err v) as Ev. fold eps in Ev. rewrite (Qabs_pos v) in Ev by lra. apply Qabs_Qle_condition in Ev. rewrite <- Er in Ev.
      assert (Se : eps <= 1 # 1000000000) by (vm_compute; discriminate). pose proof eps_pos as Pe.
      assert (Ev1 : - eps <= r - v) by nra. assert (Ev2 : r - v <= eps) by nra.
      change (inject_Z 19998) with 19998 in A, B.
      split.
      + rewrite Zlt_Qlt. change (inject_Z 0) with 0. generalize dependent (inject_Z (hundredths (percent r))). intros k H. lra.
      + rewrite Zlt_Qlt. change (inject_Z 10000) with 10000. generalize dependent (inject_Z (hundredths (percent r))). intros k H. lra. }
  split; split; auto; intro E; rewrite E in R.
  - pose proof (reads_fun _ _ _ T100 R). destruct D as [D | [D | D]]; [|exact D | lia].
    apply F0 in D. rewrite D in E. discriminate.
  - pose proof (reads_fun _ _ _ T0 R). destruct D as [D | [D | D]]; [exact D | | lia].
    apply F1 in D. rewrite D in E. discriminate.
Qed.

Lemma perfect_printed lower tg ts gold system weights f m sc a v :
  load_conllu tg = Ok gold -> load_conllu ts = Ok system -> up_to 9999 gold -> up_to 9999 system ->
  fl_evaluate lower gold system weights = Ok f -> f m = Some sc -> counts m = true -> attribute a sc v ->
  (fixed2 (percent v) = of_string "100.00" <-> v == 1) /\ (fixed2 (percent v) = of_string "0.00" <-> v == 0).
Proof.
  intros Lg Ls Ug Us Ef Em C Av.
  pose proof (outcomes lower tg ts gold system weights Lg Ls) as O. rewrite Ef in O.
  destruct (evaluate lower gold system weights) as [fx|] eqn:Ex; [|contradiction].
  specialize (O m). rewrite Em in O. destruct (fx m) as [scx|] eqn:Emx; [|contradiction].
  pose proof (fl_rounds lower tg ts gold system weights fx f m scx sc Lg Ls Ex Ef Emx Em (or_introl C)) as R.
  assert (Ha : has_attr a m).
  { intros -> X. destruct R as (_ & _ & _ & A). inversion Av as [| | |? q E]; subst. rewrite E in A.
    unfold evaluate in Ex. destruct (raise_if _ _); [|discriminate]. cbn [bind] in Ex. destruct (align lower _ _); [|discriminate]. cbn [bind] in Ex.
    injection Ex as <-. destruct m; try discriminate; cbn [metric_score] in Emx; injection Emx as <-; exact A. }
  destruct (exact_attr lower gold system weights fx f Ex Ef a m scx Ha Emx) as (x & Gx).
  destruct (rounds_attr a scx sc x R Gx) as (r & Gr & Er).
  assert (r = v) as -> by (destruct a; cbn [get_attr] in Gr; inversion Av; subst; congruence).
  pose proof (rows_approximate lower tg ts gold system weights fx f Lg Ls Ex Ef a [m] (Forall_cons _ (conj C Ha) (Forall_nil _))) as Ap.
  destruct (Ap (Model_Harness.metric_name m) (or_introl eq_refl)) as (sx' & s' & x' & r' & A1 & _ & A3 & _ & A5 & _).
  destruct (row_exact lower tg ts gold system weights fx Lg Ls Ex m (counts_weighted m C)) as (sx2 & B1 & B2).
  assert (sx' = scx) as -> by congruence. assert (x' = x) as -> by congruence.
  apply (ends_printed x); [exact A5 | | exact Er].
  exact (value_quotient 9999 lower tg ts gold system weights fx m scx a x Lg Ls Ex ltac:(lia) Ug Us C Emx Gx).
Qed.

(* ---- the table of the script ---- *)

Lemma cell_row m name sc line (f : metric -> option score) : row_shows shown_number f (m, name) line -> f m = Some sc -> line_shows (of_string name) sc line.
Proof.
  intros (sc' & E & R) Em. cbn [fst snd] in *. assert (sc' = sc) as -> by congruence. unfold line_shows. rewrite R.
  destruct cell_facts as (_ & _ & _ & Ce). rewrite !Ce. destruct (s_aligned sc); [now rewrite Ce | reflexivity].
Qed.

Lemma fl_none lower gold system weights f m : fl_evaluate lower gold system weights = Ok f -> f m = None -> m = MWeightedLAS /\ weights = None.
Proof.
  intros E N. unfold fl_evaluate in E. destruct (raise_if _ _); [|discriminate]. cbn [bind] in E. destruct (align lower _ _); [|discriminate].
  cbn [bind] in E. injection E as <-. destruct m; try discriminate. destruct weights; [discriminate | auto].
Qed.

Lemma script_printed lower tg ts gold system weights f verbose :
  load_conllu tg = Ok gold -> load_conllu ts = Ok system -> weights_nonneg weights -> fl_evaluate lower gold system weights = Ok f ->
  (exists sc, f MLAS = Some sc /\ report shown_number f (negb (is_none weights)) 0 = Ok [of_string "LAS F1 Score: " ++ fixed2 (percent (s_f1 sc))]) /\
  exists h1 h2 rows, report shown_number f (negb (is_none weights)) (S verbose) = Ok (h1 :: h2 :: rows) /\
    row_cells h1 = map of_string ["Metrics"; "Precision"; "Recall"; "F1 Score"; "AligndAcc"]%string /\
    Forall2 (fun row line => exists sc, f (fst row) = Some sc /\ line_shows (of_string (snd row)) sc line /\ bars 0 line = bars 0 h1)
      (rows_of (negb (is_none weights))) rows.
Proof.
  intros Lg Ls Wn E. destruct cell_facts as (Cp & _ & Cw & Ce). split.
  - destruct (fl_present _ _ _ _ _ E MLAS ltac:(discriminate)) as (sc & Em). exists sc. split; [exact Em|].
    unfold report. cbn [Nat.eqb]. unfold score_of. rewrite Em. cbn [of_option bind]. unfold hundredfold. now rewrite Ce.
  - assert (T : exists rows, mapM (table_row shown_number f) (table_metrics (negb (is_none weights))) = Ok rows).
    { apply rows_total. intros m N. destruct (fl_none _ _ _ _ _ _ E N) as [-> ->]. auto. }
    destruct T as (rows & T). pose proof (rows_show shown_number Cp f _ rows T) as S1.
    assert (B : Forall (fun line => bars 0 line = [11; 23; 35; 47]%nat) rows).
    { apply (rows_bars shown_number Cp) with (f := f) (w := negb (is_none weights)); auto.
      intros m sc Em. destruct (fl_evaluate_unit lower tg ts gold system weights f m sc Lg Ls Wn E Em) as (U1 & U2 & U3 & _). auto. }
    eexists _, _, rows. unfold report. cbn [Nat.eqb]. rewrite T. cbn [bind]. split; [reflexivity|]. split; [vm_compute; reflexivity|].
    clear - S1 B. induction S1 as [|row line l rows R S1 IH]; constructor; [|apply IH; now inversion B].
    destruct row as [m name]. pose proof R as (sc & Em & _). cbn [fst] in Em. exists sc. split; [exact Em|].
    split; [eapply cell_row; eauto | inversion B; assumption].
Qed.
