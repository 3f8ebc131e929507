(* The order of labels, and its independence of the order of the data. *)
From Coq Require Import ZArith NArith Bool Lia Permutation List Sorted.
From Verif Require Import Base BaseFacts Model_Datamodel Model_Vocab Model_Features Model_Lemma Spec_Datamodel Spec_Vocab Spec_Features
  Spec_Labels Proofs_Datamodel Proofs_Datamodel3 Proofs_Datamodel4 Proofs_Vocab Proofs_Lemma Proofs_Lemma2 Proofs_Features Proofs_Features2.
Import ListNotations.
Open Scope Z_scope.

(* ------------------------------------------------------------------ *)
(* comparisons and orders *)

Definition decides {A} (cmp : A -> A -> comparison) (lt : A -> A -> Prop) : Prop :=
  cmp_ok cmp /\ forall x y, cmp x y = Lt <-> lt x y.

Lemma lex_decides {A} cmp (lt : A -> A -> Prop) : decides cmp lt -> decides (lex_cmp cmp) (lex_before lt).
Proof.
  intros [O D]. split; [apply lex_cmp_ok; auto|].
  induction x as [|x l IH]; intros [|y l']; cbn [lex_cmp].
  - split; [discriminate|intros H; inversion H].
  - split; [constructor|auto].
  - split; [discriminate|intros X; inversion X].
  - destruct (cmp x y) eqn:E.
    + apply (cmp_eq _ O) in E. subst. rewrite IH. split; [intros; apply lb_same; auto|].
      intros H. inversion H; subst; auto. apply D in H1. rewrite cmp_refl in H1 by auto. discriminate.
    + split; [|auto]. intros _. apply lb_less. apply D; auto.
    + split; [discriminate|]. intros H. inversion H; subst.
      * apply D in H1. congruence.
      * rewrite cmp_refl in E by auto. discriminate.
Qed.

Lemma N_decides : decides N.compare N.lt.
Proof. split; [apply N_cmp_ok|]. intros. apply N.compare_lt_iff. Qed.

Lemma str_decides : decides str_cmp str_before.
Proof. apply lex_decides, N_decides. Qed.

Lemma pair_decides {A B} ca cb (la : A -> A -> Prop) (lb : B -> B -> Prop) : decides ca la -> decides cb lb ->
  decides (pair_cmp ca cb) (fun a b => la (fst a) (fst b) \/ (fst a = fst b /\ lb (snd a) (snd b))).
Proof.
  intros [Oa Da] [Ob Db]. split; [apply pair_cmp_ok; auto|]. intros [a b] [a' b']. unfold pair_cmp. cbn [fst snd].
  rewrite <- Da, <- Db. destruct (ca a a') eqn:E.
  - apply (cmp_eq _ Oa) in E. subst. intuition discriminate.
  - intuition.
  - assert (a <> a') by (intros ->; rewrite (cmp_refl ca Oa) in E; discriminate). intuition discriminate.
Qed.

Lemma items_decides : decides items_cmp items_before.
Proof. apply lex_decides, pair_decides; apply str_decides. Qed.

Lemma decides_gt {A} cmp (lt : A -> A -> Prop) : decides cmp lt -> forall x y, cmp x y = Gt <-> lt y x.
Proof. intros [O D] x y. rewrite cmp_gt_lt by auto. apply D. Qed.

(* ------------------------------------------------------------------ *)
(* labels whose comparison may fail *)

Record label_order {K} (eqb : K -> K -> bool) (cmp : K -> K -> result comparison) (lt : K -> K -> Prop) : Prop := {
  lo_equiv : equivalence eqb;
  lo_eq : forall a b, cmp a b = Ok Eq <-> (eqb a b = true /\ is_ok (cmp a b) = true);
  lo_lt : forall a b, cmp a b = Ok Lt <-> lt a b;
  lo_gt : forall a b, cmp a b = Ok Gt <-> lt b a;
  lo_trans : forall a b c, lt a b -> lt b c -> lt a c;
  lo_irrefl : forall a b, lt a b -> eqb a b = false;
  lo_resp : forall a a' b b', eqb a a' = true -> eqb b b' = true -> lt a b -> lt a' b';
  lo_ok : forall a a' b b', eqb a a' = true -> eqb b b' = true -> is_ok (cmp a b) = is_ok (cmp a' b') }.

Section Order.
Context {K : Type} (eqb : K -> K -> bool) (cmp : K -> K -> result comparison) (lt : K -> K -> Prop).
Hypothesis O : label_order eqb cmp lt.
Let HE : equivalence eqb := lo_equiv _ _ _ O.

Lemma lo_ok_sym a b : is_ok (cmp a b) = is_ok (cmp b a).
Proof.
  assert (H : forall a b, is_ok (cmp a b) = true -> is_ok (cmp b a) = true).
  { intros x y H. destruct (cmp x y) as [[]|] eqn:E; try discriminate.
    - apply (lo_eq _ _ _ O) in E. destruct E as [E H'].
      assert (E2 : eqb y x = true) by (apply HE; auto).
      rewrite <- (lo_ok _ _ _ O x y y x); auto.
    - apply (lo_lt _ _ _ O), (lo_gt _ _ _ O) in E. rewrite E. auto.
    - apply (lo_gt _ _ _ O), (lo_lt _ _ _ O) in E. rewrite E. auto. }
  apply Bool.eq_iff_eq_true. split; apply H.
Qed.

(* the pair has an order *)
Definition ordered (a b : K) : Prop := lt a b \/ lt b a.

Lemma ordered_leb a b : ordered a b -> (cmp_leb cmp a b = true /\ lt a b) \/ (cmp_leb cmp a b = false /\ lt b a).
Proof.
  unfold cmp_leb. intros [H|H].
  - left. split; auto. apply (lo_lt _ _ _ O) in H. rewrite H. auto.
  - right. split; auto. apply (lo_gt _ _ _ O) in H. rewrite H. auto.
Qed.

Lemma isort_strict l : ForallOrdPairs ordered l -> StronglySorted lt (isort (cmp_leb cmp) l).
Proof.
  induction 1 as [|x l F P IH]; cbn [isort]; [constructor|].
  assert (F' : Forall (ordered x) (isort (cmp_leb cmp) l)) by (eapply Permutation_Forall; [apply isort_perm|auto]).
  clear F P. revert IH F'. generalize (isort (cmp_leb cmp) l). intros m S. induction S as [|y m S IH Hy]; intros F; cbn [insert].
  - repeat constructor.
  - inversion F; subst. destruct (ordered_leb _ _ H1) as [[-> L]|[-> L]].
    + constructor; [constructor; auto|]. constructor; auto. eapply Forall_impl; [|exact Hy]. intros z. apply (lo_trans _ _ _ O); auto.
    + constructor; auto. eapply Permutation_Forall; [apply insert_perm|]. constructor; auto.
Qed.

Lemma distinct_ordered l : all_distinct eqb l -> all_comparable cmp l = true -> ForallOrdPairs ordered l.
Proof.
  induction 1 as [|x l F P IH]; cbn [all_comparable]; intros H; [constructor|].
  apply andb_true_iff in H. destruct H as [H1 H2]. constructor; auto.
  rewrite forallb_forall in H1. rewrite Forall_forall in *. intros y Hy. specialize (F y Hy). specialize (H1 y Hy).
  destruct (cmp x y) as [[]|] eqn:E; try discriminate.
  - apply (lo_eq _ _ _ O) in E. destruct E. congruence.
  - left. apply (lo_lt _ _ _ O); auto.
  - right. apply (lo_gt _ _ _ O); auto.
Qed.

Lemma ordered_comparable l : ForallOrdPairs ordered l -> all_comparable cmp l = true.
Proof.
  induction 1 as [|x l F P IH]; cbn [all_comparable]; auto. apply andb_true_iff. split; auto.
  apply forallb_forall. rewrite Forall_forall in F. intros y Hy. destruct (F y Hy) as [H|H].
  - apply (lo_lt _ _ _ O) in H. rewrite H. auto.
  - apply (lo_gt _ _ _ O) in H. rewrite H. auto.
Qed.

Lemma id2obj_sorted counts threshold l : all_distinct eqb (map fst counts) -> id2obj eqb cmp counts threshold = Ok l ->
  exists mc rest, l = mc :: rest /\ StronglySorted lt rest.
Proof.
  intros D E. unfold id2obj in E. destruct (most_common counts) as [mc|]; [|discriminate]. cbn [of_option bind] in E.
  apply bind_ok_iff in E. destruct E as (rest & Er & E). injection E as <-. exists mc, rest. split; auto.
  unfold py_sorted in Er. destruct (all_comparable _ _) eqn:C in Er; [|discriminate]. injection Er as <-.
  apply isort_strict. apply distinct_ordered; auto. apply FOP_filter.
  destruct (0 <? threshold); auto. apply all_distinct_map_filter; auto.
Qed.

(* ---- the same labels in another order ---- *)

Lemma sorted_same r r' : StronglySorted lt r -> StronglySorted lt r' ->
  (forall x, In x r -> exists y, In y r' /\ eqb x y = true) -> (forall y, In y r' -> exists x, In x r /\ eqb x y = true) ->
  Forall2 (fun a b => eqb a b = true) r r'.
Proof.
  intros S. revert r'. induction S as [|x r S IH Hx]; intros r' S' H1 H2.
  - destruct r' as [|y r']; [constructor|]. destruct (H2 y) as (z & [] & _). left; auto.
  - destruct r' as [|y r']; [destruct (H1 x) as (z & [] & _); left; auto|].
    inversion S' as [|? ? S2 Hy]; subst. rewrite Forall_forall in Hx, Hy.
    assert (E : eqb x y = true).
    { destruct (H1 x) as (y0 & Hy0 & E0); [left; auto|]. destruct Hy0 as [->|Hy0]; auto.
      destruct (H2 y) as (x0 & Hx0 & E1); [left; auto|]. destruct Hx0 as [->|Hx0]; auto.
      exfalso. specialize (Hx x0 Hx0). specialize (Hy y0 Hy0).
      assert (X : lt x y) by (apply (lo_resp _ _ _ O x x x0 y); auto using (eqv_refl eqb HE)).
      assert (Y : lt y x) by (apply (lo_resp _ _ _ O y y y0 x); auto using (eqv_refl eqb HE); rewrite eqv_sym; auto).
      apply (lo_trans _ _ _ O _ _ _ X) in Y. apply (lo_irrefl _ _ _ O) in Y. rewrite eqv_refl in Y by auto. discriminate. }
    constructor; auto. apply IH; auto.
    + intros a Ha. destruct (H1 a) as (b & Hb & Eb); [right; auto|]. destruct Hb as [<-|Hb]; [|eauto].
      exfalso. specialize (Hx a Ha). apply (lo_irrefl _ _ _ O) in Hx.
      assert (eqb x a = true); [|congruence]. apply (eqv_trans eqb HE _ y); auto. rewrite eqv_sym; auto.
    + intros b Hb. destruct (H2 b) as (a & Ha & Ea); [right; auto|]. destruct Ha as [<-|Ha]; [|eauto].
      exfalso. specialize (Hy b Hb). apply (lo_irrefl _ _ _ O) in Hy.
      assert (eqb y b = true); [|congruence]. apply (eqv_trans eqb HE _ x); auto. rewrite eqv_sym; auto.
Qed.

Lemma occurrences_same l l' k k' : Permutation l l' -> eqb k k' = true -> occurrences eqb k l = occurrences eqb k' l'.
Proof.
  intros P E. assert (A : occurrences eqb k l = occurrences eqb k' l).
  { clear P. induction l as [|x l IH]; cbn; auto. rewrite (eqv_subst eqb HE _ _ x E), IH. auto. }
  rewrite A. clear A. induction P; cbn; auto; lia.
Qed.

Lemma count_key labels k n : In (k, n) (count_list eqb labels) -> In k labels /\ n = occurrences eqb k labels /\ 0 < n.
Proof. apply count_list_In; auto. Qed.

Lemma most_common_winner labels w : (forall k', In k' labels -> eqb k' w = false -> occurrences eqb k' labels < occurrences eqb w labels) ->
  In w labels -> exists mc, most_common (count_list eqb labels) = Some mc /\ In mc labels /\ eqb mc w = true.
Proof.
  intros H Hw. destruct (most_common (count_list eqb labels)) as [mc|] eqn:M.
  - exists mc. split; auto. apply most_common_spec in M. destruct M as (b & n & a & E & Hb & Ha).
    assert (Hmc : In (mc, n) (count_list eqb labels)) by (rewrite E; apply in_app_iff; right; left; auto).
    destruct (count_key _ _ _ Hmc) as (Im & En & _). split; auto. destruct (eqb mc w) eqn:X; auto. exfalso.
    specialize (H mc Im X). destruct (In_count_list eqb HE labels w Hw) as (w' & Ew & Hw').
    rewrite E in Hw'. apply in_app_iff in Hw'. destruct Hw' as [Hw'|[Hw'|Hw']].
    + apply Hb in Hw'. lia.
    + injection Hw' as -> _. rewrite eqv_sym in Ew by auto. congruence.
    + apply Ha in Hw'. lia.
  - exfalso. destruct (count_list eqb labels) eqn:C; [|discriminate]. apply count_list_nil in C; auto. subst. destruct Hw.
Qed.

Definition kept_keys (t : Z) (counts : list (K * Z)) : list K :=
  map fst (if 0 <? t then filter (fun kv => t <? snd kv) counts else counts).

Lemma kept_iff t labels k : In k (kept_keys t (count_list eqb labels)) <->
  exists n, In (k, n) (count_list eqb labels) /\ (0 < t -> t < n).
Proof.
  unfold kept_keys. rewrite in_map_iff. destruct (0 <? t) eqn:T.
  - apply Z.ltb_lt in T. split.
    + intros ([k' n] & <- & H). apply filter_In in H. destruct H as [H X]. cbn [snd fst] in *. apply Z.ltb_lt in X. eauto.
    + intros (n & H & X). exists (k, n). split; auto. apply filter_In. split; auto. apply Z.ltb_lt. auto.
  - apply Z.ltb_ge in T. split.
    + intros ([k' n] & <- & H). exists n. split; auto. lia.
    + intros (n & H & _). exists (k, n). auto.
Qed.

Lemma kept_transfer t labels labels' k : Permutation labels labels' -> In k (kept_keys t (count_list eqb labels)) ->
  exists k', In k' (kept_keys t (count_list eqb labels')) /\ eqb k k' = true.
Proof.
  intros P H. apply kept_iff in H. destruct H as (n & H & T). destruct (count_key _ _ _ H) as (Ik & En & _).
  destruct (In_count_list eqb HE labels' k) as (k' & E & H'); [eapply Permutation_in; eauto|].
  exists k'. split; auto. apply kept_iff. eexists. split; [exact H'|].
  rewrite <- (occurrences_same labels labels' k k) by (auto using (eqv_refl eqb HE)). subst n. auto.
Qed.

Lemma reordered labels labels' t l : Permutation labels labels' -> clear_winner eqb labels ->
  id2obj eqb cmp (count_list eqb labels) t = Ok l ->
  exists l', id2obj eqb cmp (count_list eqb labels') t = Ok l' /\ Forall2 (fun a b => eqb a b = true) l l'.
Proof.
  intros P (w & Hw & Win) E.
  destruct (most_common_winner labels w Win Hw) as (mc & M & Im & Em).
  destruct (most_common_winner labels' w) as (mc' & M' & Im' & Em').
  { intros k' Hk' N. rewrite <- (occurrences_same labels labels' k' k'), <- (occurrences_same labels labels' w w) by (auto using (eqv_refl eqb HE)).
    apply Win; auto. eapply Permutation_in; [apply Permutation_sym; exact P|auto]. }
  { eapply Permutation_in; eauto. }
  unfold id2obj in *. rewrite M, M' in *. cbn [of_option bind] in *.
  fold (kept_keys t (count_list eqb labels)) in E. fold (kept_keys t (count_list eqb labels')).
  assert (Emm : eqb mc mc' = true) by (apply (eqv_trans eqb HE _ w); auto; rewrite eqv_sym; auto).
  assert (D : forall ls m, all_distinct eqb (filter (fun k => negb (eqb k m)) (kept_keys t (count_list eqb ls)))).
  { intros ls m. apply FOP_filter. unfold kept_keys. destruct (0 <? t); [apply all_distinct_map_filter|]; apply count_list_distinct; auto. }
  set (o := filter (fun k => negb (eqb k mc)) (kept_keys t (count_list eqb labels))) in *.
  set (o' := filter (fun k => negb (eqb k mc')) (kept_keys t (count_list eqb labels'))) in *.
  assert (T1 : forall x, In x o -> exists y, In y o' /\ eqb x y = true).
  { intros x Hx. apply filter_In in Hx. destruct Hx as [Hx Nx]. destruct (kept_transfer t labels labels' x P Hx) as (y & Hy & Ey).
    exists y. split; auto. apply filter_In. split; auto. rewrite <- (eqv_subst eqb HE x y mc' Ey), <- (eqv_subst_r eqb HE mc mc' x Emm). auto. }
  assert (T2 : forall y, In y o' -> exists x, In x o /\ eqb x y = true).
  { intros y Hy. apply filter_In in Hy. destruct Hy as [Hy Ny]. destruct (kept_transfer t labels' labels y (Permutation_sym P) Hy) as (x & Hx & Ex).
    exists x. split; [|rewrite eqv_sym; auto]. apply filter_In. split; auto. rewrite <- (eqv_subst eqb HE y x mc Ex), (eqv_subst_r eqb HE mc mc' y Emm). auto. }
  apply bind_ok_iff in E. destruct E as (rest & Er & E). injection E as <-. unfold py_sorted in *.
  destruct (all_comparable cmp o) eqn:C; [|discriminate]. injection Er as <-.
  assert (Oo := distinct_ordered _ (D labels mc) C). fold o in Oo.
  assert (C' : all_comparable cmp o' = true).
  { assert (Hd := D labels' mc'). fold o' in Hd. 
    assert (Ord : forall a b, In a o' -> In b o' -> eqb a b = false -> is_ok (cmp a b) = true).
    { intros a b Ha Hb N. destruct (T2 a Ha) as (a0 & Ha0 & Ea). destruct (T2 b Hb) as (b0 & Hb0 & Eb).
      assert (N0 : a0 <> b0).
      { intros ->. assert (eqb a b = true); [|congruence]. apply (eqv_trans eqb HE _ b0); auto. rewrite eqv_sym; auto. }
      rewrite <- (lo_ok _ _ _ O a0 a b0 b) by auto.
      destruct (ForallOrdPairs_In Oo a0 b0 Ha0 Hb0) as [X|[X|X]]; [congruence| |].
      - destruct X as [X|X]; [apply (lo_lt _ _ _ O) in X|apply (lo_gt _ _ _ O) in X]; rewrite X; auto.
      - destruct X as [X|X]; [apply (lo_gt _ _ _ O) in X|apply (lo_lt _ _ _ O) in X]; rewrite X; auto. }
    clear -Ord Hd. induction Hd as [|x l F P IH]; cbn [all_comparable]; auto. apply andb_true_iff. split.
    - apply forallb_forall. intros y Hy. rewrite Forall_forall in F. apply Ord; [left; auto|right; auto|auto].
    - apply IH. intros a b Ha Hb. apply Ord; right; auto. }
  rewrite C'. cbn [bind]. eexists. split; [reflexivity|]. constructor; auto.
  apply sorted_same.
  - apply isort_strict; auto.
  - apply isort_strict. apply distinct_ordered; auto. apply D.
  - intros x Hx. apply (Permutation_in _ (Permutation_sym (isort_perm _ _))) in Hx. destruct (T1 x Hx) as (y & Hy & Ey).
    exists y. split; auto. apply (Permutation_in _ (isort_perm _ _)). auto.
  - intros y Hy. apply (Permutation_in _ (Permutation_sym (isort_perm _ _))) in Hy. destruct (T2 y Hy) as (x & Hx & Ex).
    exists x. split; auto. apply (Permutation_in _ (isort_perm _ _)). auto.
Qed.
End Order.

(* ------------------------------------------------------------------ *)
(* the orders of the labels in use *)

(* equality that is Leibniz equality, comparison that never fails *)
Lemma total_label_order {K} (eqb : K -> K -> bool) cmp (lt : K -> K -> Prop) : (forall a b, eqb a b = true <-> a = b) -> decides cmp lt ->
  label_order eqb (fun a b => Ok (cmp a b)) lt.
Proof.
  intros E D. destruct D as [C D]. assert (G : forall x y, cmp x y = Gt <-> lt y x) by (intros; rewrite cmp_gt_lt by auto; apply D).
  split.
  - apply eqb_equivalence; auto.
  - intros a b. rewrite E. cbn [is_ok]. rewrite <- (cmp_eq _ C). split; [intros H; injection H as ->; auto|intros [-> _]; auto].
  - intros a b. rewrite <- D. split; [intros H; injection H as ->; auto|intros ->; auto].
  - intros a b. rewrite <- G. split; [intros H; injection H as ->; auto|intros ->; auto].
  - intros a b c. rewrite <- !D. apply (cmp_trans _ C).
  - intros a b H. apply D in H. destruct (eqb a b) eqn:X; auto. apply E in X. subst. rewrite cmp_refl in H by auto. discriminate.
  - intros a a' b b' H1 H2. apply E in H1, H2. subst. auto.
  - auto.
Qed.

Lemma rule_decides : decides rule_cmp rule_before.
Proof.
  split; [apply rule_cmp_ok|]. intros a b. unfold rule_cmp, rule_before.
  destruct str_decides as [O D]. destruct (str_cmp (word_suffix a) (word_suffix b)) eqn:E1.
  - apply (cmp_eq _ O) in E1. rewrite E1.
    assert (X : ~ str_before (word_suffix b) (word_suffix b)) by (rewrite <- D, cmp_refl by auto; discriminate).
    destruct (str_cmp (lemma_suffix a) (lemma_suffix b)) eqn:E2.
    + apply (cmp_eq _ O) in E2. rewrite E2.
      assert (Y : ~ str_before (lemma_suffix b) (lemma_suffix b)) by (rewrite <- D, cmp_refl by auto; discriminate).
      destruct (exception a), (exception b); cbn; intuition discriminate.
    + apply D in E2. intuition.
    + assert (lemma_suffix a <> lemma_suffix b) by (intros H; rewrite H, cmp_refl in E2 by auto; discriminate).
      assert (~ str_before (lemma_suffix a) (lemma_suffix b)) by (rewrite <- D; congruence). intuition discriminate.
  - apply D in E1. intuition.
  - assert (word_suffix a <> word_suffix b) by (intros H; rewrite H, cmp_refl in E1 by auto; discriminate).
    assert (~ str_before (word_suffix a) (word_suffix b)) by (rewrite <- D; congruence). intuition discriminate.
Qed.

Lemma rule_order : label_order rule_eqb (fun a b => Ok (rule_cmp a b)) rule_before.
Proof. apply total_label_order; [apply rule_eqb_eq|apply rule_decides]. Qed.

(* ---- comparisons that may fail ---- *)

Record pdecides {A} (cmp : A -> A -> result comparison) (lt : A -> A -> Prop) : Prop := {
  pd_eq : forall a b, cmp a b = Ok Eq <-> a = b;
  pd_lt : forall a b, cmp a b = Ok Lt <-> lt a b;
  pd_gt : forall a b, cmp a b = Ok Gt <-> lt b a;
  pd_trans : forall a b c, lt a b -> lt b c -> lt a c }.

Lemma pd_total {A} cmp (lt : A -> A -> Prop) : decides cmp lt -> pdecides (fun a b => Ok (cmp a b)) lt.
Proof.
  intros D. assert (G := decides_gt _ _ D). destruct D as [C D].
  assert (I : forall a b c, Ok (cmp a b) = Ok c <-> cmp a b = c) by (intros; split; [intros H; injection H as ->; auto|intros ->; auto]).
  split; intros a b; rewrite ?I; auto.
  - apply (cmp_eq _ C).
  - intros c. rewrite <- !D. apply (cmp_trans _ C).
Qed.

Lemma pd_both : pdecides opt_str_cmp both_before.
Proof.
  assert (P := pd_total _ _ str_decides). destruct P as [E L G T]. split.
  - intros [x|] [y|]; cbn [opt_str_cmp]; try (split; congruence). rewrite E. split; congruence.
  - intros [x|] [y|]; cbn [opt_str_cmp]; try (split; [discriminate|intros H; inversion H]). rewrite L.
    split; [constructor; auto|intros H; inversion H; auto].
  - intros [x|] [y|]; cbn [opt_str_cmp]; try (split; [discriminate|intros H; inversion H]). rewrite G.
    split; [constructor; auto|intros H; inversion H; auto].
  - intros a b c H1 H2. inversion H1; subst. inversion H2; subst. constructor. eauto.
Qed.

Definition cmp_then {A B} (ca : A -> A -> result comparison) (cb : B -> B -> result comparison) (x y : A * B) : result comparison :=
  do c <- ca (fst x) (fst y); match c with Eq => cb (snd x) (snd y) | c => Ok c end.
Definition lt_then {A B} (la : A -> A -> Prop) (lb : B -> B -> Prop) (x y : A * B) : Prop :=
  la (fst x) (fst y) \/ (fst x = fst y /\ lb (snd x) (snd y)).

Lemma pd_irrefl {A} cmp (lt : A -> A -> Prop) : pdecides cmp lt -> forall a, ~ lt a a.
Proof. intros P a H. apply (pd_lt _ _ P) in H. assert (E := proj2 (pd_eq _ _ P a a) eq_refl). congruence. Qed.

Lemma pd_then {A B} ca cb (la : A -> A -> Prop) (lb : B -> B -> Prop) : pdecides ca la -> pdecides cb lb ->
  pdecides (cmp_then ca cb) (lt_then la lb).
Proof.
  intros P Q. assert (IP := pd_irrefl _ _ P). destruct P as [E L G T]. destruct Q as [E' L' G' T'].
  assert (F : forall x y, match ca x y with Ok Eq => x = y | Ok Lt => la x y | Ok Gt => la y x | Err _ => x <> y /\ ~ la x y /\ ~ la y x end).
  { intros x y. destruct (ca x y) as [[]|] eqn:X; [apply E|apply L|apply G|]; auto.
    split; [intros ->; rewrite (proj2 (E y y) eq_refl) in X; discriminate|].
    split; intros H; [apply L in H|apply G in H]; congruence. }
  assert (N1 : forall x y, la x y -> x <> y) by (intros x y H ->; eapply IP; eauto).
  assert (N2 : forall x y, la x y -> la y x -> False) by (intros x y H H'; eapply IP; eauto).
  split.
  - intros [x u] [y v]. unfold cmp_then. cbn [fst snd]. specialize (F x y). destruct (ca x y) as [[]|]; cbn [bind].
    + subst. rewrite E'. split; [intros ->; auto|intros H; injection H as ->; auto].
    + split; [discriminate|]. intros H. injection H as -> ->. exfalso. eapply IP; eauto.
    + split; [discriminate|]. intros H. injection H as -> ->. exfalso. eapply IP; eauto.
    + split; [discriminate|]. intros H. injection H as -> ->. tauto.
  - intros [x u] [y v]. unfold cmp_then, lt_then. cbn [fst snd]. specialize (F x y). destruct (ca x y) as [[]|]; cbn [bind].
    + subst. rewrite L'. specialize (IP y). tauto.
    + split; auto.
    + split; [discriminate|]. intros [H|[-> H]]; exfalso; eauto.
    + split; [discriminate|]. tauto.
  - intros [x u] [y v]. unfold cmp_then, lt_then. cbn [fst snd]. specialize (F x y). destruct (ca x y) as [[]|]; cbn [bind].
    + subst. rewrite G'. specialize (IP y). tauto.
    + split; [discriminate|]. intros [H|[-> H]]; exfalso; eauto.
    + split; auto.
    + split; [discriminate|]. intros [H|[-> H]]; tauto.
  - intros [x u] [y v] [z w]. unfold lt_then. cbn [fst snd]. intros [H1|[-> H1]] [H2|[-> H2]]; eauto.
Qed.

Lemma pd_none_first {A} c (lt : A -> A -> Prop) : pdecides c lt -> pdecides (none_first c) (opt_before lt).
Proof.
  intros [E L G T]. split.
  - intros [x|] [y|]; cbn [none_first]; try (split; congruence). rewrite E. split; congruence.
  - intros [x|] [y|]; cbn [none_first].
    + rewrite L. split; [constructor; auto|intros H; inversion H; auto].
    + split; [discriminate|intros H; inversion H].
    + split; [constructor|auto].
    + split; [discriminate|intros H; inversion H].
  - intros [x|] [y|]; cbn [none_first].
    + rewrite G. split; [constructor; auto|intros H; inversion H; auto].
    + split; [constructor|auto].
    + split; [discriminate|intros H; inversion H].
    + split; [discriminate|intros H; inversion H].
  - intros a b d H1 H2. inversion H1; subst; inversion H2; subst; constructor. eauto.
Qed.

(* a label is ordered by what can be seen of it *)
Lemma viewed_order {K V} (view : K -> V) (eqb : K -> K -> bool) cmp vcmp lt vlt :
  (forall a b, eqb a b = true <-> view a = view b) -> pdecides vcmp vlt ->
  (forall a b, cmp a b = vcmp (view a) (view b)) -> (forall a b, lt a b <-> vlt (view a) (view b)) ->
  label_order eqb cmp lt.
Proof.
  intros E P C L. assert (I := pd_irrefl _ _ P). destruct P as [PE PL PG PT]. split.
  - split; [intros a; apply E; auto|]. split; intros a b; [rewrite !E; auto|]. intros c. rewrite !E. congruence.
  - intros a b. rewrite C, PE, E. split; [|tauto]. intros H. split; auto. rewrite (proj2 (PE _ _) H). auto.
  - intros a b. rewrite C, PL, L. tauto.
  - intros a b. rewrite C, PG, L. tauto.
  - intros a b c. rewrite !L. apply PT.
  - intros a b H. apply L in H. destruct (eqb a b) eqn:X; auto. apply E in X. rewrite X in H. exfalso. eapply I; eauto.
  - intros a a' b b' H1 H2. apply E in H1, H2. rewrite !L, H1, H2. auto.
  - intros a a' b b' H1 H2. apply E in H1, H2. rewrite !C, H1, H2. auto.
Qed.

Lemma lemma_order : label_order lemma_eqb lemma_cmp (opt_before str_before).
Proof.
  apply (viewed_order (fun x => x) lemma_eqb lemma_cmp lemma_cmp _ (opt_before str_before)); try tauto.
  - intros a b. apply option_str_eqb.
  - apply pd_none_first, (pd_total _ _ str_decides).
Qed.

(* ---- parts ---- *)

Definition pview := (option str * (option str * list (str * str)))%type.
Definition pview_of (p : pos) : pview := (upos p, (xpos p, sorted_items (feats p))).
Inductive view := VPos (p : option pview) | VStr (s : option str) | VFeats (f : list (str * str)) | VXF (x : option str * list (str * str)).
Definition view_of (a : part) : view :=
  match a with
  | PaPos p => VPos (option_map pview_of p)
  | PaStr s => VStr s
  | PaFeats f => VFeats f
  | PaXF x f => VXF (x, f)
  end.
Definition items_pcmp (f g : list (str * str)) : result comparison := Ok (items_cmp f g).
Definition pview_cmp := cmp_then opt_str_cmp (cmp_then opt_str_cmp items_pcmp).
Definition pview_lt := lt_then both_before (lt_then both_before items_before).
Definition view_cmp (a b : view) : result comparison :=
  match a, b with
  | VPos p, VPos q => none_first pview_cmp p q
  | VStr s, VStr t => none_first (fun x y => Ok (str_cmp x y)) s t
  | VFeats f, VFeats g => items_pcmp f g
  | VXF x, VXF y => cmp_then opt_str_cmp items_pcmp x y
  | _, _ => Err EType
  end.
Definition view_lt (a b : view) : Prop :=
  match a, b with
  | VPos p, VPos q => opt_before pview_lt p q
  | VStr s, VStr t => opt_before str_before s t
  | VFeats f, VFeats g => items_before f g
  | VXF x, VXF y => lt_then both_before items_before x y
  | _, _ => False
  end.

Lemma view_pdecides : pdecides view_cmp view_lt.
Proof.
  assert (PI : pdecides items_pcmp items_before) by apply (pd_total _ _ items_decides).
  assert (PX := pd_then _ _ _ _ pd_both PI). assert (PP := pd_none_first _ _ (pd_then _ _ _ _ pd_both PX)).
  assert (PS := pd_none_first _ _ (pd_total _ _ str_decides)).
  split.
  - intros [p|s|f|x] [p'|s'|f'|x']; cbn [view_cmp]; try (split; intros; discriminate).
    + change (none_first (cmp_then opt_str_cmp (cmp_then opt_str_cmp items_pcmp)) p p' = Ok Eq <-> VPos p = VPos p').
      rewrite (pd_eq _ _ PP). split; congruence.
    + rewrite (pd_eq _ _ PS). split; congruence.
    + rewrite (pd_eq _ _ PI). split; congruence.
    + rewrite (pd_eq _ _ PX). split; congruence.
  - intros [p|s|f|x] [p'|s'|f'|x']; cbn [view_cmp view_lt]; try (split; [discriminate|tauto]).
    + apply (pd_lt _ _ PP).
    + apply (pd_lt _ _ PS).
    + apply (pd_lt _ _ PI).
    + apply (pd_lt _ _ PX).
  - intros [p|s|f|x] [p'|s'|f'|x']; cbn [view_cmp view_lt]; try (split; [discriminate|tauto]).
    + apply (pd_gt _ _ PP).
    + apply (pd_gt _ _ PS).
    + apply (pd_gt _ _ PI).
    + apply (pd_gt _ _ PX).
  - intros [p|s|f|x] [p'|s'|f'|x'] [p2|s2|f2|x2]; cbn [view_lt]; try tauto.
    + apply (pd_trans _ _ PP).
    + apply (pd_trans _ _ PS).
    + apply (pd_trans _ _ PI).
    + apply (pd_trans _ _ PX).
Qed.

Lemma part_order : label_order part_view_eqb part_cmp part_before.
Proof.
  apply (viewed_order view_of part_view_eqb part_cmp view_cmp part_before view_lt).
  - intros [p|s|f|x f] [p'|s'|f'|x' f']; cbn [part_view_eqb part_eqb view_of]; try (split; intros; discriminate).
    + rewrite view_eqb_iff. destruct p as [p|], p' as [p'|]; cbn [option_map]; try (split; congruence).
      unfold tuple_view, pview_of. split; intros H; injection H; intros; congruence.
    + rewrite option_str_eqb. split; congruence.
    + rewrite items_eqb_eq. split; congruence.
    + rewrite andb_true_iff, option_str_eqb, items_eqb_eq. split; [intros [-> ->]; auto|intros H; injection H as -> ->; auto].
  - apply view_pdecides.
  - intros [p|s|f|x f] [p'|s'|f'|x' f']; cbn [part_cmp view_cmp view_of]; auto.
    + destruct p as [p|], p' as [p'|]; cbn [option_map none_first]; auto.
    + unfold cmp_then. cbn [fst snd]. destruct (opt_str_cmp x x') as [[]|]; auto.
  - assert (PL : forall p q, pos_before p q <-> pview_lt (pview_of p) (pview_of q)).
    { intros p q. unfold pos_before, pview_lt, lt_then. cbn [fst snd pview_of]. tauto. }
    intros [p|s|f|x f] [p'|s'|f'|x' f']; cbn [view_lt view_of]; try (split; [intros H; inversion H|tauto]).
    + destruct p as [p|], p' as [p'|]; cbn [option_map]; split; intros H.
      * inversion H as [? ? H'| | |]; subst. inversion H'; subst. constructor. apply PL; auto.
      * inversion H; subst. constructor. constructor. apply PL; auto.
      * inversion H as [? ? H'| | |]; subst. inversion H'.
      * inversion H.
      * constructor.
      * repeat constructor.
      * inversion H as [? ? H'| | |]; subst. inversion H'.
      * inversion H.
    + split; [intros H; inversion H; auto|constructor; auto].
    + split; [intros H; inversion H; auto|constructor; auto].
    + unfold lt_then. cbn [fst snd]. split; [intros H; inversion H; auto|constructor; auto].
Qed.
