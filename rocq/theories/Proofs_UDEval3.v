(* Linking the words of a sentence to their heads. *)
From Coq Require Import String ZArith NArith QArith Bool Sorted Lia List.
From Verif Require Import Base BaseFacts Model_Datamodel Model_Conllu Spec_Datamodel Spec_Conllu Model_UDEval Spec_UDEval Proofs_UDEval.
From Verif Require Import Proofs_Datamodel Proofs_Datamodel2 Proofs_Syntax Proofs_Conllu Proofs_Conllu10.
Import ListNotations.
Open Scope Z_scope.

Lemma set_nth_get {A} (l : list A) i j x y : nth_error (set_nth l i x) j = Some y ->
  (i = j /\ y = x) \/ (i <> j /\ nth_error l j = Some y).
Proof.
  intro H. destruct (Nat.eq_dec i j) as [->|N].
  - left. split; auto. assert (j < length l)%nat.
    { apply nth_error_Some_lt in H. now rewrite set_nth_length in H. }
    rewrite set_nth_same in H by auto. congruence.
  - right. split; auto. now rewrite set_nth_other in H by auto.
Qed.

Definition not_remap (p : parent) : bool := match p with PaRemap => false | _ => true end.
Lemma count_remap : forall ps i, nth_error ps i = Some PaNone ->
  length (filter not_remap ps) = S (length (filter not_remap (set_nth ps i PaRemap))).
Proof.
  induction ps as [|p ps IH]; intros [|i] H; try discriminate.
  - injection H as ->. reflexivity.
  - cbn in H. cbn [set_nth filter]. specialize (IH _ H). destruct (not_remap p); cbn [length]; lia.
Qed.

Lemma length_filter {A} (f : A -> bool) l : (length (filter f l) <= length l)%nat.
Proof. induction l as [|x l IH]; cbn; auto. destruct (f x); cbn; lia. Qed.

Section Link.

Variable prev ws : list word.
Variable hs : list Z.
Hypothesis Hheads : Forall2 head_of ws hs.
Hypothesis Hrange : Forall (fun h => 0 <= h <= zlen ws) hs.
Hypothesis Hnew : Forall (fun w => w_parent w = PaNone) ws.

Let words := prev ++ ws.
Let base := length prev.
Let n := length ws.
Let start := zlen prev.
Let heads := map (fun h => Some (h - 1)) hs.
Definition settled (h : Z) : parent := if h =? 0 then PaNone else PaWord (zlen prev + (h - 1)).

Lemma hs_length : length hs = n.
Proof. unfold n. symmetry. eapply Forall2_length'; eauto. Qed.

Lemma hs_at j : (j < n)%nat -> exists h w, nth_error hs j = Some h /\ nth_error words (base + j) = Some w /\ head_of w h /\ 0 <= h <= Z.of_nat n.
Proof.
  intro L. destruct (nth_error hs j) as [h|] eqn:E.
  - destruct (Forall2_nth_r _ _ _ _ _ Hheads E) as (w & E' & H). exists h, w. split; auto. split; [|split]; auto.
    + unfold words, base. rewrite nth_error_app2 by lia. replace (length prev + j - length prev)%nat with j by lia. auto.
    + rewrite Forall_forall in Hrange. apply nth_error_In in E. apply Hrange in E. exact E.
  - apply nth_error_None in E. rewrite hs_length in E. lia.
Qed.

Lemma head_at j h : nth_error hs j = Some h -> nth_error heads j = Some (Some (h - 1)).
Proof. intro E. unfold heads. now apply map_nth_error with (f := fun h => Some (h - 1)). Qed.

Lemma words_length : length words = (base + n)%nat.
Proof. apply app_length. Qed.

Lemma process_step fuel ps j p h : (j < n)%nat -> length ps = length words ->
  nth_error ps (base + j) = Some p -> nth_error hs j = Some h ->
  process_word (S fuel) words start ps (start + Z.of_nat j) =
  match p with
  | PaRemap => Err EUD
  | PaWord _ => Ok ps
  | PaNone => if h =? 0 then Ok ps else
      do ps' <- process_word fuel words start (set_nth ps (base + j) PaRemap) (start + Z.of_nat (Z.to_nat (h - 1)));
      Ok (set_nth ps' (base + j) (PaWord (start + (h - 1))))
  end.
Proof.
  intros L Ln E Eh. cbn [process_word].
  assert (T : Z.to_nat (start + Z.of_nat j) = (base + j)%nat) by (unfold start, zlen, base; lia).
  rewrite py_index_nonneg by (unfold start, zlen; lia). rewrite T, E. cbn [of_option bind].
  destruct p; auto.
  destruct (hs_at j L) as (h' & w & Eh' & Ew & (c & Ec & Pc) & R).
  assert (h' = h) by congruence. subst h'.
  rewrite py_index_nonneg by (unfold start, zlen; lia). rewrite T, Ew. cbn [of_option bind].
  rewrite py_index_nonneg by (cbv; discriminate).
  change (Z.to_nat cHEAD) with 6%nat. rewrite Ec. cbn [of_option bind]. rewrite Pc. cbn [bind].
  assert (Zl : zlen words = start + Z.of_nat n). { unfold zlen, start. rewrite words_length. unfold zlen, base. lia. }
  replace (zlen words - start <? h) with false by (symmetry; apply Z.ltb_ge; lia).
  destruct (Z.eqb_spec h 0) as [->|N]; auto.
  unfold resolve_index. pose proof (zlen_nonneg prev). unfold start in *.
  destruct (Z.ltb_spec (zlen prev + h - 1) 0); [lia|].
  replace ((0 <=? zlen prev + h - 1) && (zlen prev + h - 1 <? zlen words)) with true
    by (symmetry; apply andb_true_intro; split; [apply Z.leb_le|apply Z.ltb_lt]; lia).
  cbn [bind].
  replace (Z.of_nat (Z.to_nat (h - 1))) with (h - 1) by lia.
  replace (zlen prev + h - 1) with (zlen prev + (h - 1)) by lia. reflexivity.
Qed.

(* every word linked so far is linked to its head and leads to a root *)
Definition inv (ps : list parent) : Prop :=
  length ps = length words /\
  forall j h k, nth_error hs j = Some h -> nth_error ps (base + j) = Some (PaWord k) ->
    settled h = PaWord k /\ reaches_root heads j.

Definition frame (ps ps' : list parent) : Prop :=
  (forall i p, nth_error ps i = Some p -> p <> PaNone -> nth_error ps' i = Some p) /\
  (forall i, nth_error ps' i = Some PaRemap -> nth_error ps i = Some PaRemap) /\
  (forall i, (i < base)%nat -> nth_error ps' i = nth_error ps i).

Lemma inv_remap ps j : inv ps -> inv (set_nth ps (base + j) PaRemap).
Proof.
  intros [Ln H]. split; [now rewrite set_nth_length|].
  intros i h k E E'. apply set_nth_get in E' as [[_ C]|[_ E']]; [discriminate|]. eauto.
Qed.

Lemma process_sound : forall fuel ps j h ps', inv ps -> nth_error hs j = Some h ->
  process_word fuel words start ps (start + Z.of_nat j) = Ok ps' ->
  inv ps' /\ frame ps ps' /\ nth_error ps' (base + j) = Some (settled h) /\ reaches_root heads j.
Proof.
  induction fuel as [|fuel IH]; intros ps j h ps' I0 Eh E; [discriminate|].
  assert (L : (j < n)%nat) by (rewrite <- hs_length; eapply nth_error_Some_lt; eauto).
  destruct I0 as [Ln Hw].
  destruct (nth_error ps (base + j)) as [p|] eqn:Ep.
  2:{ apply nth_error_None in Ep. rewrite Ln, words_length in Ep. lia. }
  rewrite (process_step fuel ps j p h L Ln Ep Eh) in E.
  destruct p.
  - destruct (Z.eqb_spec h 0) as [->|N].
    + injection E as <-. split; [split; auto|]. split; [repeat split; auto|]. split; [exact Ep|].
      apply rr_root. rewrite (head_at _ _ Eh). reflexivity.
    + apply bind_ok_iff in E as (ps2 & E2 & E). injection E as <-.
      destruct (hs_at j L) as (h' & w & Eh' & _ & _ & R). assert (h' = h) by congruence. subst h'.
      destruct (hs_at (Z.to_nat (h - 1)) ltac:(lia)) as (h2 & w2 & Eh2 & _ & _ & R2).
      destruct (IH _ _ _ _ (inv_remap _ j (conj Ln Hw)) Eh2 E2) as ((Ln2 & Hw2) & (F1 & F2 & F3) & S2 & RR).
      assert (RJ : reaches_root heads j).
      { apply rr_step with (h := Z.to_nat (h - 1)); auto. rewrite (head_at _ _ Eh). repeat f_equal. lia. }
      assert (Lj : (base + j < length ps)%nat) by (rewrite Ln, words_length; lia).
      split; [|split; [|split]]; auto.
      * split; [now rewrite set_nth_length|]. intros i hi k Ei Ek.
        apply set_nth_get in Ek as [[Ei2 Ek]|[_ Ek]]; eauto.
        assert (i = j) by lia. subst i. split; auto. assert (hi = h) by congruence. subst hi.
        unfold settled. destruct (Z.eqb_spec h 0); [contradiction|]. symmetry. exact Ek.
      * split; [|split].
        -- intros i p Hi Np. destruct (Nat.eq_dec (base + j) i) as [<-|Ni]; [congruence|].
           rewrite set_nth_other by auto. apply F1; auto. now rewrite set_nth_other by auto.
        -- intros i Hi. apply set_nth_get in Hi as [[_ C]|[Ni Hi]]; [discriminate|].
           apply F2 in Hi. apply set_nth_get in Hi as [[C _]|[_ Hi]]; [contradiction|auto].
        -- intros i Li. rewrite set_nth_other by lia. rewrite F3 by auto. now rewrite set_nth_other by lia.
      * rewrite set_nth_same by (rewrite Ln2, <- Ln; auto). unfold settled. destruct (Z.eqb_spec h 0); [contradiction|reflexivity].
  - discriminate.
  - injection E as <-. destruct (Hw _ _ _ Eh Ep) as [Es RR].
    split; [split; auto|]. split; [repeat split; auto|]. split; auto. now rewrite Es.
Qed.

(* enough fuel: either linked or refused *)
Lemma process_total : forall fuel ps j, length ps = length words -> (j < n)%nat ->
  (length (filter not_remap ps) < fuel)%nat ->
  (exists ps', process_word fuel words start ps (start + Z.of_nat j) = Ok ps') \/
  process_word fuel words start ps (start + Z.of_nat j) = Err EUD.
Proof.
  induction fuel as [|fuel IH]; intros ps j Ln L F; [lia|].
  destruct (nth_error ps (base + j)) as [p|] eqn:Ep.
  2:{ apply nth_error_None in Ep. rewrite Ln, words_length in Ep. lia. }
  destruct (hs_at j L) as (h & w & Eh & _ & _ & R).
  rewrite (process_step fuel ps j p h L Ln Ep Eh). destruct p; eauto.
  destruct (Z.eqb_spec h 0) as [->|N]; eauto.
  destruct (IH (set_nth ps (base + j) PaRemap) (Z.to_nat (h - 1))) as [(ps' & ->)| ->].
  - now rewrite set_nth_length.
  - lia.
  - rewrite (count_remap _ _ Ep) in F. lia.
  - cbn [bind]. eauto.
  - cbn [bind]. eauto.
Qed.

(* distance from the root *)
Inductive depth : nat -> nat -> Prop :=
| dp_root j : nth_error hs j = Some 0 -> depth j 0
| dp_step j h d : nth_error hs j = Some h -> h <> 0 -> depth (Z.to_nat (h - 1)) d -> depth j (S d).

Lemma depth_fun j d : depth j d -> forall d', depth j d' -> d = d'.
Proof.
  induction 1 as [j E|j h d E N D IH]; intros d' D'; inversion D'; subst; auto; try congruence.
  f_equal. apply IH. congruence.
Qed.

Lemma reaches_depth j : reaches_root heads j -> exists d, depth j d.
Proof.
  induction 1 as [j E|j k E R (d & D)]; unfold heads in E; rewrite nth_error_map in E;
    destruct (nth_error hs j) as [h|] eqn:Eh; try discriminate; cbn in E; injection E as E.
  - exists 0%nat. constructor. rewrite Eh. f_equal. lia.
  - exists (S d). apply dp_step with (h := h); auto; [lia|]. replace (Z.to_nat (h - 1)) with k by lia. auto.
Qed.

Lemma process_complete : forall fuel ps j d, length ps = length words -> (j < n)%nat -> depth j d ->
  (forall i, nth_error ps (base + i) = Some PaRemap -> forall d', depth i d' -> (d < d')%nat) ->
  process_word fuel words start ps (start + Z.of_nat j) <> Err EUD.
Proof.
  induction fuel as [|fuel IH]; intros ps j d Ln L D H; [discriminate|].
  destruct (nth_error ps (base + j)) as [p|] eqn:Ep.
  2:{ apply nth_error_None in Ep. rewrite Ln, words_length in Ep. lia. }
  destruct (hs_at j L) as (h & w & Eh & _ & _ & R).
  rewrite (process_step fuel ps j p h L Ln Ep Eh). destruct p.
  - destruct (Z.eqb_spec h 0) as [->|N]; [discriminate|].
    inversion D as [? E0|? h' d1 E0 N0 D1]; subst; [congruence|]. assert (h' = h) by congruence. subst h'.
    specialize (IH (set_nth ps (base + j) PaRemap) (Z.to_nat (h - 1)) d1).
    destruct (process_word fuel words start (set_nth ps (base + j) PaRemap) (start + Z.of_nat (Z.to_nat (h - 1)))) as [ps'|x];
      cbn [bind]; [discriminate|].
    intro C. apply IH; auto.
    + now rewrite set_nth_length.
    + lia.
    + intros i Hi d' Di. apply set_nth_get in Hi as [[Ei _]|[_ Hi]].
      * assert (i = j) by lia. subst i. rewrite <- (depth_fun _ _ D _ Di). lia.
      * specialize (H _ Hi _ Di). lia.
  - exfalso. specialize (H _ Ep _ D). lia.
  - discriminate.
Qed.

(* all words of the sentence *)
Let loop ps js := foldM (fun ps j => process_word (S (length words)) words start ps j) ps
                        (map (fun i => start + Z.of_nat i) js).

Definition no_remap (ps : list parent) : Prop := forall i, nth_error ps (base + i) <> Some PaRemap.

Lemma loop_sound : forall js ps ps', Forall (fun j => (j < n)%nat) js -> inv ps -> no_remap ps -> loop ps js = Ok ps' ->
  inv ps' /\ no_remap ps' /\ frame ps ps' /\
  Forall (fun j => reaches_root heads j /\ forall h, nth_error hs j = Some h -> nth_error ps' (base + j) = Some (settled h)) js.
Proof.
  induction js as [|j js IH]; intros ps ps' F I0 NR E.
  - injection E as <-. split; auto. split; auto. split; [repeat split; auto|constructor].
  - inversion F as [|? ? Lj F']; subst. unfold loop in E. cbn [map foldM] in E.
    apply bind_ok_iff in E as (ps1 & E1 & E).
    destruct (hs_at j Lj) as (h & w & Eh & _).
    destruct (process_sound _ _ _ _ _ I0 Eh E1) as (I1 & (G1 & G2 & G3) & S1 & R1).
    assert (NR1 : no_remap ps1) by (intros i C; apply (NR i), G2, C).
    destruct (IH ps1 ps' F' I1 NR1 E) as (I2 & NR2 & (K1 & K2 & K3) & R2).
    split; auto. split; auto. split.
    + split; [|split]; auto. intros i Li. rewrite K3, G3; auto.
    + constructor; auto. split; auto. intros h' Eh'. assert (h' = h) by congruence. subst h'.
      destruct (settled h) eqn:Es.
      * (* a root stays unlinked: it can only be linked as settled *)
        destruct (nth_error ps' (base + j)) as [p|] eqn:Ep.
        -- destruct p; auto; [now apply NR2 in Ep|]. destruct I2 as [_ I2]. apply (I2 _ _ _ Eh) in Ep as [Ep _]. congruence.
        -- apply nth_error_None in Ep. destruct I2 as [L2 _]. rewrite L2, words_length in Ep. lia.
      * apply K1; auto. discriminate.
      * apply K1; auto. discriminate.
Qed.

Lemma loop_complete : (forall j, (j < n)%nat -> reaches_root heads j) ->
  forall js ps, Forall (fun j => (j < n)%nat) js -> inv ps -> no_remap ps -> exists ps', loop ps js = Ok ps'.
Proof.
  intro All. induction js as [|j js IH]; intros ps F I0 NR; [eexists; reflexivity|].
  inversion F as [|? ? Lj F']; subst.
  destruct (reaches_depth j (All j Lj)) as (d & D).
  destruct (process_total (S (length words)) ps j (proj1 I0) Lj) as [(ps1 & E1)|E1].
  - rewrite <- (proj1 I0). pose proof (length_filter not_remap ps). lia.
  - destruct (hs_at j Lj) as (h & w & Eh & _).
    destruct (process_sound _ _ _ _ _ I0 Eh E1) as (I1 & (G1 & G2 & G3) & S1 & R1).
    assert (NR1 : no_remap ps1) by (intros i C; apply (NR i), G2, C).
    destruct (IH ps1 F' I1 NR1) as (ps' & E). exists ps'. unfold loop. cbn [map foldM]. rewrite E1. exact E.
  - exfalso. eapply process_complete; [exact (proj1 I0)|exact Lj|exact D| |exact E1].
    intros i C. now apply NR in C.
Qed.

Lemma loop_total : forall js ps, Forall (fun j => (j < n)%nat) js -> inv ps -> no_remap ps ->
  (exists ps', loop ps js = Ok ps') \/ loop ps js = Err EUD.
Proof.
  induction js as [|j js IH]; intros ps F I0 NR; [left; eexists; reflexivity|].
  inversion F as [|? ? Lj F']; subst. unfold loop. cbn [map foldM].
  destruct (process_total (S (length words)) ps j (proj1 I0) Lj) as [(ps1 & E1)|E1].
  - rewrite <- (proj1 I0). pose proof (length_filter not_remap ps). lia.
  - destruct (hs_at j Lj) as (h & w & Eh & _).
    destruct (process_sound _ _ _ _ _ I0 Eh E1) as (I1 & (G1 & G2 & G3) & S1 & R1).
    assert (NR1 : no_remap ps1) by (intros i C; apply (NR i), G2, C).
    rewrite E1. cbn [bind]. apply (IH ps1 F' I1 NR1).
  - right. rewrite E1. reflexivity.
Qed.

Lemma initial_none i : (i < n)%nat -> nth_error (map w_parent words) (base + i) = Some PaNone.
Proof.
  intro L. destruct (nth_error ws i) as [w|] eqn:E.
  - unfold words, base. rewrite nth_error_map, nth_error_app2 by lia.
    replace (length prev + i - length prev)%nat with i by lia. rewrite E. cbn.
    rewrite Forall_forall in Hnew. f_equal. apply Hnew. eapply nth_error_In; eauto.
  - apply nth_error_None in E. fold n in E. lia.
Qed.

Lemma initial_inv : inv (map w_parent words) /\ no_remap (map w_parent words).
Proof.
  split; [split|].
  - apply map_length.
  - intros j h k E C. assert (j < n)%nat by (rewrite <- hs_length; eapply nth_error_Some_lt; eauto).
    rewrite initial_none in C by auto. discriminate.
  - intros i C. assert (i < n)%nat.
    { apply nth_error_Some_lt in C. rewrite map_length, words_length in C. lia. }
    rewrite initial_none in C by auto. discriminate.
Qed.

Lemma seq_lt : Forall (fun j => (j < n)%nat) (seq 0 n).
Proof. apply Forall_forall. intros j I0. apply in_seq in I0. lia. Qed.

Lemma loop_result ps' : loop (map w_parent words) (seq 0 n) = Ok ps' ->
  ps' = map w_parent prev ++ map settled hs /\ forall j, (j < n)%nat -> reaches_root heads j.
Proof.
  intro E. destruct initial_inv as [I0 NR].
  destruct (loop_sound _ _ _ seq_lt I0 NR E) as ((Ln & Hw) & NR' & (F1 & F2 & F3) & R).
  assert (R' : forall j, (j < n)%nat -> reaches_root heads j /\ forall h, nth_error hs j = Some h -> nth_error ps' (base + j) = Some (settled h)).
  { rewrite Forall_forall in R. intros j L. apply R. apply in_seq. lia. }
  split; [|intros j L; apply R'; auto].
  apply nth_error_ext. intro i. destruct (Nat.lt_ge_cases i base) as [L|L].
  - rewrite F3 by auto. unfold words, base in *. rewrite map_app, !nth_error_app1 by (rewrite map_length; auto). reflexivity.
  - rewrite (nth_error_app2 (map w_parent prev)) by (rewrite map_length; auto).
    rewrite map_length. fold base. destruct (Nat.lt_ge_cases i (base + n)) as [L'|L'].
    + destruct (hs_at (i - base) ltac:(lia)) as (h & w & Eh & _).
      rewrite (map_nth_error settled _ _ Eh). destruct (R' (i - base)%nat ltac:(lia)) as [_ R2].
      specialize (R2 _ Eh). replace (base + (i - base))%nat with i in R2 by lia. exact R2.
    + rewrite (proj2 (nth_error_None ps' i)) by (rewrite Ln, words_length; auto).
      symmetry. apply nth_error_None. rewrite map_length, hs_length. lia.
Qed.

Lemma roots_are hs' : length (filter is_root (map settled hs')) = length (filter (Z.eqb 0) hs').
Proof.
  induction hs' as [|h hs' IH]; auto. cbn [map filter]. unfold settled at 1.
  rewrite (Z.eqb_sym 0 h). destruct (h =? 0); cbn [is_root length]; auto.
Qed.

Lemma one_filter (l : list Z) : length (filter (Z.eqb 0) l) = 1%nat <->
  exists r, nth_error l r = Some 0 /\ forall r', nth_error l r' = Some 0 -> r' = r.
Proof.
  induction l as [|h l IH].
  - split; [discriminate|]. intros (r & E & _). destruct r; discriminate.
  - cbn [filter]. destruct (Z.eqb_spec 0 h) as [<-|N].
    + cbn [length]. split.
      * intro E. exists 0%nat. split; auto. intros [|r'] E'; auto. exfalso. cbn in E'. apply nth_error_In in E'.
        destruct (filter (Z.eqb 0) l) as [|x xs] eqn:Ef; [|cbn in E; lia].
        assert (In 0 (filter (Z.eqb 0) l)) by (apply filter_In; auto). rewrite Ef in H. destruct H.
      * intros (r & E & U). assert (r = 0%nat) by (symmetry; apply U; reflexivity). subst r.
        destruct (filter (Z.eqb 0) l) as [|x xs] eqn:Ef; auto. exfalso.
        assert (Ix : In x (filter (Z.eqb 0) l)) by (rewrite Ef; left; auto). apply filter_In in Ix as [Ix Ex].
        apply Z.eqb_eq in Ex. subst x. apply In_nth_error in Ix as (k & Ek). specialize (U (S k) Ek). discriminate.
    + rewrite IH. split; intros (r & E & U).
      * exists (S r). split; auto. intros [|r'] E'; [cbn in E'; congruence|]. f_equal. auto.
      * destruct r as [|r]; [cbn in E; congruence|]. exists r. split; auto. intros r' E'. specialize (U (S r') E'). congruence.
Qed.

Lemma with_parents_app (l1 l2 : list word) p1 p2 : length l1 = length p1 ->
  with_parents (l1 ++ l2) (p1 ++ p2) = with_parents l1 p1 ++ with_parents l2 p2.
Proof.
  revert p1. induction l1 as [|w l1 IH]; intros [|p p1] L; try discriminate; auto.
  cbn. f_equal. apply IH. now injection L.
Qed.
Lemma with_parents_same (l : list word) : with_parents l (map w_parent l) = l.
Proof. induction l as [|w l IH]; auto. cbn. rewrite IH. now destruct w. Qed.

Lemma with_parents_linked : forall l k, Forall2 head_of l k -> Forall2 (fun w' wh => linked start (fst wh) (snd wh) w') (with_parents l (map settled k)) (combine l k).
Proof.
  induction 1 as [|w h l k H F IH]; [constructor|]. cbn. constructor; auto.
  unfold linked, settled. cbn. repeat split; auto.
Qed.

Lemma tree_iff : dependency_tree heads <->
  length (filter (Z.eqb 0) hs) = 1%nat /\ forall j, (j < n)%nat -> reaches_root heads j.
Proof.
  rewrite one_filter. unfold dependency_tree. split.
  - intros (T1 & (r & T2 & T2') & T3 & T4). split.
    + assert (B : forall k, nth_error heads k = Some (Some (-1)) <-> nth_error hs k = Some 0).
      { intro k. unfold heads. rewrite nth_error_map. destruct (nth_error hs k) as [h|]; cbn; [|split; discriminate].
        split; intro E; [injection E as E; f_equal; lia|injection E as ->; reflexivity]. }
      exists r. split; [now apply B|]. intros r' E. apply T2', B, E.
    + intros j L. apply T4. unfold heads. rewrite map_length, hs_length. exact L.
  - intros ((r & T2 & T2') & T4).
    assert (B : forall k, nth_error heads k = Some (Some (-1)) <-> nth_error hs k = Some 0).
    { intro k. unfold heads. rewrite nth_error_map. destruct (nth_error hs k) as [h|]; cbn; [|split; discriminate].
      split; intro E; [injection E as E; f_equal; lia|injection E as ->; reflexivity]. }
    split; [|split; [|split]].
    + intros i E. unfold heads in E. rewrite nth_error_map in E. destruct (nth_error hs i); discriminate.
    + exists r. split; [now apply B|]. intros r' E. apply T2', B, E.
    + intros i h E. unfold heads in *. rewrite nth_error_map in E. destruct (nth_error hs i) as [x|] eqn:Ex; [|discriminate].
      injection E as <-. rewrite map_length, hs_length. rewrite Forall_forall in Hrange.
      apply nth_error_In, Hrange in Ex. unfold zlen in Ex. fold n in Ex. lia.
    + intros i L. apply T4. unfold heads in L. now rewrite map_length, hs_length in L.
Qed.

Lemma link_unfold : link_sentence words start =
  do ps <- loop (map w_parent words) (seq 0 n);
  do _ <- raise_if (negb (zlen (filter is_root (skipn base ps)) =? 1)) EUD;
  Ok (with_parents words ps).
Proof.
  unfold link_sentence. replace (Z.to_nat start) with base by (unfold start, zlen, base; lia).
  rewrite words_length. replace (base + n - base)%nat with n by lia. unfold loop. now rewrite words_length.
Qed.

Lemma link_total : (exists r, link_sentence words start = Ok r) \/ link_sentence words start = Err EUD.
Proof.
  rewrite link_unfold. destruct initial_inv as [I0 NR].
  destruct (loop_total (seq 0 n) _ seq_lt I0 NR) as [(ps & E)|E]; rewrite E; cbn [bind]; auto.
  destruct (negb _); cbn [raise_if bind]; eauto.
Qed.

Lemma link_sound r : link_sentence words start = Ok r ->
  dependency_tree heads /\ exists ws', r = prev ++ ws' /\ Forall2 (fun w' wh => linked start (fst wh) (snd wh) w') ws' (combine ws hs).
Proof.
  rewrite link_unfold. intro E. apply bind_ok_iff in E as (ps & E1 & E).
  apply loop_result in E1 as [-> R]. apply bind_ok_iff in E as (u & E2 & E). injection E as <-.
  split.
  - apply tree_iff. split; auto. unfold base in E2. rewrite <- (map_length w_parent prev) in E2.
    rewrite skipn_app, skipn_all, Nat.sub_diag in E2. cbn [skipn app] in E2.
    unfold zlen in E2. rewrite roots_are in E2. unfold raise_if in E2.
    destruct (Z.eqb_spec (Z.of_nat (length (filter (Z.eqb 0) hs))) 1); [lia|discriminate].
  - eexists. split.
    + unfold words. rewrite with_parents_app by (now rewrite map_length). rewrite with_parents_same. reflexivity.
    + now apply with_parents_linked.
Qed.

Lemma link_complete : dependency_tree heads -> exists r, link_sentence words start = Ok r.
Proof.
  intro T. apply tree_iff in T as [T1 T2]. rewrite link_unfold. destruct initial_inv as [I0 NR].
  destruct (loop_complete T2 (seq 0 n) _ seq_lt I0 NR) as (ps & E). rewrite E. cbn [bind].
  apply loop_result in E as [-> R].
  unfold base. rewrite <- (map_length w_parent prev).
  rewrite skipn_app, skipn_all, Nat.sub_diag. cbn [skipn app].
  unfold zlen. rewrite roots_are, T1. cbn. eauto.
Qed.

End Link.
