(* How deep process_word calls itself. *)
From Coq Require Import String ZArith NArith QArith Bool Sorted Lia List.
From Verif Require Import Base BaseFacts Model_Datamodel Model_Conllu Spec_Datamodel Spec_Conllu Model_UDEval Spec_UDEval Proofs_UDEval.
From Verif Require Import Proofs_Datamodel Proofs_Datamodel2 Proofs_Syntax Proofs_Conllu Proofs_Conllu10 Proofs_UDEval3.
From Verif Require Import Model_Recursion Spec_Recursion.
Import ListNotations.
Open Scope Z_scope.

(* ---- the limit as fuel ---- *)

Definition relabel {A} (r : result A) : result A := match r with Err EFuel => Err ERuntime | _ => r end.

Lemma parse_int_err s e : parse_int s = Err e -> e = EValue.
Proof.
  unfold parse_int. destruct (strip s) as [|c s']; [congruence|].
  destruct (c =? 45)%N; [|destruct (c =? 43)%N]; destruct (parse_nat_str _); cbn; congruence.
Qed.

Lemma py_index_err {A} (l : list A) i e : py_index l i = Err e -> e = EIndex.
Proof. unfold py_index. destruct (_ <? 0) eqn:E; [congruence|]. destruct (nth_error _ _); cbn; congruence. Qed.

Lemma process_relabel words start : forall limit ps j,
  process_word_in limit words start ps j = relabel (process_word limit words start ps j).
Proof.
  induction limit as [|limit IH]; intros ps j; [reflexivity|]. cbn [process_word_in process_word].
  destruct (py_index ps j) as [p|e] eqn:E; cbn [bind]; [|apply py_index_err in E; subst; reflexivity].
  destruct p; try reflexivity.
  destruct (py_index words j) as [w|e] eqn:E1; cbn [bind]; [|apply py_index_err in E1; subst; reflexivity].
  destruct (py_index (w_columns w) cHEAD) as [c|e] eqn:E2; cbn [bind]; [|apply py_index_err in E2; subst; reflexivity].
  destruct (parse_int c) as [h|e] eqn:E3; cbn [bind]; [|apply parse_int_err in E3; subst; reflexivity].
  destruct (_ <? h); [reflexivity|]. destruct (h =? 0); [reflexivity|].
  unfold resolve_index. destruct (_ && _); cbn [bind]; [|reflexivity].
  rewrite IH. match goal with |- context [process_word ?a ?b ?c ?d ?e] => destruct (process_word a b c d e) as [ps'|x] end; [reflexivity|].
  destruct x; reflexivity.
Qed.

(* ---- ways to the root ---- *)

Lemma way_fun hs j p : way hs j p -> forall p', way hs j p' -> p = p'.
Proof.
  induction 1 as [j E|j h p E P W IH]; intros p' W'; inversion W'; subst; auto; try congruence.
  - rewrite E in H. injection H as <-. lia.
  - rewrite E in H. injection H as ->. lia.
  - f_equal. apply IH. congruence.
Qed.

Lemma way_head hs j p : way hs j p -> exists q, p = j :: q.
Proof. destruct 1; eauto. Qed.

Lemma way_in hs j p : way hs j p -> forall k, In k p -> exists a q, p = a ++ q /\ way hs k q.
Proof.
  induction 1 as [j E|j h p E P W IH]; intros k I0.
  - destruct I0 as [<-|[]]. exists [], [j]. split; auto. now constructor.
  - destruct I0 as [<-|I0].
    + exists [], (j :: p). split; auto. econstructor; eauto.
    + destruct (IH k I0) as (a & q & -> & Wk). exists (j :: a), q. auto.
Qed.

Lemma way_nodup hs j p : way hs j p -> NoDup p.
Proof.
  induction 1 as [j E|j h p E P W IH]; [repeat constructor; auto|].
  constructor; auto. intro I0. destruct (way_in _ _ _ W j I0) as (a & q & -> & Wj).
  assert (Wj' : way hs j (j :: a ++ q)) by (econstructor; eauto).
  pose proof (way_fun _ _ _ Wj _ Wj') as C. apply (f_equal (@length nat)) in C. cbn in C. rewrite app_length in C. lia.
Qed.

Lemma way_lt hs j p : way hs j p -> forall k, In k p -> (k < length hs)%nat.
Proof.
  induction 1 as [j E|j h p E P W IH]; intros k [<-|I0]; auto; try (now destruct I0); apply nth_error_Some; congruence.
Qed.

Section Climb.

Variable prev ws : list word.
Variable hs : list Z.
Hypothesis Hheads : Forall2 head_of ws hs.
Hypothesis Hrange : Forall (fun h => 0 <= h <= zlen ws) hs.
Hypothesis Hnew : Forall (fun w => w_parent w = PaNone) ws.

Let words := prev ++ ws.
Let base := length prev.
Let n := length ws.
Let start := zlen prev.
Let heads := map (fun h => Some (h - 1)) hs.

Lemma reaches_way j : reaches_root heads j -> exists p, way hs j p.
Proof.
  induction 1 as [j E|j k E R (p & W)]; unfold heads in E; rewrite nth_error_map in E;
    destruct (nth_error hs j) as [h|] eqn:Eh; try discriminate; cbn in E; injection E as E.
  - exists [j]. constructor. rewrite Eh. f_equal. lia.
  - exists (j :: p). apply way_up with (h := h); auto; [lia|]. replace (Z.to_nat (h - 1)) with k by lia. auto.
Qed.

(* the words of the way that are linked by the call *)
Definition unlinked (ps : list parent) (k : nat) : bool :=
  match nth_error ps (base + k), nth_error hs k with
  | Some PaNone, Some h => negb (h =? 0)
  | _, _ => false
  end.

Fixpoint first_part (ps : list parent) (path : list nat) : list nat :=
  match path with
  | [] => []
  | k :: rest => if unlinked ps k then k :: first_part ps rest else []
  end.

Lemma first_part_set ps j x path : ~ In j path -> first_part (set_nth ps (base + j) x) path = first_part ps path.
Proof.
  induction path as [|k path IH]; intro N; auto. cbn [first_part].
  assert (j <> k) by (intro; subst; apply N; now left).
  replace (unlinked (set_nth ps (base + j) x) k) with (unlinked ps k)
    by (unfold unlinked; rewrite set_nth_other by lia; reflexivity).
  rewrite IH by (intro; apply N; now right). reflexivity.
Qed.

Definition linked_to (ps ps' : list parent) (l : list nat) : Prop :=
  length ps' = length ps /\
  forall k, (In k l -> exists i, nth_error ps' (base + k) = Some (PaWord i)) /\
            (~ In k l -> nth_error ps' (base + k) = nth_error ps (base + k)).

Lemma climb_exact : forall path j, way hs j path -> forall limit ps, length ps = length words ->
  (forall k, In k path -> nth_error ps (base + k) <> Some PaRemap) ->
  ((length (first_part ps path) < limit)%nat ->
     exists ps', process_word limit words start ps (start + Z.of_nat j) = Ok ps' /\ linked_to ps ps' (first_part ps path)) /\
  ((limit <= length (first_part ps path))%nat ->
     process_word limit words start ps (start + Z.of_nat j) = Err EFuel).
Proof.
  intros path j W. induction W as [j E|j h path E P W IH]; intros limit ps Ln NR.
  - assert (Lj : (j < n)%nat) by (unfold n; rewrite <- (hs_length ws hs Hheads); apply nth_error_Some; congruence).
    assert (F : first_part ps [j] = []).
    { cbn [first_part]. unfold unlinked. rewrite E. destruct (nth_error ps (base + j)) as [[]|]; auto. }
    rewrite F. cbn [length]. split; intro L.
    + destruct limit as [|limit]; [lia|]. destruct (nth_error ps (base + j)) as [p|] eqn:Ep.
      2:{ apply nth_error_None in Ep. unfold words in Ln. rewrite Ln, app_length in Ep. fold base n in Ep. lia. }
      unfold words, start; rewrite (process_step prev ws hs Hheads Hrange limit ps j p 0 Lj Ln Ep E); fold words start base.
      destruct p; cbn [Z.eqb].
      * exists ps. split; auto. split; auto. intro k. split; [intros []|auto].
      * exfalso. apply (NR j); auto. now left.
      * exists ps. split; auto. split; auto. intro k. split; [intros []|auto].
    + destruct limit; [reflexivity|lia].
  - assert (Lj : (j < n)%nat) by (unfold n; rewrite <- (hs_length ws hs Hheads); apply nth_error_Some; congruence).
    assert (Nj : ~ In j path).
    { assert (W' : way hs j (j :: path)) by (econstructor; eauto). apply way_nodup in W'. now inversion W'. }
    destruct (nth_error ps (base + j)) as [p|] eqn:Ep.
    2:{ apply nth_error_None in Ep. unfold words in Ln. rewrite Ln, app_length in Ep. fold base n in Ep. lia. }
    assert (U : unlinked ps j = match p with PaNone => true | _ => false end).
    { unfold unlinked. rewrite Ep, E. destruct (Z.eqb_spec h 0) as [->|Nh]; [lia|]. destruct p; reflexivity. }
    cbn [first_part]. rewrite U.
    destruct p.
    + assert (NR' : forall k, In k path -> nth_error (set_nth ps (base + j) PaRemap) (base + k) <> Some PaRemap).
      { intros k Ik. rewrite set_nth_other; [apply NR; now right|]. intro C. assert (j = k) by lia. subst. contradiction. }
      assert (Ln' : length (set_nth ps (base + j) PaRemap) = length words) by (now rewrite set_nth_length).
      cbn [length]. split; intro L.
      * destruct limit as [|limit]; [lia|].
        unfold words, start; rewrite (process_step prev ws hs Hheads Hrange limit ps j PaNone h Lj Ln Ep E); fold words start base.
        destruct (Z.eqb_spec h 0) as [->|_]; [lia|].
        destruct (IH limit _ Ln' NR') as [I1 _]. rewrite first_part_set in I1 by auto.
        destruct (I1 ltac:(lia)) as (ps' & Ep' & Lp & K). rewrite Ep'. cbn [bind]. eexists. split; [reflexivity|]. split.
        -- rewrite set_nth_length, Lp. apply set_nth_length.
        -- intro k. split.
           ++ intros [<-|Ik].
              ** exists (zlen prev + (h - 1)). rewrite set_nth_same; auto. rewrite Lp, Ln'. unfold words. rewrite app_length. fold base n. lia.
              ** destruct (proj1 (K k) Ik) as (i & Ei). destruct (Nat.eq_dec j k) as [<-|Njk].
                 { exists (zlen prev + (h - 1)). rewrite set_nth_same; auto. rewrite Lp, Ln'. unfold words. rewrite app_length. fold base n. lia. }
                 exists i. rewrite set_nth_other by lia. exact Ei.
           ++ intro Nk. assert (j <> k) by (intro; subst; apply Nk; now left).
              rewrite set_nth_other by lia. destruct (K k) as [_ K2]. rewrite K2 by (intro; apply Nk; now right).
              apply set_nth_other. lia.
      * destruct limit as [|limit]; [reflexivity|].
        unfold words, start; rewrite (process_step prev ws hs Hheads Hrange limit ps j PaNone h Lj Ln Ep E); fold words start base.
        destruct (Z.eqb_spec h 0) as [->|_]; [lia|].
        destruct (IH limit _ Ln' NR') as [_ I2]. rewrite first_part_set in I2 by auto. rewrite I2 by lia. reflexivity.
    + exfalso. apply (NR j); auto. now left.
    + cbn [length]. split; intro L.
      * destruct limit as [|limit]; [lia|].
        unfold words, start; rewrite (process_step prev ws hs Hheads Hrange limit ps j _ h Lj Ln Ep E); fold words start base.
        exists ps. split; auto. split; auto. intro k. split; [intros []|auto].
      * destruct limit; [reflexivity|lia].
Qed.

(* ---- all words of a sentence ---- *)

Hypothesis Hways : forall j, (j < n)%nat -> exists p, way hs j p.

(* the words before i have been processed *)
Definition processed (i : nat) (ps : list parent) : Prop :=
  length ps = length words /\
  forall k, (k < n)%nat ->
    nth_error ps (base + k) <> Some PaRemap /\
    (nth_error ps (base + k) = Some PaNone <->
     nth_error hs k = Some 0 \/ forall i' p, (i' < i)%nat -> way hs i' p -> ~ In k p).

Lemma hs_len : length hs = n.
Proof. exact (hs_length ws hs Hheads). Qed.

Lemma ps_at (ps : list parent) k : length ps = length words -> (k < n)%nat -> exists p, nth_error ps (base + k) = Some p.
Proof.
  intros Ln L. destruct (nth_error ps (base + k)) eqn:E; eauto.
  apply nth_error_None in E. unfold words in Ln. rewrite Ln, app_length in E. fold base n in E. lia.
Qed.

Lemma unlinked_spec i ps k : processed i ps -> (k < n)%nat ->
  (unlinked ps k = true <-> nth_error hs k <> Some 0 /\ forall i' p, (i' < i)%nat -> way hs i' p -> ~ In k p).
Proof.
  intros [Ln H] L. destruct (H k L) as [_ Hk]. unfold unlinked.
  destruct (nth_error hs k) as [h|] eqn:Eh.
  2:{ apply nth_error_None in Eh. rewrite hs_len in Eh. lia. }
  destruct (ps_at ps k Ln L) as (p & Ep). rewrite Ep in Hk. rewrite Ep. destruct p.
  - destruct (Z.eqb_spec h 0) as [->|N]; cbn [negb].
    + split; [discriminate|]. intros [C _]. congruence.
    + split; auto. intros _. split; [congruence|]. destruct (proj1 Hk eq_refl) as [C|C]; [congruence|exact C].
  - split; [discriminate|]. intros [_ C]. pose proof (proj2 Hk (or_intror C)). discriminate.
  - split; [discriminate|]. intros [_ C]. pose proof (proj2 Hk (or_intror C)). discriminate.
Qed.

Lemma first_part_prefix ps path : exists rest, path = first_part ps path ++ rest /\ (forall k, hd_error rest = Some k -> unlinked ps k = false).
Proof.
  induction path as [|k path (rest & E & H)]; [exists []; split; auto; discriminate|].
  cbn [first_part]. destruct (unlinked ps k) eqn:U.
  - exists rest. split; auto. cbn. now rewrite <- E.
  - exists (k :: path). split; auto. cbn. intros x C. congruence.
Qed.

Lemma first_part_all ps path k : In k (first_part ps path) -> unlinked ps k = true /\ In k path.
Proof.
  induction path as [|x path IH]; cbn [first_part]; [intros []|]. destruct (unlinked ps x) eqn:U; [|intros []].
  intros [<-|I0]; [split; auto; now left|]. destruct (IH I0). split; auto. now right.
Qed.

Lemma first_part_longest ps l rest : (forall k, In k l -> unlinked ps k = true) -> (length l <= length (first_part ps (l ++ rest)))%nat.
Proof.
  induction l as [|k l IH]; intro H; [cbn; lia|]. cbn [app first_part]. rewrite (H k (or_introl eq_refl)). cbn [length].
  apply le_n_S, IH. intros x I0. apply H. now right.
Qed.

(* above a linked word all words are linked *)
Lemma linked_above i ps j q : processed i ps -> way hs j q -> unlinked ps j = false -> forall k, In k q -> unlinked ps k = false.
Proof.
  intros Pr W U k Ik.
  assert (Lj : (j < n)%nat).
  { rewrite <- hs_len. apply (way_lt _ _ _ W). destruct (way_head _ _ _ W) as (r & ->). now left. }
  assert (Lk : (k < n)%nat) by (rewrite <- hs_len; apply (way_lt _ _ _ W); auto).
  destruct (unlinked ps k) eqn:Uk; auto. exfalso.
  apply (unlinked_spec i ps k Pr Lk) in Uk as [Rk Fk].
  assert (C : unlinked ps j = true); [|congruence].
  apply (unlinked_spec i ps j Pr Lj). split.
  - intro Ej. inversion W as [? E|? h p E P W']; subst; [|rewrite Ej in E; injection E as <-; lia].
    destruct Ik as [<-|[]]. contradiction.
  - intros i' p Li Wi Ij. destruct (way_in _ _ _ Wi j Ij) as (a & r & -> & Wj).
    rewrite (way_fun _ _ _ Wj _ W) in Wi. eapply (Fk i' _ Li Wi). apply in_or_app. now right.
Qed.

Lemma first_part_iff i ps j path : processed i ps -> way hs j path -> forall k, In k path ->
  (In k (first_part ps path) <-> unlinked ps k = true).
Proof.
  intros Pr W k Ik. split; [intro H; now apply first_part_all in H|]. intro U.
  destruct (first_part_prefix ps path) as (rest & E & H). rewrite E in Ik. apply in_app_or in Ik as [Ik|Ik]; auto. exfalso.
  destruct rest as [|x rest]; [destruct Ik|].
  assert (Ix : In x path) by (rewrite E; apply in_or_app; right; now left).
  destruct (way_in _ _ _ W x Ix) as (a & q & Eq & Wx).
  assert (Nd := way_nodup _ _ _ W).
  assert (q = x :: rest).
  { destruct (way_head _ _ _ Wx) as (q' & ->). rewrite Eq in E.
    assert (G : forall (l1 l2 r1 r2 : list nat), NoDup (l1 ++ x :: r1) -> l1 ++ x :: r1 = l2 ++ x :: r2 -> r1 = r2).
    { clear. induction l1 as [|a l1 IH]; intros l2 r1 r2 N E; destruct l2 as [|b l2]; cbn in E, N.
      - now injection E.
      - injection E as E1 E2. exfalso. subst. inversion N as [|? ? N1 _]. apply N1. apply in_or_app. right. now left.
      - injection E as E1 E2. exfalso. subst. inversion N as [|? ? N1 _]. apply N1. apply in_or_app. right. now left.
      - injection E as E1 E2. inversion N. eapply IH; eauto. }
    f_equal. eapply G; [|exact E]. rewrite <- Eq. exact Nd. }
  subst q. assert (unlinked ps k = false); [|congruence].
  eapply linked_above; [exact Pr|exact Wx| |exact Ik]. apply H. reflexivity.
Qed.

Lemma processed_next i ps ps' path : (i < n)%nat -> processed i ps -> way hs i path -> linked_to ps ps' (first_part ps path) -> processed (S i) ps'.
Proof.
  intros Li Pr W [Lp K]. pose proof Pr as [Ln H]. split; [congruence|]. intros k Lk.
  destruct (K k) as [K1 K2]. destruct (H k Lk) as [H1 H2]. destruct (in_dec Nat.eq_dec k (first_part ps path)) as [Ik|Nk].
  - destruct (K1 Ik) as (x & Ex). rewrite Ex. split; [discriminate|]. split; [discriminate|].
    apply first_part_all in Ik as [U Ik]. apply (unlinked_spec i ps k Pr Lk) in U as [U1 U2].
    intros [C|C]; [congruence|]. exfalso. exact (C i path (Nat.lt_succ_diag_r i) W Ik).
  - rewrite (K2 Nk). split; auto. rewrite H2. split; intros [C|C]; auto.
    + destruct (in_dec Nat.eq_dec k path) as [Ik|Nk'].
      * left. destruct (nth_error hs k) as [h|] eqn:Eh; [|apply nth_error_None in Eh; rewrite hs_len in Eh; lia].
        destruct (Z.eq_dec h 0) as [->|Nh]; auto. exfalso. apply Nk. apply (first_part_iff i ps i path Pr W k Ik).
        apply (unlinked_spec i ps k Pr Lk). split; auto. congruence.
      * right. intros i' p L Wi I0. destruct (Nat.eq_dec i' i) as [->|N].
        -- rewrite (way_fun _ _ _ Wi _ W) in I0. contradiction.
        -- apply (C i' p); auto. lia.
    + right. intros i' p L Wi. apply (C i' p); auto.
Qed.

Lemma climb_iff i ps path : (i < n)%nat -> processed i ps -> way hs i path ->
  climb hs i (first_part ps path) /\ forall l, climb hs i l -> (length l <= length (first_part ps path))%nat.
Proof.
  intros Li Pr W. split.
  - destruct (first_part_prefix ps path) as (rest & E & _). exists rest. split; [now rewrite <- E|].
    intros j I0. apply first_part_all in I0 as [U I0].
    apply (unlinked_spec i ps j Pr) in U; auto. rewrite <- hs_len. eapply way_lt; eauto.
  - intros l (rest & Wl & F). rewrite (way_fun _ _ _ W _ Wl). apply first_part_longest.
    intros k Ik. apply (unlinked_spec i ps k Pr); auto. rewrite <- hs_len. eapply way_lt; [exact Wl|]. apply in_or_app. now left.
Qed.

Let loop limit ps js := foldM (fun ps j => process_word limit words start ps j) ps (map (fun i => start + Z.of_nat i) js).

Lemma loop_exact limit : forall m i ps, (i + m = n)%nat -> processed i ps ->
  ((forall i' l, (i <= i' < n)%nat -> climb hs i' l -> (length l < limit)%nat) -> exists ps', loop limit ps (seq i m) = Ok ps') /\
  ((exists i' l, (i <= i' < n)%nat /\ climb hs i' l /\ (limit <= length l)%nat) -> loop limit ps (seq i m) = Err EFuel).
Proof.
  induction m as [|m IH]; intros i ps En Pr.
  - cbn. split; [eauto|]. intros (i' & l & L & _). lia.
  - cbn [seq]. unfold loop. cbn [map foldM].
    destruct (Hways i ltac:(lia)) as (path & W).
    destruct (climb_iff i ps path ltac:(lia) Pr W) as [C1 C2].
    destruct (climb_exact path i W limit ps (proj1 Pr)) as [E1 E2].
    { intros k Ik. apply (proj2 Pr k). rewrite <- hs_len. eapply way_lt; eauto. }
    destruct (Nat.lt_ge_cases (length (first_part ps path)) limit) as [L|L].
    + destruct (E1 L) as (ps1 & Ep & Lk). rewrite Ep. cbn [bind].
      assert (Pr1 := processed_next i ps ps1 path ltac:(lia) Pr W Lk).
      destruct (IH (S i) ps1 ltac:(lia) Pr1) as [J1 J2]. split.
      * intro H. apply J1. intros i' l Li C. apply (H i' l); auto. lia.
      * intros (i' & l & Li & C & G). apply J2. exists i', l. split; [|auto].
        destruct (Nat.eq_dec i' i) as [->|]; [|lia]. specialize (C2 l C). lia.
    + rewrite (E2 L). cbn [bind]. split; auto. intro H. specialize (H i _ ltac:(lia) C1). lia.
Qed.

Lemma initial_processed : processed 0 (map w_parent words).
Proof.
  split; [apply map_length|]. intros k Lk. unfold words, base. rewrite (initial_none prev ws Hnew k Lk).
  split; [discriminate|]. split; auto. intros _. right. intros i' p C. lia.
Qed.

End Climb.

Lemma link_in_is prev ws limit :
  link_sentence_in limit (prev ++ ws) (zlen prev) =
  do ps <- relabel (foldM (fun ps j => process_word limit (prev ++ ws) (zlen prev) ps j) (map w_parent (prev ++ ws))
                  (map (fun i => zlen prev + Z.of_nat i) (seq 0 (length ws))));
  do _ <- raise_if (negb (zlen (filter is_root (skipn (length prev) ps)) =? 1)) EUD;
  Ok (with_parents (prev ++ ws) ps).
Proof.
  unfold link_sentence_in. replace (Z.to_nat (zlen prev)) with (length prev) by (unfold zlen; lia).
  rewrite app_length. replace (length prev + length ws - length prev)%nat with (length ws) by lia. f_equal.
  generalize (map w_parent (prev ++ ws)). induction (seq 0 (length ws)) as [|i l IH]; intro ps; [reflexivity|].
  cbn [map foldM]. rewrite process_relabel.
  destruct (process_word _ _ _ _ _) as [ps'|e]; cbn [bind relabel]; [apply IH|]. destruct e; reflexivity.
Qed.

(* more fuel gives the same result *)
Lemma process_mono words start : forall limit limit' ps j r, process_word limit words start ps j = Ok r -> (limit <= limit')%nat ->
  process_word limit' words start ps j = Ok r.
Proof.
  induction limit as [|limit IH]; intros [|limit'] ps j r E L; try discriminate; [lia|]. cbn [process_word] in *.
  destruct (py_index ps j) as [p|]; cbn [bind] in *; auto. destruct p; auto.
  destruct (py_index words j) as [w|]; cbn [bind] in *; auto.
  destruct (py_index (w_columns w) cHEAD) as [c|]; cbn [bind] in *; auto.
  destruct (parse_int c) as [h|]; cbn [bind] in *; auto.
  destruct (_ <? h); auto. destruct (h =? 0); auto.
  destruct (resolve_index _ _) as [k|]; cbn [bind] in *; auto.
  destruct (process_word limit _ _ _ _) as [ps'|] eqn:Ep; cbn [bind] in *; [|discriminate].
  rewrite (IH limit' _ _ _ Ep) by lia. exact E.
Qed.

(* every call marks a word that was not marked *)
Lemma process_bounded words start : forall limit ps j r, process_word limit words start ps j = Ok r -> 0 <= j ->
  process_word (S (length (filter not_remap ps))) words start ps j = Ok r.
Proof.
  induction limit as [|limit IH]; intros ps j r E J; [discriminate|]. cbn [process_word] in E |- *.
  destruct (py_index ps j) as [p|] eqn:Ex; cbn [bind] in *; auto. destruct p; auto.
  destruct (py_index words j) as [w|]; cbn [bind] in *; auto.
  destruct (py_index (w_columns w) cHEAD) as [c|]; cbn [bind] in *; auto.
  destruct (parse_int c) as [h|]; cbn [bind] in *; auto.
  destruct (_ <? h); auto. destruct (h =? 0); auto.
  destruct (resolve_index _ _) as [k|] eqn:Er; cbn [bind] in *; auto.
  assert (K : 0 <= k).
  { unfold resolve_index in Er. destruct (_ && _) eqn:B; [|discriminate]. injection Er as <-. apply andb_prop in B as [B _]. now apply Z.leb_le in B. }
  rewrite py_index_nonneg in Ex by auto. assert (En : nth_error ps (Z.to_nat j) = Some PaNone) by (destruct (nth_error ps (Z.to_nat j)); cbn in Ex; congruence).
  rewrite (count_remap _ _ En).
  destruct (process_word limit _ _ _ _) as [ps'|] eqn:Ep; cbn [bind] in *; [|discriminate].
  rewrite (IH _ _ _ Ep K). exact E.
Qed.
