(* Files with the same tokenization. *)
From Coq Require Import String Ascii ZArith NArith QArith Bool Sorted Lia Lqa List.
From Verif Require Import Base BaseFacts Model_Datamodel Model_Conllu Spec_Datamodel Spec_Conllu Proofs_Datamodel Proofs_Conllu Proofs_Conllu10.
From Verif Require Import Model_UDEval Spec_UDEval Proofs_UDEval Proofs_UDEval2 Proofs_UDEval3 Proofs_UDEval4 Proofs_UDEval5 Proofs_UDEval6 Proofs_UDEval7.
Import ListNotations.
Open Scope Z_scope.

Definition twin (w v : word) : Prop := w_span w = w_span v /\ w_multi w = w_multi v /\ form w = form v.

(* the words of a file: one after another, or words of the same multiword token *)
Definition before (w v : word) : Prop :=
  sp_end (w_span w) <= sp_start (w_span v) \/ (w_span w = w_span v /\ w_multi w = true /\ w_multi v = true).
Definition in_order (l : list word) : Prop := StronglySorted before l.

Lemma lcs_walk_twins lower g s : Forall2 twin g s -> forall fuel rows, (length g <= fuel)%nat -> lcs_walk lower fuel g s rows = Ok (combine g s).
Proof.
  induction 1 as [|w v g s T F IH]; intros fuel rows L; [destruct fuel; reflexivity|]. cbn in L. destruct fuel as [|fuel]; [lia|].
  cbn [lcs_walk combine]. destruct T as (_ & _ & T).
  assert (E : same_form lower w v = true). { unfold same_form. change (form_of w) with (form w). change (form_of v) with (form v). rewrite T. apply str_eqb_refl. }
  rewrite E, IH by lia. reflexivity.
Qed.

Definition of_run (sp : span) (w : word) : Prop := w_span w = sp /\ w_multi w = true.
Definition after (e : Z) (l : list word) : Prop := forall w, hd_error l = Some w -> nonempty_span w /\ e <= sp_start (w_span w).

Lemma after_beyond e l : after e l -> beyond_end l e = true.
Proof.
  intro A. destruct l as [|w l]; auto. destruct (A w eq_refl) as [N L]. unfold nonempty_span in N. cbn [beyond_end].
  destruct (w_multi w); [apply Z.leb_le|apply Z.ltb_lt]; lia.
Qed.
Lemma run_not_beyond sp w l : sp_start sp < sp_end sp -> of_run sp w -> beyond_end (w :: l) (sp_end sp) = false.
Proof. intros L [<- M]. cbn [beyond_end]. rewrite M. apply Z.leb_gt. lia. Qed.
Lemma run_extend sp w : of_run sp w -> extend_end w (sp_end sp) = sp_end sp.
Proof. intros [<- M]. unfold extend_end. rewrite M, Z.ltb_irrefl. reflexivity. Qed.

Lemma span_loop_runs sp gr sr : sp_start sp < sp_end sp -> after (sp_end sp) gr -> after (sp_end sp) sr ->
  forall n r1 r2, Forall (of_run sp) r1 -> Forall (of_run sp) r2 -> (length r1 + length r2 <= n)%nat ->
  span_loop n (r1 ++ gr) (r2 ++ sr) (sp_end sp) = Ok (r1, r2, gr, sr).
Proof.
  intros Lt Ag As. induction n as [|n IH]; intros r1 r2 F1 F2 L.
  - destruct r1, r2; cbn in L; try lia. cbn [app span_loop]. now rewrite (after_beyond _ _ Ag), (after_beyond _ _ As).
  - destruct r1 as [|w r1].
    + destruct r2 as [|v r2].
      * cbn [app span_loop]. now rewrite (after_beyond _ _ Ag), (after_beyond _ _ As).
      * inversion F2 as [|? ? R F2']; subst. cbn [app].
        specialize (IH [] r2 F1 F2' ltac:(cbn in *; lia)). cbn [app] in IH.
        destruct gr as [|x gr].
        -- cbn [span_loop]. rewrite (run_not_beyond sp) by auto. rewrite andb_false_r, (run_extend sp), IH by auto. reflexivity.
        -- cbn [span_loop]. rewrite (run_not_beyond sp v) by auto. rewrite andb_false_r.
           destruct (Ag x eq_refl) as [_ Lx]. destruct R as [R1 R2]. rewrite R1.
           destruct (Z.leb_spec (sp_start (w_span x)) (sp_start sp)); [lia|]. rewrite (run_extend sp) by (split; auto). rewrite IH. reflexivity.
    + inversion F1 as [|? ? R F1']; subst. cbn [app].
      specialize (IH r1 r2 F1' F2 ltac:(cbn in *; lia)).
      destruct (r2 ++ sr) as [|x l] eqn:E.
      * cbn [span_loop]. rewrite (run_not_beyond sp) by auto. cbn [andb]. rewrite (run_extend sp), IH by auto. reflexivity.
      * cbn [span_loop]. rewrite (run_not_beyond sp) by auto. cbn [andb].
        assert (Lx : sp_start (w_span w) <= sp_start (w_span x)).
        { destruct R as [-> _]. destruct r2 as [|v r2]; cbn in E.
          - subst. destruct (As x eq_refl). lia.
          - injection E as -> _. inversion F2 as [|? ? [Rx _] _]. rewrite Rx. lia. }
        apply Z.leb_le in Lx. rewrite Lx, (run_extend sp), IH by auto. reflexivity.
Qed.

Lemma split_run w : w_multi w = true -> forall g, Forall (before w) g -> in_order g -> Forall nonempty_span g ->
  exists run rest, g = run ++ rest /\ Forall (of_run (w_span w)) run /\ after (sp_end (w_span w)) rest.
Proof.
  intro M. induction g as [|x g IH]; intros B O N.
  - exists [], []. split; auto. split; [constructor|]. intros y [=].
  - inversion B as [|? ? Bx B']; subst. inversion O as [|? ? O' Ox]; subst. inversion N as [|? ? Nx N']; subst.
    destruct Bx as [Bx|(Bx & _ & Mx)].
    + exists [], (x :: g). split; auto. split; [constructor|]. intros y [= <-]. auto.
    + destruct (IH B' O' N') as (run & rest & -> & R & A). exists (x :: run), rest. split; auto. split; auto.
      constructor; auto. split; auto.
Qed.

Lemma in_order_app a b : in_order (a ++ b) -> in_order b.
Proof. induction a as [|x a IH]; auto. cbn. intro H. inversion H; auto. Qed.

Lemma align_twins lower : forall fuel g s, Forall2 twin g s -> in_order g -> Forall nonempty_span g -> (length g <= fuel)%nat ->
  align_words lower fuel g s = Ok (combine g s).
Proof.
  induction fuel as [|fuel IH]; intros g s F O N L.
  - destruct g; cbn in L; [|lia]. inversion F; subst. reflexivity.
  - destruct F as [|w v g s T F]; [reflexivity|]. cbn [align_words].
    inversion O as [|? ? O' B]; subst. inversion N as [|? ? Nw N']; subst.
    destruct T as (T1 & T2 & T3). rewrite <- T2. cbn in L.
    destruct (w_multi w) eqn:M; cbn [orb].
    + destruct (split_run w M g B O' N') as (run & rest & -> & R & A).
      apply Forall2_app_inv_l in F as (run' & rest' & F1 & F2 & ->).
      assert (R' : Forall (of_run (w_span w)) run').
      { clear - R F1. induction F1 as [|x y l l' (Tx & Ty & _) F1 IH]; constructor; inversion R as [|? ? [Ra Rb] R']; subst; auto.
        split; congruence. }
      assert (A' : after (sp_end (w_span w)) rest').
      { destruct F2 as [|x y l l' (Tx & _ & _) F2]; [intros z [=]|]. intros z [= <-]. destruct (A x eq_refl) as [A1 A2].
        unfold nonempty_span in *. rewrite <- Tx. auto. }
      unfold find_multiword_span. rewrite M. cbn [negb].
      replace (if negb (w_multi v) && (sp_start (w_span v) <? sp_start (w_span w)) then run' ++ rest' else v :: run' ++ rest')
        with (v :: run' ++ rest') by (rewrite <- T2; reflexivity).
      rewrite (app_comm_cons run rest w), (app_comm_cons run' rest' v).
      assert (SL := span_loop_runs (w_span w) rest rest' Nw A A' (length ((w :: run) ++ rest) + length ((v :: run') ++ rest')) (w :: run) (v :: run')).
      rewrite SL; [| constructor; auto; split; auto | constructor; auto; split; congruence | rewrite !app_length; lia].
      cbn [bind].
      rewrite (lcs_walk_twins lower (w :: run) (v :: run')) by (try (constructor; auto; repeat split; congruence); lia).
      cbn [bind]. rewrite app_length in L.
      rewrite IH; auto.
      * cbn [bind]. f_equal. assert (Len := Forall2_length' _ _ _ F1).
        assert (CA : forall (A B : Type) (a : list A) (b : list B) a' b', length a = length b -> combine (a ++ a') (b ++ b') = combine a b ++ combine a' b').
        { clear. intros A B. induction a as [|x a IHa]; intros [|y b] a' b' E; try discriminate; auto. cbn in *. f_equal. apply IHa. lia. }
        symmetry. apply CA. cbn. now rewrite Len.
      * now apply in_order_app in O'.
      * apply Forall_app in N' as [_ N']. exact N'.
      * lia.
    + rewrite <- T1, !Z.eqb_refl. cbn [andb]. rewrite IH; auto; lia.
Qed.

(* ---- loaded files are in order ---- *)

Definition fact_before (a b : span * list str * bool) : Prop :=
  sp_end (fst (fst a)) <= sp_start (fst (fst b)) \/ (fst (fst a) = fst (fst b) /\ snd a = true /\ snd b = true).

Lemma words_of_single (g : group (list str)) : (exists x, words_of g = [x]) \/ Forall (fun w => snd w = true) (words_of g).
Proof.
  destruct g as [c|c cs]; cbn; [left; eauto|right]. apply Forall_forall. intros w I0. apply in_map_iff in I0 as (x & <- & _). reflexivity.
Qed.

Lemma expected_words_from gs : forall at_, tokens_nonempty gs ->
  StronglySorted fact_before (expected_words at_ gs) /\ Forall (fun f => at_ <= sp_start (fst (fst f))) (expected_words at_ gs).
Proof.
  induction gs as [|g gs IH]; intros at_ N; [split; constructor|]. inversion N as [|? ? N1 N2]; subst. cbn [expected_words].
  destruct (IH (at_ + zlen (group_chars g)) N2) as [S1 F1].
  assert (P : 0 <= zlen (group_chars g)) by apply zlen_nonneg.
  split.
  - destruct (words_of_single g) as [(x & ->)|W].
    + cbn [map app]. constructor; auto. eapply Forall_impl; [|exact F1]. intros f H. left. cbn. exact H.
    + induction W as [|x l Hx W IHW]; cbn [map app]; auto. constructor; auto. apply Forall_app. split.
      * apply Forall_forall. intros f I0. apply in_map_iff in I0 as (y & <- & Iy). right. cbn. rewrite Forall_forall in W. auto.
      * eapply Forall_impl; [|exact F1]. intros f H. left. cbn. exact H.
  - apply Forall_app. split.
    + apply Forall_forall. intros f I0. apply in_map_iff in I0 as (y & <- & _). cbn. lia.
    + eapply Forall_impl; [|exact F1]. cbv beta. intros f H. lia.
Qed.

Lemma sorted_map {A B} (R : B -> B -> Prop) (f : A -> B) l : StronglySorted R (map f l) -> StronglySorted (fun x y => R (f x) (f y)) l.
Proof.
  induction l as [|x l IH]; intro H; [constructor|]. cbn in H. inversion H as [|? ? H1 H2]; subst. constructor; auto.
  apply Forall_forall. intros y I0. rewrite Forall_forall in H2. apply H2. now apply in_map.
Qed.

Lemma load_in_order text u : load_conllu text = Ok u -> in_order (u_words u).
Proof.
  intro E. destruct (load_text _ _ E) as (gss & UL & _ & _ & _ & W).
  destruct (expected_words_from (concat gss) 0 (lines_nonempty _ _ UL)) as [S1 _]. rewrite <- W in S1.
  apply sorted_map in S1. unfold in_order. exact S1.
Qed.

(* ---- evaluation of such files ---- *)

Lemma combine_fst {A B} (l : list A) : forall (l' : list B), length l = length l' -> map fst (combine l l') = l.
Proof. induction l as [|x l IH]; intros [|y l'] E; try discriminate; auto. cbn in *. f_equal. apply IH. lia. Qed.
Lemma combine_snd {A B} (l : list A) : forall (l' : list B), length l = length l' -> map snd (combine l l') = l'.
Proof. induction l as [|x l IH]; intros [|y l'] E; try discriminate; auto. cbn in *. f_equal. apply IH. lia. Qed.

Lemma pair_ix gold system w v : loaded gold -> loaded system -> length (u_words gold) = length (u_words system) ->
  In (w, v) (combine (u_words gold) (u_words system)) -> w_ix w = w_ix v.
Proof.
  intros [G _] [S0 _] L I0. rewrite L in G. rewrite <- S0 in G. clear S0. revert G I0 L. generalize (u_words gold) (u_words system).
  induction l as [|x l IH]; intros [|y l'] G I0 L; cbn in *; try contradiction. injection G as G1 G2. destruct I0 as [[= -> ->]|I0]; eauto.
Qed.

(* with position by position pairs, heads are paired when they are the same position *)
Lemma heads_paired_positions gold system w v : loaded gold -> loaded system -> length (u_words gold) = length (u_words system) ->
  In (w, v) (combine (u_words gold) (u_words system)) ->
  (heads_paired (combine (u_words gold) (u_words system)) w v <-> w_parent w = w_parent v).
Proof.
  intros Lg Ls L I0. split.
  - intros [[-> ->]|(pw & pv & Ip & -> & ->)]; auto. f_equal. exact (pair_ix gold system pw pv Lg Ls L Ip).
  - intro E. pose proof (ld_parent _ Lg) as Pg. rewrite Forall_forall in Pg. specialize (Pg w (in_combine_l _ _ _ _ I0)).
    unfold heads_paired. unfold parent_valid in Pg. destruct (w_parent w) as [| |i] eqn:W; [left; auto|contradiction Pg|right].
    destruct Pg as [P0 P1]. unfold zlen in P1.
    assert (X : exists pw pv, nth_error (combine (u_words gold) (u_words system)) (Z.to_nat i) = Some (pw, pv)).
    { destruct (nth_error (combine (u_words gold) (u_words system)) (Z.to_nat i)) as [[pw pv]|] eqn:N; eauto. exfalso.
      apply nth_error_None in N. rewrite combine_length in N. lia. }
    destruct X as (pw & pv & N). exists pw, pv. pose proof (nth_error_In _ _ N) as Ip. split; auto.
    assert (Ew : w_ix pw = i).
    { assert (Nw : nth_error (u_words gold) (Z.to_nat i) = Some pw).
      { rewrite <- (combine_fst (u_words gold) (u_words system) L). now rewrite nth_error_map, N. }
      assert (Q : nth_error (map w_ix (u_words gold)) (Z.to_nat i) = Some (w_ix pw)) by now rewrite nth_error_map, Nw.
      rewrite (ld_ix _ Lg) in Q. unfold positions in Q. rewrite nth_error_map in Q.
      assert (Bd : (Z.to_nat i < length (u_words gold))%nat) by lia.
      rewrite (nth_error_nth' _ 0%nat) in Q by now rewrite seq_length. rewrite seq_nth in Q by auto. cbn in Q. injection Q as Q. lia. }
    rewrite <- (pair_ix gold system pw pv Lg Ls L Ip), Ew. split; auto.
Qed.

Lemma common_self l : increasing_starts l -> common_spans l l l.
Proof.
  intro I0. split; [|tauto]. induction I0 as [|x l I0 IH F]; constructor; auto. intro C. rewrite Forall_forall in F. specialize (F _ C). lia.
Qed.

Lemma fraction_self a q : ~ (a == 0)%Q -> fraction a a q -> (q == 1)%Q.
Proof.
  intros N [_ F]. specialize (F N). apply (Qmult_inj_r _ _ a N). now rewrite F, Qmult_1_l.
Qed.
Lemma fraction_congr a b a' b' q : (a == a')%Q -> (b == b')%Q -> fraction a b q -> fraction a' b' q.
Proof. intros Ea Eb [F1 F2]. split; intros; [apply F1|rewrite <- Ea, <- Eb; apply F2; intro X]; now rewrite ?Eb in *. Qed.

Lemma scores_perfect sc c g s a : (g == c)%Q -> (s == c)%Q -> (forall x, a = Some x -> (x == c)%Q) -> ~ (c == 0)%Q ->
  scores sc c g s a -> perfect sc.
Proof.
  intros Eg Es Ea N (P & R & F & A). split; [|split; [|split]].
  - apply (fraction_self c); auto. eapply fraction_congr; [reflexivity|exact Es|exact P].
  - apply (fraction_self c); auto. eapply fraction_congr; [reflexivity|exact Eg|exact R].
  - apply (fraction_self (2 * c)); [intro X; apply N; lra|]. eapply fraction_congr; [reflexivity| |exact F]. rewrite Eg, Es. ring.
  - intros q E. rewrite E in A. destruct a as [x|]; [|contradiction]. apply (fraction_self c); auto.
    eapply fraction_congr; [reflexivity|exact (Ea _ eq_refl)|exact A].
Qed.

Lemma agreeing_self_eq pairs m good : (forall w v, In (w, v) pairs -> match compared m with None => True | Some (cs, h) => same_columns cs w v /\ (h = true -> heads_paired pairs w v) end) ->
  NoDup pairs -> agreeing m pairs good -> good = pairs.
Proof.
  intros H N [S0 A]. assert (I0 : incl pairs good) by (intros [w v] I0; exact (proj2 (A w v I0) (H w v I0))).
  clear A H. induction S0 as [l|x l l' S1 IH|x l l' S1 IH].
  - destruct l as [|x l]; auto. destruct (I0 x (or_introl eq_refl)).
  - f_equal. inversion N as [|? ? N1 N2]; subst. apply IH; auto. intros y Iy. destruct (I0 y (or_intror Iy)) as [->|]; auto. contradiction.
  - exfalso. inversion N as [|? ? N1 N2]; subst. apply N1. eapply subseq_In; [exact S1|]. apply I0. left; auto.
Qed.

Section Same.
Variables (lower : str -> str) (tg ts : str) (gold system : ud) (weights : option (dict Q)).
Hypotheses (Lg : load_conllu tg = Ok gold) (Ls : load_conllu ts = Ok system) (ST : same_tokenization gold system).

Lemma same_length : length (u_words gold) = length (u_words system).
Proof. destruct ST as (_ & _ & _ & F). now apply Forall2_length' in F. Qed.

Lemma same_align : align lower (u_words gold) (u_words system) = Ok (combine (u_words gold) (u_words system)).
Proof.
  unfold align. apply align_twins; [|now apply load_in_order in Lg|now apply load_nonempty in Lg|lia].
  destruct ST as (_ & _ & _ & F). exact F.
Qed.

Lemma same_scores : exists f, evaluate lower gold system weights = Ok f /\
  (exists sc, f MTokens = Some sc /\ (u_tokens gold <> [] -> perfect sc)) /\
  (exists sc, f MSentences = Some sc /\ (u_sents gold <> [] -> perfect sc)) /\
  (exists sc, f MWords = Some sc /\ (u_words gold <> [] -> perfect sc)) /\
  forall m sc, compared m <> None -> f m = Some sc ->
    exists good, agreeing_positions gold system m good /\
      scores sc (total (fun p => metric_weight weights m (fst p)) good)
             (total (metric_weight weights m) (u_words gold)) (total (metric_weight weights m) (u_words system))
             (Some (total (metric_weight weights m) (u_words gold))).
Proof.
  destruct ST as (C & T & S0 & F).
  destruct (evaluate_meaning lower tg ts gold system weights Lg Ls C) as (f & pairs & E & A & EA & (st & xt & Et & Ct & Qt) & (ss & xs & Es & Cs & Qs) & Mo).
  rewrite same_align in EA. injection EA as <-. exists f. split; auto.
  assert (Sp : forall sc xs l, increasing_starts l -> common_spans xs l l -> scores sc (count xs) (count l) (count l) None -> l <> [] -> perfect sc).
  { intros sc ys l Il Cy Q N. destruct (common_self l Il) as [N1 _]. destruct Cy as [N2 Cy].
    assert (Len : length ys = length l).
    { apply Nat.le_antisymm; apply NoDup_incl_length; auto; intros y Iy; apply Cy; auto. }
    assert (Ec : (count ys == count l)%Q) by (unfold count; now rewrite Len).
    eapply scores_perfect; [| | | |exact Q]; try (symmetry; exact Ec); [discriminate|].
    rewrite Ec. unfold count. intro X. apply N. destruct l; auto. cbn [length] in X.
    change 0%Q with (inject_Z 0) in X. rewrite inject_Z_injective in X. lia. }
  destruct (load_tiles _ _ Lg) as (Tg & Sg & _).
  rewrite <- T in Ct, Qt. rewrite <- S0 in Cs, Qs.
  split; [exists st; split; auto; intro Nn; exact (Sp st xt _ (proj1 (consecutive_increasing _ _ _ Tg)) Ct Qt Nn)|].
  split; [exists ss; split; auto; intro Nn; exact (Sp ss xs _ (proj1 (consecutive_increasing _ _ _ Sg)) Cs Qs Nn)|].
  assert (NP : NoDup (combine (u_words gold) (u_words system))).
  { apply (NoDup_map_inv (fun p => w_ix (fst p))). rewrite <- (map_map fst w_ix), combine_fst by apply same_length.
    apply loaded_ix. eapply load_loaded; eauto. }
  split.
  - destruct (Mo MWords) as [N Mw]; try discriminate. destruct (f MWords) as [sc|] eqn:Ew; [|exfalso; destruct (proj1 N eq_refl); discriminate].
    exists sc. split; auto. intro Nw. destruct (Mw sc eq_refl) as (good & AG & Q).
    assert (G : good = combine (u_words gold) (u_words system)) by (eapply agreeing_self_eq; eauto; intros; cbn; auto).
    subst good. cbn [compared metric_weight] in Q.
    assert (L := same_length).
    assert (E1 : (total (fun _ : word * word => 1) (combine (u_words gold) (u_words system)) == count (u_words gold))%Q).
    { rewrite total_count. unfold count. rewrite combine_length, <- L, Nat.min_id. reflexivity. }
    eapply scores_perfect; [| | | |exact Q].
    + change (metric_weight weights MWords) with (fun _ : word => 1%Q). rewrite E1, total_count. reflexivity.
    + change (metric_weight weights MWords) with (fun _ : word => 1%Q). rewrite E1, total_count. unfold count. now rewrite L.
    + discriminate.
    + rewrite E1. unfold count. intro X. apply Nw. destruct (u_words gold); auto. cbn [length] in X.
      change 0%Q with (inject_Z 0) in X. rewrite inject_Z_injective in X. lia.
  - intros m sc Cm Em. destruct (Mo m) as [_ Mw]; try (intros ->; now apply Cm). destruct (Mw sc Em) as (good & AG & Q).
    exists good. split.
    + destruct AG as [AG1 AG2]. split; auto. intros w v I0. rewrite (AG2 w v I0). destruct (compared m) as [[cs h]|]; [|tauto].
      rewrite (heads_paired_positions gold system w v) by (auto using same_length; try (eapply load_loaded; eauto)). tauto.
    + destruct (compared m) as [[cs h]|]; [|congruence].
      rewrite <- (total_map (metric_weight weights m) fst (combine _ _)) in Q. rewrite combine_fst in Q by apply same_length. exact Q.
Qed.

End Same.

Lemma same_self u : same_tokenization u u.
Proof. repeat split; auto. induction (u_words u); constructor; auto. Qed.

Lemma combine_self {A} (l : list A) x y : In (x, y) (combine l l) -> x = y.
Proof. induction l as [|z l IH]; cbn; [tauto|]. intros [[= -> ->]|I0]; auto. Qed.

Lemma self_perfect lower text u weights : load_conllu text = Ok u ->
  exists f, evaluate lower u u weights = Ok f /\
    (forall m, f m = None <-> m = MWeightedLAS /\ weights = None) /\
    forall m sc, f m = Some sc -> ~ (metric_total weights u m == 0)%Q -> perfect sc.
Proof.
  intro L. destruct (same_scores lower text text u u weights L L (same_self u)) as (f & E & (st & Et & Pt) & (ss & Es & Ps) & (sw & Ew & Pw) & M).
  exists f. split; auto. split.
  { destruct (evaluate_meaning lower text text u u weights L L eq_refl) as (f' & pairs & E' & _ & _ & _ & _ & Mo).
    rewrite E in E'. injection E' as <-. intro m.
    destruct (metric_dec m MTokens) as [->|N1]; [rewrite Et; split; [discriminate|intros [X _]; discriminate]|].
    destruct (metric_dec m MSentences) as [->|N2]; [rewrite Es; split; [discriminate|intros [X _]; discriminate]|].
    now apply Mo. }
  intros m sc Em N.
  destruct (compared m) as [[cs h]|] eqn:Cm.
  - destruct (M m sc ltac:(congruence) Em) as (good & (G1 & G2) & Q).
    assert (G : good = combine (u_words u) (u_words u)).
    { assert (I0 : incl (combine (u_words u) (u_words u)) good).
      { intros [w v] I0. apply G2; auto. rewrite Cm. apply combine_self in I0 as ->. split; auto. unfold same_columns. apply Forall_forall. auto. }
      assert (NP : NoDup (combine (u_words u) (u_words u))).
      { apply (NoDup_map_inv (fun p => w_ix (fst p))). rewrite <- (map_map fst w_ix), combine_fst by auto.
        apply loaded_ix. eapply load_loaded; eauto. }
      clear - G1 I0 NP. induction G1 as [l|x l l' S1 IH|x l l' S1 IH].
      - destruct l as [|x l]; auto. destruct (I0 x (or_introl eq_refl)).
      - f_equal. inversion NP as [|? ? N1 N2]; subst. apply IH; auto. intros y Iy. destruct (I0 y (or_intror Iy)) as [->|]; auto. contradiction.
      - exfalso. inversion NP as [|? ? N1 N2]; subst. apply N1. eapply subseq_In; [exact S1|]. apply I0. left; auto. }
    subst good. rewrite <- (total_map (metric_weight weights m) fst) in Q. rewrite combine_fst in Q by auto.
    assert (Nm : ~ (total (metric_weight weights m) (u_words u) == 0)%Q) by (destruct m; auto; discriminate).
    eapply scores_perfect; [| | | |exact Q]; auto; try reflexivity. intros x [= <-]. reflexivity.
  - assert (Ne : forall A (l : list A), ~ (count l == 0)%Q -> l <> []) by (intros A l X ->; apply X; reflexivity).
    destruct m; try discriminate; cbn [metric_total] in N.
    + rewrite Et in Em. injection Em as <-. auto.
    + rewrite Es in Em. injection Em as <-. auto.
    + rewrite Ew in Em. injection Em as <-. apply Pw. apply Ne. intro X. apply N.
      change (metric_weight weights MWords) with (fun _ : word => 1%Q). now rewrite total_count.
Qed.
