(* Reader theorems: offsets, regrouping, columns, insertions. *)
From Coq Require Import String Ascii ZArith NArith Bool Lia Permutation Sorted List.
From Verif Require Import Base BaseFacts Model_Datamodel Model_Conllu Spec_Datamodel Spec_Conllu
  Proofs_Datamodel Proofs_Syntax Proofs_Datamodel2 Proofs_Datamodel4 Proofs_Conllu Proofs_Conllu2 Proofs_Conllu3.
Import ListNotations.
Open Scope Z_scope.

Notation prel cols := (fun c r => parse_line cols c = Ok r).

(* ------------------------------------------------------------------ *)
(* Layout against the groups of cells                                   *)

Lemma group_piece cols g h : group_rel (prel cols) g h -> piece (surface_row g) (group_text h).
Proof.
  intros R. assert (P : parse_line cols (surface_row g) = Ok (surface_row h)).
  { destruct g, h; simpl in R; tauto. }
  apply parse_line_row in P. unfold group_text, piece. rewrite (ro_text _ _ _ P). pose proof (ro_space _ _ _ P) as S0.
  destruct (i_space (surface_row h)).
  - right. split; [tauto|auto].
  - left. rewrite app_nil_r. split; auto.
    rewrite no_space_after_value in *. destruct (value_in _ _); [congruence|].
    exfalso. assert (X : false = true) by (apply S0; intros Y; apply Y; auto). discriminate.
Qed.

Lemma seq_shift0 n : seq 1 n = map S (seq 0 n).
Proof. symmetry. apply seq_shift. Qed.

Lemma range_tokens_sub a b ws : forall sub, map tsub (range_tokens a b sub ws) = map (fun i => sub + Z.of_nat i) (seq 0 (length ws)).
Proof.
  induction ws as [|w ws IH]; intros sub; simpl; auto. f_equal; [lia|]. rewrite IH, <- seq_shift, map_map.
  apply map_ext. intros. lia.
Qed.

Lemma laid_out_layout cols gs hs : Forall2 (group_rel (prel cols)) gs hs -> forall off,
  laid_out off gs (map group_text hs) (layout off hs).
Proof.
  induction 1 as [|g h gs hs R F IH]; intros off; simpl; constructor; auto.
  - eapply group_piece; eauto.
  - destruct g as [c|c cs], h as [r|r rs]; simpl in R; try tauto; simpl.
    + apply parse_line_row in R. constructor; auto. simpl. rewrite (ro_text _ _ _ R). auto.
    + destruct R as [R FR]. apply parse_line_row in R. rewrite (ro_text _ _ _ R).
      revert FR. clear - R. generalize 0 as sub. intros sub FR. revert sub.
      induction FR as [|x y cs rs X FR IH]; intros sub; simpl; constructor; auto. simpl.
      apply parse_line_row in X. rewrite (ro_text _ _ _ X). auto.
  - destruct h as [r|r rs]; simpl; auto. rewrite range_tokens_sub, range_tokens_length. apply map_ext; lia.
Qed.

(* the annotations survive in every token with the same lemma, tags, relation and sentence head *)
Definition same_annot (t t' : token) : Prop :=
  tlemma t = tlemma t' /\ tdeprel t = tdeprel t' /\ tpos t = tpos t' /\ thsent t = thsent t'.

Lemma compute_head_pred h : compute_head (Some h) = Some (h - 1).
Proof. unfold compute_head. destruct (Z.eqb_spec h 0); subst; auto. Qed.

Lemma not_wants cols c : has_col (normal_columns cols) c = false <-> ~ wants cols c.
Proof. rewrite <- has_col_wants. destruct (has_col (normal_columns cols) c); split; congruence. Qed.

Lemma sel_wants {A} cols c (x : option A) :
  (wants cols c -> sel (normal_columns cols) c x = x) /\ (~ wants cols c -> sel (normal_columns cols) c x = None).
Proof.
  unfold sel. split; intros H.
  - apply has_col_wants in H. rewrite H. auto.
  - apply not_wants in H. rewrite H. auto.
Qed.

Lemma annotated_row cols c r a b sub repl t :
  parse_line (normal_columns cols) c = Ok r -> same_annot t (row_token a b sub repl r) -> annotated cols c t.
Proof.
  intros P (E1 & E2 & E3 & E4). apply parse_line_row in P. destruct P as [_ _ _ PL PD _ PH PP]. simpl in *.
  constructor.
  - rewrite E1, PL. apply sel_wants.
  - rewrite E2, PD. apply sel_wants.
  - rewrite E4. split; intros W.
    + rewrite (proj1 (sel_wants cols cHEAD (cell_opt c 6)) W) in PH. destruct (cell_opt c 6) as [s|] eqn:E.
      * right. split; [congruence|]. destruct PH as (h & Ph & ->). exists h. rewrite compute_head_pred. split; auto.
        unfold cell_opt in E. destruct (str_eqb (cell c 6) (of_string "_")); congruence.
      * left. rewrite PH. auto.
    + rewrite (proj2 (sel_wants cols cHEAD (cell_opt c 6)) W) in PH. rewrite PH. auto.
  - intros W. rewrite E3. destruct (has_col (normal_columns cols) cUPOS || has_col (normal_columns cols) cXPOS || has_col (normal_columns cols) cFEATS) eqn:B.
    + destruct PP as (fs & -> & PF). eexists. split; [reflexivity|]. simpl. split; [apply sel_wants|]. split; [apply sel_wants|].
      split; intros W5.
      * rewrite (proj1 (sel_wants cols cFEATS (cell_opt c 5)) W5) in PF. apply parse_to_dict_get; auto.
      * rewrite (proj2 (sel_wants cols cFEATS (cell_opt c 5)) W5) in PF. simpl in PF. congruence.
    + exfalso. apply orb_false_iff in B. destruct B as [B B3]. apply orb_false_iff in B. destruct B as [B1 B2].
      apply not_wants in B1, B2, B3. unfold cUPOS, cXPOS, cFEATS in *. tauto.
  - intros W. rewrite E3. destruct (has_col (normal_columns cols) cUPOS || has_col (normal_columns cols) cXPOS || has_col (normal_columns cols) cFEATS) eqn:B; auto.
    exfalso. apply W. rewrite !orb_true_iff, !has_col_wants in B. unfold cUPOS, cXPOS, cFEATS in *. tauto.
Qed.

Lemma annotated_layout cols gs hs : Forall2 (group_rel (prel (normal_columns cols))) gs hs -> forall off ts,
  Forall2 same_annot ts (layout off hs) ->
  Forall2 (fun w t => annotated cols (snd (fst w)) t) (flat_map words_of gs) ts.
Proof.
  induction 1 as [|g h gs hs R F IH]; intros off ts S0; simpl in *; [inversion S0; constructor|].
  apply Forall2_app_inv_r in S0. destruct S0 as (t1 & t2 & S1 & S2 & ->). apply Forall2_app; [|eauto].
  destruct g as [c|c cs], h as [r|r rs]; simpl in R; try tauto; simpl in *.
  - inversion S1 as [|t ? ? ? X S1']; subst. inversion S1'; subst. constructor; auto. simpl. eapply annotated_row; eauto.
  - destruct R as [_ FR]. revert S1. generalize (off + zlen (i_text r)) as e. generalize 0 as sub. revert t1.
    induction FR as [|x y cs rs X FR IHr]; intros t1 sub e S1; simpl in *; inversion S1; subst; constructor; eauto.
    simpl. eapply annotated_row; eauto.
Qed.

Lemma words_count cols gs hs : Forall2 (group_rel (prel cols)) gs hs -> zlen (flat_map words_of gs) = count hs.
Proof.
  unfold count. generalize 0 as off. intros off F. revert off.
  induction F as [|g h gs hs R F IH]; intros off; simpl; auto. rewrite !zlen_app, (IH (off + zlen (group_text h))). f_equal.
  destruct g as [c|c cs], h as [r|r rs]; simpl in R; try tauto; simpl; auto.
  unfold zlen. rewrite map_length, range_tokens_length, (Forall2_length' _ _ _ (proj2 R)). auto.
Qed.

Lemma laid_out_same off gs ps ts ts' : laid_out off gs ps ts ->
  Forall2 (fun t t' => tstart t' = tstart t /\ tend t' = tend t /\ trepl t' = trepl t /\ tsub t' = tsub t) ts ts' ->
  laid_out off gs ps ts'.
Proof.
  intros L. revert ts'. induction L as [|off g gs p ps t1 t2 P F S0 L IH]; intros ts' E.
  - inversion E; constructor.
  - apply Forall2_app_inv_l in E. destruct E as (u1 & u2 & E1 & E2 & ->). constructor; auto.
    + revert u1 E1. clear - F. induction F as [|w t ws ts X F IH]; intros u E; inversion E; subst; constructor; auto.
      destruct w as [[surf word] b]. destruct X as (?&?&?). destruct H1 as (?&?&?&?). repeat split; congruence.
    + rewrite <- (Forall2_length' _ _ _ E1), <- S0. clear - E1. induction E1 as [|t u ts us X E IH]; simpl; auto.
      f_equal; auto. tauto.
Qed.

Lemma fill_all_annot ts ss : tiles 0 (zlen ts) ss -> Forall2 (fun t t' => tstart t' = tstart t /\ tend t' = tend t /\ trepl t' = trepl t /\ tsub t' = tsub t) ts (fill_all ts ss).
Proof.
  intros T. eapply Forall2_impl; [|apply fill_all_same; auto]. intros t t' (?&?&?&?&?&?&?&?). repeat split; auto.
Qed.

Lemma raw_doc_annot acc : Forall block_ok acc -> acc <> [] -> Forall2 same_annot (dtokens (raw_doc acc)) (layout 0 (concat acc)).
Proof.
  intros F N. pose proof (bounds_tiles 0 acc F) as T. simpl in T.
  pose proof (blocks_groups _ F) as G.
  assert (ZL : zlen (dtokens (raw_doc acc)) = count (concat acc)).
  { unfold raw_doc. cbn [dtokens]. apply zlen_fill_all. exact T. }
  assert (E : dtokens (raw_doc acc) = concat (map (tokens_of (dtokens (raw_doc acc))) (bounds 0 acc))).
  { symmetry. rewrite (tiles_concat (dtokens (raw_doc acc)) 0 (count (concat acc))); auto; try lia.
    rewrite <- ZL. apply py_slice_all. }
  assert (E2 : layout 0 (concat acc) = concat (map (tokens_of (layout 0 (concat acc))) (bounds 0 acc))).
  { symmetry. rewrite (tiles_concat (layout 0 (concat acc)) 0 (count (concat acc))); auto; try (unfold count; lia).
    apply py_slice_all. }
  rewrite E, E2. apply Forall2_concat.
  assert (H : forall s, In s (bounds 0 acc) -> Forall2 same_annot (tokens_of (dtokens (raw_doc acc)) s) (tokens_of (layout 0 (concat acc)) s)).
  { intros s Hs. apply in_bounds in Hs. destruct Hs as (a1 & b & a2 & -> & ->).
    rewrite raw_doc_tokens_of by auto. rewrite tokens_of_block.
    assert (D : Forall (fun t => thdoc t = None) (layout (zlen (surface (concat a1))) b)).
    { apply Forall_forall. intros t Ht. apply layout_in in Ht; [tauto|].
      rewrite Forall_forall in F. apply F. apply in_or_app; simpl; auto. }
    induction D as [|t l X D IH]; simpl; constructor; auto. unfold same_annot. rewrite fill_thsent by auto. simpl. auto. }
  revert H. generalize (bounds 0 acc) as ss. induction ss as [|s ss IH]; intros H; simpl; constructor.
  - apply H; simpl; auto.
  - apply IH. intros; apply H; simpl; auto.
Qed.

Lemma reads_doc cols acc cgss ls d :
  Forall block_ok acc -> acc <> [] ->
  Forall2 (fun ls cgs => exists crows, sentence_lines ls crows /\ grouped row_id crows cgs) ls cgss ->
  Forall2 (Forall2 (group_rel (prel (normal_columns cols)))) cgss acc ->
  doc_of acc [] = Ok d -> reads cols ls d.
Proof.
  intros F N G R E. apply doc_of_ok in E; auto. destruct E as [-> _].
  assert (RC : Forall2 (group_rel (prel (normal_columns cols))) (concat cgss) (concat acc)) by (apply Forall2_concat; auto).
  exists cgss, (map group_text (concat acc)). split; [auto|]. split; [|split; [|split]].
  - eapply laid_out_same; [eapply laid_out_layout; eauto|apply fill_all_annot]. apply (bounds_tiles 0 acc F).
  - reflexivity.
  - unfold raw_doc. cbn [dsents]. generalize 0 as a. clear - R.
    induction R as [|cgs b cgss acc X R IH]; intros a; simpl; constructor; auto. simpl.
    rewrite (words_count _ _ _ X). lia.
  - eapply annotated_layout; eauto. apply raw_doc_annot; auto.
Qed.

Lemma runs_reads cols limit used ds : runs limit used ds -> Forall block_ok used ->
  forall lss cgss,
  Forall2 (fun ls cgs => exists crows, sentence_lines ls crows /\ grouped row_id crows cgs) lss cgss ->
  Forall2 (Forall2 (group_rel (prel (normal_columns cols)))) cgss used ->
  exists dss, lss = concat dss /\ Forall2 (reads cols) dss ds.
Proof.
  intros R. induction R as [|acc bs d ds N L E R IH|acc d N L E]; intros F lss cgss G X.
  - inversion X; subst. inversion G; subst. exists []. split; auto.
  - apply Forall_app in F. destruct F as [F1 F2]. apply Forall2_app_inv_r in X. destruct X as (c1 & c2 & X1 & X2 & ->).
    apply Forall2_app_inv_r in G. destruct G as (l1 & l2 & G1 & G2 & ->).
    destruct (IH F2 _ _ G2 X2) as (dss & -> & H). exists (l1 :: dss). split; auto. constructor; auto.
    eapply (reads_doc cols acc); eauto.
  - exists [lss]. simpl. rewrite app_nil_r. split; auto. constructor; auto. eapply (reads_doc cols acc); eauto.
Qed.

Lemma reader_faithful limit cols text ds e : read_str limit cols text = Ok (ds, e) ->
  exists lss rest, file_lines text = concat (concat lss) ++ rest /\ Forall2 (reads cols) lss ds /\
                   (e = None -> Forall ignorable rest).
Proof.
  intros H. apply read_str_blocks in H. destruct H as [LP H].
  destruct (parse [] None (events (normal_columns cols) (file_lines text))) as [bs t] eqn:P. symmetry in H.
  destruct (parse_ok _ _ _ _ _ (Forall_nil _) P) as [BO TO].
  destruct (parse_lines _ _ _ _ P) as (lss & rest & cgss & EL & G & R & PR).
  destruct (assemble_runs limit t LP TO bs [] ds e BO LP H) as (used & rest' & Eu & RU & EN). simpl in Eu. subst bs.
  apply Forall_app in BO. destruct BO as [BO _].
  apply Forall2_app_inv_r in R. destruct R as (c1 & c2 & R1 & R2 & ->).
  apply Forall2_app_inv_r in G. destruct G as (l1 & l2 & G1 & G2 & ->).
  destruct (runs_reads cols limit used ds RU BO _ _ G1 R1) as (dss & -> & HR).
  exists dss, (concat l2 ++ rest). split; [|split; auto].
  - rewrite EL, concat_app, app_assoc. auto.
  - intros ->. destruct (EN eq_refl) as [-> ->]. inversion R2; subst. inversion G2; subst. simpl.
    eapply parse_trailing; eauto.
Qed.

(* slices *)
Lemma laid_out_slices pre gs ps ts : laid_out (zlen pre) gs ps ts -> forall post,
  Forall2 (fun (w : list str * list str * bool) t =>
    py_slice (pre ++ concat ps ++ post) (tstart t) (tend t) = cell (fst (fst w)) 1) (flat_map words_of gs) ts.
Proof.
  remember (zlen pre) as off. intros L. revert pre Heqoff.
  induction L as [|off g gs p ps t1 t2 P F S0 L IH]; intros pre E post; simpl; [constructor|].
  apply Forall2_app.
  - assert (PF : exists q, p = cell (surface_row g) 1 ++ q).
    { destruct P as [[_ ->]|[_ ->]]; [exists []; rewrite app_nil_r|exists [chSP]]; auto. }
    destruct PF as [q ->].
    assert (W : forall w, In w (words_of g) -> fst (fst w) = surface_row g).
    { intros w. destruct g as [r|r ws]; simpl; [intros [<-|[]]; auto|]. rewrite in_map_iff. intros (x & <- & _). auto. }
    clear - F W E. induction F as [|w t ws ts X F IH]; constructor.
    + specialize (W w ltac:(simpl; auto)). destruct w as [[surf word] b]. simpl in *. subst surf.
      destruct X as (-> & -> & _). rewrite E. rewrite <- !app_assoc, py_slice_app. auto.
    + apply IH. intros; apply W; simpl; auto.
  - specialize (IH (pre ++ p)). rewrite zlen_app in IH. rewrite <- E in IH. specialize (IH eq_refl post).
    rewrite <- !app_assoc in *. exact IH.
Qed.

Lemma reads_slices cols ls d : reads cols ls d ->
  exists gss, Forall2 (fun lines gs => exists rows, sentence_lines lines rows /\ grouped row_id rows gs) ls gss /\
    Forall2 (fun (w : list str * list str * bool) t =>
               let '(surf, word, in_range) := w in
               py_slice (dtext d) (tstart t) (tend t) = cell surf 1 /\
               trepl t = (if in_range then Some (cell word 1) else None) /\
               text_of (dtext d) t = cell word 1)
            (flat_map words_of (concat gss)) (dtokens d).
Proof.
  intros (gss & ps & G & L & E & _ & _). exists gss. split; auto.
  pose proof (laid_out_slices [] _ _ _ L []) as S0. simpl in S0. rewrite app_nil_r in S0. rewrite E.
  assert (W : Forall (fun w : list str * list str * bool => snd w = false -> fst (fst w) = snd (fst w)) (flat_map words_of (concat gss))).
  { apply Forall_forall. intros w Hw. apply in_flat_map in Hw. destruct Hw as (g & _ & Hw).
    destruct g as [r|r ws]; simpl in Hw; [destruct Hw as [<-|[]]; auto|]. apply in_map_iff in Hw. destruct Hw as (x & <- & _). discriminate. }
  assert (R : Forall2 (fun (w : list str * list str * bool) t => trepl t = if snd w then Some (cell (snd (fst w)) 1) else None)
                (flat_map words_of (concat gss)) (dtokens d)).
  { clear - L. induction L as [|off g gs p ps t1 t2 P F S0 L IH]; simpl; [constructor|]. apply Forall2_app; auto.
    eapply Forall2_impl; [|exact F]. intros [[? ?] ?] t (_ & _ & H). auto. }
  clear L. revert R. induction S0 as [|w t ws ts X S0 IH]; intros R; constructor; inversion R; subst; inversion W; subst; auto.
  destruct w as [[surf word] b]. simpl in *. split; [auto|]. split; [auto|]. unfold text_of, doc_text_of. rewrite H2.
  destruct b; auto. rewrite X. f_equal. auto.
Qed.

(* ------------------------------------------------------------------ *)
(* Regrouping                                                           *)

Lemma doc_of_sents acc d : Forall block_ok acc -> acc <> [] -> doc_of acc [] = Ok d -> zlen (dsents d) = zlen acc /\ dtokens d <> [].
Proof.
  intros F N E. apply doc_of_ok in E; auto. destruct E as [-> _]. unfold raw_doc. cbn [dsents dtokens].
  unfold zlen. rewrite bounds_length. split; auto.
  intros X. pose proof (layout_nonempty acc 0 F N) as Y. pose proof (zlen_fill_all (layout 0 (concat acc)) (bounds 0 acc) (bounds_tiles 0 acc F)) as Z.
  rewrite X in Z. symmetry in Z. apply zlen_zero in Z. auto.
Qed.

Lemma runs_sizes limit used ds : 0 < limit -> runs limit used ds -> Forall block_ok used ->
  Forall (fun d => zlen (dsents d) = limit) (removelast ds) /\
  Forall (fun d => 1 <= zlen (dsents d) <= limit /\ dtokens d <> []) ds.
Proof.
  intros LP R. induction R as [|acc bs d ds N L E R IH|acc d N L E]; intros F.
  - split; constructor.
  - apply Forall_app in F. destruct F as [F1 F2]. destruct (IH F2) as [A B]. destruct (doc_of_sents _ _ F1 N E) as [Z1 Z2].
    split.
    + destruct ds as [|d' ds]; [constructor|]. change (removelast (d :: d' :: ds)) with (d :: removelast (d' :: ds)).
      constructor; auto. lia.
    + constructor; auto. split; auto. lia.
  - destruct (doc_of_sents _ _ F N E) as [Z1 Z2]. split; [constructor|]. constructor; auto. split; auto.
    apply zlen_pos in N. lia.
Qed.

Lemma reader_chunks limit cols text ds e : read_str limit cols text = Ok (ds, e) ->
  Forall (fun d => zlen (dsents d) = limit) (removelast ds) /\
  Forall (fun d => 1 <= zlen (dsents d) <= limit /\ dtokens d <> []) ds.
Proof.
  intros H. apply read_str_blocks in H. destruct H as [LP H].
  destruct (parse [] None (events (normal_columns cols) (file_lines text))) as [bs t] eqn:P. symmetry in H.
  destruct (parse_ok _ _ _ _ _ (Forall_nil _) P) as [BO TO].
  destruct (assemble_runs limit t LP TO bs [] ds e BO LP H) as (used & rest' & Eu & RU & EN). simpl in Eu. subst bs.
  apply Forall_app in BO. eapply runs_sizes; eauto. tauto.
Qed.

Lemma reader_regroup k1 k2 cols text ds1 : heads_nonnegative text -> 0 < k2 ->
  read_str k1 cols text = Ok (ds1, None) ->
  exists ds2, read_str k2 cols text = Ok (ds2, None) /\
    concat (map document_views ds1) = concat (map document_views ds2).
Proof.
  intros HN LP2 H. apply read_str_blocks in H. destruct H as [LP H].
  destruct (parse [] None (events (normal_columns cols) (file_lines text))) as [bs t] eqn:P. symmetry in H.
  destruct (parse_ok _ _ _ _ _ (Forall_nil _) P) as [BO TO].
  assert (NN : Forall (Forall group_nonneg) bs).
  { eapply parse_nonneg with (cur := []) (op := None); [|constructor| |exact P]; [|exact I]. apply events_nonneg; auto. }
  destruct (assemble_runs k1 t LP TO bs [] ds1 None BO LP H) as (used & rest' & Eu & RU & EN). simpl in Eu.
  destruct (EN eq_refl) as [-> ->]. rewrite app_nil_r in Eu. subst used.
  pose proof (runs_good _ _ _ BO NN RU) as G.
  destruct (assemble_total k2 LP2 bs []) as [ds2 H2]; auto.
  exists ds2. split.
  - apply read_str_blocks. split; auto. rewrite P. auto.
  - destruct (assemble_runs k2 (TEnd []) LP2 TO bs [] ds2 None BO LP2 H2) as (used & rest' & Eu & RU2 & EN2). simpl in Eu.
    destruct (EN2 eq_refl) as [-> _]. rewrite app_nil_r in Eu. subst used.
    rewrite (runs_views _ _ _ BO RU), (runs_views _ _ _ BO RU2). auto.
Qed.
