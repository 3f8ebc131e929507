(* Loading what the writer wrote. *)
From Coq Require Import String Ascii ZArith NArith QArith Bool Sorted Lia List.
From Verif Require Import Base BaseFacts Model_Datamodel Model_Conllu Spec_Datamodel Spec_Conllu Proofs_Datamodel Proofs_Conllu Proofs_Conllu3 Proofs_Conllu5 Proofs_Conllu6 Proofs_Conllu7 Proofs_Conllu8 Proofs_Conllu10.
From Verif Require Import Model_UDEval Spec_UDEval Proofs_UDEval3 Proofs_UDEval4 Proofs_UDEval5 Proofs_UDEval6.
Import ListNotations.
Open Scope Z_scope.

Definition row_text (cells : list str) : str := join [chTAB] cells ++ [chNL].

Lemma row_shape cells : row_fit cells -> exists c m z, join [chTAB] cells = c :: m ++ [z] /\ c <> 35%N /\ is_crlf z = false.
Proof.
  intros [C (c & s & F1 & F2 & F3) (s' & z & L1 & L2) N].
  destruct cells as [|x [|y l]]; simpl in N; try lia. simpl in F1. subst x.
  rewrite join_cons. destruct (join_last chTAB (y :: l)) as [p Hp]; [discriminate|]. rewrite Hp.
  change (last ((c :: s) :: y :: l) []) with (last (y :: l) []) in L1. rewrite L1. exists c, (s ++ chTAB :: p ++ s'), z. split; auto.
  simpl. rewrite <- !app_assoc. simpl. rewrite <- app_assoc. reflexivity.
Qed.

Lemma fit_line_text cells : row_fit cells -> line_text (row_text cells) (join [chTAB] cells).
Proof.
  intro F. exists [chNL]. split; [reflexivity|]. split; [constructor; auto|].
  intros l c E. destruct (row_shape cells F) as (c0 & m & z & J & _ & Z0). rewrite J in E.
  change (c0 :: m ++ [z]) with ((c0 :: m) ++ [z]) in E. apply app_inj_tail in E as [_ ->].
  unfold is_crlf in Z0. apply orb_false_iff in Z0 as [Z1 Z2]. apply N.eqb_neq in Z1, Z2. auto.
Qed.

Lemma fit_ten cells : row_fit cells -> length cells = 10%nat -> ten_cells (row_text cells) cells.
Proof.
  intros F L. exists (join [chTAB] cells). split; [now apply fit_line_text|]. split; [|split; auto].
  - destruct (row_shape cells F) as (c & m & z & -> & _). discriminate.
  - symmetry. apply split_join; [destruct cells; discriminate|]. eapply Forall_impl; [|exact (rf_clean _ F)]. intros a []; auto.
Qed.

Lemma fit_not_comment cells : row_fit cells -> ~ ud_comment (row_text cells).
Proof.
  intros F (r & H). apply line_text_iff in H. pose proof (fit_line_text cells F) as H'. apply line_text_iff in H'. rewrite H in H'.
  destruct (row_shape cells F) as (c & m & z & J & N & _). rewrite J in H'. injection H' as H' _. congruence.
Qed.

Lemma rendered_file_lines rows rest : Forall row_fit rows ->
  file_lines (rendered rows ++ [chNL] ++ rest) = map row_text rows ++ [chNL] :: file_lines rest.
Proof.
  induction 1 as [|c rows F Fs IH]; [reflexivity|].
  rewrite rendered_cons. unfold format_line. rewrite <- !app_assoc.
  destruct (row_line_cells c F) as (_ & _ & C3).
  change (join [chTAB] c ++ [chNL] ++ rendered rows ++ [chNL] ++ rest) with (join [chTAB] c ++ [chNL] ++ (rendered rows ++ [chNL] ++ rest)).
  rewrite app_assoc, file_lines_app by (right; eexists; reflexivity). rewrite C3, IH. reflexivity.
Qed.

Lemma blank_nl : ud_blank [chNL].
Proof. exists [chNL]. split; [reflexivity|]. split; [constructor; auto|]. intros l c E. destruct l; discriminate. Qed.

Lemma word_rows_ten cols text ws : forall i, 1 <= i -> Forall (token_clean text) ws ->
  Forall2 ten_cells (map row_text (word_rows cols text i ws)) (word_rows cols text i ws).
Proof.
  induction ws as [|w ws IH]; intros i Hi F; cbn [word_rows map]; [constructor|]. inversion F; subst. constructor; [|apply IH; auto; lia].
  apply fit_ten; [|reflexivity]. apply (fit_row cols text i w true); auto.
Qed.

(* heads that are written are not negative *)
Definition heads_fine (ts : list token) : Prop := Forall (fun t => forall h, thsent t = Some h -> -1 <= h) ts.

Lemma written_head_cell cols text i t m : cell (expected_row cols text i t m) 6 =
  print_Z (match thsent t with Some h => if chosen cols 6 then h + 1 else i - 1 | None => i - 1 end).
Proof. unfold expected_row. cbn [cell nth]. destruct (chosen cols 6), (thsent t); reflexivity. Qed.

Lemma body_of_rows cols text gs ts : grouped_tokens ts gs -> forall i, 1 <= i ->
  Forall (token_clean text) ts -> Forall (fun t => squeeze (doc_text_of text t) <> []) ts -> heads_fine ts ->
  ud_body (i - 1) (map row_text (expected_rows cols text i gs) ++ [[chNL]]) (cell_groups cols text i gs).
Proof.
  induction 1 as [|t ts gs M G IH|t us ts gs M F X G IH]; intros i Hi C V H.
  - cbn. constructor. apply blank_nl.
  - inversion C as [|? ? C1 C2]; subst. inversion V as [|? ? V1 V2]; subst. inversion H as [|? ? H1 H2]; subst.
    cbn [expected_rows cell_groups map app]. eapply ub_word.
    + apply fit_ten; [apply fit_row; auto|reflexivity].
    + cbn. apply print_no_dot.
    + cbn. apply print_no_dash. lia.
    + cbn [cell expected_row nth]. unfold text_of. unfold multiword in M. destruct (trepl t) eqn:R; [exfalso; apply M; discriminate|].
      unfold doc_text_of in V1. exact V1.
    + cbn [cell expected_row nth]. rewrite parse_print_Z. f_equal. lia.
    + rewrite written_head_cell. apply parse_print_Z.
    + destruct (thsent t) as [h|]; [specialize (H1 h eq_refl)|]; destruct (chosen cols 6); lia.
    + replace (i - 1 + 1) with (i + 1 - 1) by lia. apply IH; auto. lia.
  - inversion C as [|? ? C1 C2]; subst. inversion V as [|? ? V1 V2]; subst. inversion H as [|? ? H1 H2]; subst.
    apply Forall_app in C2 as [C2 C3]. apply Forall_app in V2 as [V2 V3]. apply Forall_app in H2 as [H2 H3].
    cbn [expected_rows cell_groups map app]. rewrite map_app, <- app_assoc.
    assert (P : 1 <= zlen (t :: us)) by (rewrite zlen_cons; pose proof (zlen_nonneg us); lia).
    eapply (ub_range _ _ _ _ _ (print_Z i) (print_Z (i + zlen (t :: us) - 1)) i (i + zlen (t :: us) - 1)).
    + apply fit_ten; [apply fit_range; auto|reflexivity].
    + reflexivity.
    + cbn [cell expected_range nth]. rewrite in_app_iff. intros [Y|[Y|Y]]; [apply (print_no_dot i); auto|discriminate|apply (print_no_dot _ Y)].
    + apply print_no_dash. lia.
    + apply print_no_dash. lia.
    + exact V1.
    + apply parse_print_Z.
    + apply parse_print_Z.
    + apply word_rows_ten; auto.
    + rewrite word_rows_length. lia.
    + rewrite word_rows_length. replace (i - 1 + zlen (t :: us)) with (i + zlen (t :: us) - 1) by lia. apply IH; auto. lia.
Qed.

(* ---- heads ---- *)

Lemma word_rows_heads cols text ws : forall i,
  Forall2 (fun c h => parse_int (cell c 6) = Ok h) (word_rows cols text i ws) (written_heads cols i ws).
Proof.
  induction ws as [|w ws IH]; intro i; cbn [word_rows written_heads]; constructor; auto.
  rewrite written_head_cell. apply parse_print_Z.
Qed.

Lemma written_heads_app cols a : forall i b, written_heads cols i (a ++ b) = written_heads cols i a ++ written_heads cols (i + zlen a) b.
Proof.
  induction a as [|t a IH]; intros i b; cbn [app written_heads].
  - change (zlen (@nil token)) with 0. now rewrite Z.add_0_r.
  - rewrite IH, zlen_cons. do 3 f_equal. lia.
Qed.

Lemma cell_groups_heads cols text gs : forall i,
  Forall2 (fun c h => parse_int (cell c 6) = Ok h) (word_cells (cell_groups cols text i gs)) (written_heads cols i (flat_map members gs)).
Proof.
  unfold word_cells. induction gs as [|[t|t ws] gs IH]; intro i; cbn [cell_groups flat_map members words_of app map written_heads]; [constructor| |].
  - constructor; [cbn [fst snd]; rewrite written_head_cell; apply parse_print_Z|]. apply IH.
  - rewrite map_app, written_heads_app. apply Forall2_app; [|apply IH].
    rewrite map_map. cbn [fst snd]. rewrite map_id. apply word_rows_heads.
Qed.

Lemma written_chain cols ts : chosen cols 6 = false \/ unparsed (map thsent ts) -> forall i,
  map (fun h => Some (h - 1)) (written_heads cols i ts) = map (fun k => Some (i - 2 + Z.of_nat k)) (seq 0 (length ts)).
Proof.
  intro D. induction ts as [|t ts IH]; intro i; [reflexivity|]. cbn [written_heads map length seq].
  rewrite IH by (destruct D as [D|D]; [left; auto|right; inversion D; auto]).
  rewrite <- seq_shift, map_map. f_equal.
  - assert (E : (match thsent t with Some h => if chosen cols 6 then h + 1 else i - 1 | None => i - 1 end) = i - 1).
    { destruct D as [->|D]; [destruct (thsent t); auto|]. inversion D as [|? ? E _]; subst. now rewrite E. }
    rewrite E. f_equal. lia.
  - apply map_ext. intro k. f_equal. lia.
Qed.

Lemma written_given cols ts : chosen cols 6 = true -> (forall i, nth_error (map thsent ts) i <> Some None) -> forall i,
  map (fun h => Some (h - 1)) (written_heads cols i ts) = map thsent ts.
Proof.
  intros C. induction ts as [|t ts IH]; intros N i; [reflexivity|]. cbn [written_heads map]. rewrite IH by (intro k; exact (N (S k))).
  f_equal. specialize (N 0%nat). cbn in N. destruct (thsent t) as [h|]; [|congruence]. rewrite C. f_equal. lia.
Qed.

Lemma written_tree cols ts : ts <> [] -> unparsed (map thsent ts) \/ dependency_tree (map thsent ts) ->
  dependency_tree (map (fun h => Some (h - 1)) (written_heads cols 1 ts)).
Proof.
  intros N D.
  assert (Ch : chosen cols 6 = false \/ unparsed (map thsent ts) -> dependency_tree (map (fun h => Some (h - 1)) (written_heads cols 1 ts))).
  { intro X. rewrite (written_chain cols ts X 1).
    replace (map (fun k => Some (1 - 2 + Z.of_nat k)) (seq 0 (length ts))) with (map (fun i => Some (Z.of_nat i - 1)) (seq 0 (length ts))).
    - apply chain_tree. destruct ts; [congruence|cbn; lia].
    - apply map_ext. intro k. f_equal. lia. }
  destruct (chosen cols 6) eqn:C; [|auto]. destruct D as [D|D]; [auto|].
  rewrite (written_given cols ts C) by apply D. exact D.
Qed.

Lemma written_heads_length cols ts : forall i, length (written_heads cols i ts) = length ts.
Proof. induction ts as [|t ts IH]; intro i; cbn; auto. Qed.

Lemma sentence_tree cols text gs ts : grouped_tokens ts gs -> ts <> [] ->
  unparsed (map thsent ts) \/ dependency_tree (map thsent ts) ->
  tree_heads (cell_groups cols text 1 gs) (written_heads cols 1 ts).
Proof.
  intros G N D. pose proof (written_tree cols ts N D) as T. split; auto. unfold heads_are.
  destruct (grouped_members _ _ G) as [M _]. pose proof (cell_groups_heads cols text gs 1) as F. rewrite M in F.
  assert (L := Forall2_length' _ _ _ F). rewrite written_heads_length in L.
  destruct T as (_ & _ & B & _). rewrite map_length, written_heads_length in B.
  assert (B' : Forall (fun h => 0 <= h <= Z.of_nat (length ts)) (written_heads cols 1 ts)).
  { apply Forall_forall. intros h I0. apply In_nth_error in I0 as (k & E). specialize (B k (h - 1)).
    rewrite nth_error_map, E in B. specialize (B eq_refl). lia. }
  unfold zlen at 1. rewrite L. clear - F B'. induction F; inversion B'; subst; constructor; auto.
Qed.

(* ---- documents ---- *)

Lemma tiles_tokens d s : doc_inv d -> In s (dsents d) -> tokens_of (dtokens d) s <> [] /\ incl (tokens_of (dtokens d) s) (dtokens d).
Proof.
  intros V I0. split.
  - destruct (tiles_in _ _ _ _ (inv_tiles _ V) I0) as (A & B). intro E.
    pose proof (tokens_of_length (dtokens d) s A B) as L. rewrite E in L. cbn in L. lia.
  - intros t It. unfold tokens_of in It.
    rewrite <- (firstn_skipn (Z.to_nat (sstart s)) (dtokens d)). apply in_or_app. right.
    rewrite <- (firstn_skipn (Z.to_nat (send s - sstart s)) (skipn _ _)). apply in_or_app. left. exact It.
Qed.

Definition doc_out (cols : list Z) (d : document) (gss : list (list (group token))) : str :=
  concat (map (fun gs => rendered (expected_rows cols (dtext d) 1 gs) ++ [chNL]) gss).

Lemma sentences_lines cols text tss gss rest rgs : Forall2 grouped_tokens tss gss ->
  Forall (fun ts => ts <> [] /\ Forall (token_clean text) ts /\ Forall (fun t => squeeze (doc_text_of text t) <> []) ts /\ heads_fine ts) tss ->
  ud_lines (file_lines rest) rgs ->
  ud_lines (file_lines (concat (map (fun gs => rendered (expected_rows cols text 1 gs) ++ [chNL]) gss) ++ rest))
           (map (cell_groups cols text 1) gss ++ rgs).
Proof.
  intros F. induction F as [|ts gs tss gss G F IH]; intros H R; [exact R|]. inversion H as [|? ? (N & C & V & Hf) H']; subst.
  cbn [map concat app]. rewrite <- !app_assoc.
  destruct (grouped_members _ _ G) as [M Hd].
  assert (Fit : Forall row_fit (expected_rows cols text 1 gs)) by (apply fit_rows; [lia|auto|now rewrite M]).
  rewrite rendered_file_lines by auto.
  pose proof (body_of_rows cols text gs ts G 1 ltac:(lia) C V Hf) as B.
  change (map row_text (expected_rows cols text 1 gs) ++ [chNL] :: file_lines (concat (map (fun gs0 => rendered (expected_rows cols text 1 gs0) ++ [chNL]) gss) ++ rest))
    with (map row_text (expected_rows cols text 1 gs) ++ [[chNL]] ++ file_lines (concat (map (fun gs0 => rendered (expected_rows cols text 1 gs0) ++ [chNL]) gss) ++ rest)).
  rewrite app_assoc. destruct (expected_rows cols text 1 gs) as [|r rs] eqn:E.
  - exfalso. destruct G; cbn in E; try discriminate. now apply N.
  - cbn [map app] in B |- *. change (row_text r :: (map row_text rs ++ [[chNL]]) ++ ?x) with ((row_text r :: map row_text rs ++ [[chNL]]) ++ x).
    apply ul_sentence; auto. inversion Fit; subst. now apply fit_not_comment.
Qed.

Definition doc_ready (d : document) : Prop := doc_inv d /\ loadable d.

Lemma ready_sentences d : doc_ready d -> Forall (fun ts => ts <> [] /\ Forall (token_clean (dtext d)) ts /\
   Forall (fun t => squeeze (doc_text_of (dtext d) t) <> []) ts /\ heads_fine ts) (map (tokens_of (dtokens d)) (dsents d)).
Proof.
  intros [V [C Vi H]]. apply Forall_forall. intros ts I0. apply in_map_iff in I0 as (s & <- & Is).
  destruct (tiles_tokens d s V Is) as [N Inc]. split; auto. rewrite Forall_forall in C, Vi.
  split; [apply Forall_forall; auto|]. split; [apply Forall_forall; auto|].
  apply Forall_forall. intros t It h E. destruct (H s Is) as [U|T].
  - unfold unparsed in U. rewrite Forall_forall in U. specialize (U (thsent t) (in_map _ _ _ It)). congruence.
  - apply In_nth_error in It as (k & Ek). destruct T as (_ & _ & B & _). specialize (B k h). rewrite nth_error_map, Ek in B. cbn in B. rewrite E in B.
    specialize (B eq_refl). lia.
Qed.

Lemma groups_map d gss : sentence_groups d gss -> Forall2 grouped_tokens (map (tokens_of (dtokens d)) (dsents d)) gss.
Proof. unfold sentence_groups. induction 1; constructor; auto. Qed.

Lemma documents_lines cols ds gsss : Forall doc_ready ds -> Forall2 sentence_groups ds gsss ->
  ud_lines (file_lines (concat (map (fun p => doc_out cols (fst p) (snd p)) (combine ds gsss))))
           (concat (map (fun p => map (cell_groups cols (dtext (fst p)) 1) (snd p)) (combine ds gsss))).
Proof.
  intros R F. induction F as [|d gss ds gsss G F IH]; [constructor|]. inversion R; subst. cbn [combine map concat fst snd].
  apply (sentences_lines cols (dtext d) (map (tokens_of (dtokens d)) (dsents d))); auto using groups_map, ready_sentences.
Qed.

Definition doc_heads (cols : list Z) (d : document) : list (list Z) := map (fun s => written_heads cols 1 (tokens_of (dtokens d) s)) (dsents d).

Lemma documents_trees cols ds gsss : Forall doc_ready ds -> Forall2 sentence_groups ds gsss ->
  Forall2 tree_heads (concat (map (fun p => map (cell_groups cols (dtext (fst p)) 1) (snd p)) (combine ds gsss)))
          (concat (map (doc_heads cols) ds)).
Proof.
  intros R F. induction F as [|d gss ds gsss G F IH]; [constructor|]. inversion R as [|? ? [V L] R']; subst. cbn [combine map concat fst snd].
  apply Forall2_app; auto. unfold doc_heads.
  assert (X : forall s, In s (dsents d) -> tokens_of (dtokens d) s <> [] /\
     (unparsed (map thsent (tokens_of (dtokens d) s)) \/ dependency_tree (map thsent (tokens_of (dtokens d) s)))).
  { intros s Is. split; [apply tiles_tokens; auto|apply (lb_heads _ L); auto]. }
  unfold sentence_groups in G. clear - G X. induction G as [|s gs ss gss G0 G IH]; cbn [map]; constructor.
  - destruct (X s (or_introl eq_refl)). now apply sentence_tree.
  - apply IH. intros s' I0. apply X. right; auto.
Qed.

Lemma tree_heads_fun gs hs hs' : tree_heads gs hs -> tree_heads gs hs' -> hs = hs'.
Proof.
  intros [H _] [H' _]. unfold heads_are in *. revert H H'. generalize (zlen (word_cells gs)). intro n. intro H. revert hs'.
  induction H as [|c h cs hs [P _] H IH]; intros hs' H'; inversion H' as [|? h' ? l' [P' _] H'']; subst; auto.
  f_equal; [congruence|auto].
Qed.

Lemma expected_written cols text gs : forall i at_,
  map (fun w => (snd (fst w), snd w)) (expected_words at_ (cell_groups cols text i gs)) = written_words cols text i gs.
Proof.
  induction gs as [|[t|t ws] gs IH]; intros i at_; cbn [cell_groups expected_words words_of map app written_words]; auto.
  - cbn [fst snd]. now rewrite IH.
  - rewrite map_app, IH, !map_map. reflexivity.
Qed.

Lemma expected_words_concat at_ gss : map (fun w => (snd (fst w), snd w)) (expected_words at_ (concat gss)) =
  concat (map (fun gs => map (fun w : span * list str * bool => (snd (fst w), snd w)) (expected_words 0 gs)) gss).
Proof.
  revert at_. induction gss as [|gs gss IH]; intro at_; [reflexivity|]. cbn [concat map]. rewrite expected_words_app, map_app, IH. f_equal.
  clear. generalize at_ at 1. intro a. assert (G : forall b, map (fun w : span * list str * bool => (snd (fst w), snd w)) (expected_words a gs) = map (fun w => (snd (fst w), snd w)) (expected_words b gs)); [|apply G].
  revert a. induction gs as [|g gs IH]; intros a b; [reflexivity|]. cbn [expected_words]. rewrite !map_app, !map_map. cbn [fst snd]. f_equal. apply IH.
Qed.

Lemma written_loads cols ds gsss : Forall doc_inv ds -> Forall (fun d => tags_writable cols (dtokens d)) ds ->
  Forall2 sentence_groups ds gsss -> Forall no_pending gsss -> Forall loadable ds ->
  exists out u, write_str cols ds = Ok out /\ load_conllu out = Ok u /\
    map (fun w => (w_columns w, w_multi w)) (u_words u) =
      concat (map (fun p => concat (map (written_words cols (dtext (fst p)) 1) (snd p))) (combine ds gsss)) /\
    map w_parent (u_words u) = expected_parents 0 (concat (map (doc_heads cols) ds)).
Proof.
  intros V T G P L. exists (concat (map (fun p => doc_out cols (fst p) (snd p)) (combine ds gsss))).
  assert (R : Forall doc_ready ds). { apply Forall_forall. intros d I0. rewrite Forall_forall in V, L. split; auto. }
  pose proof (documents_lines cols ds gsss R G) as UL. pose proof (documents_trees cols ds gsss R G) as TR.
  destruct (load_accepts _ _ UL) as (u & E). { clear - TR. induction TR; constructor; eauto. }
  exists u. split; [exact (writer_output cols ds gsss V T G P)|]. split; auto.
  rewrite (load_is_steps _ _ UL) in E. destruct (steps_ok _ _ _ empty_loaded E) as (_ & _ & _ & W & _ & _).
  split.
  - assert (W' : map (fun w => (w_columns w, w_multi w)) (u_words u) = map (fun f : span * list str * bool => (snd (fst f), snd f)) (map word_facts (u_words u))) by now rewrite map_map.
    rewrite W', W. cbn [empty_ud u_words map app]. rewrite expected_words_concat, concat_map, map_map.
    rewrite <- (flat_map_concat_map (fun p : document * list (list (group token)) => concat (map (written_words cols (dtext (fst p)) 1) (snd p)))).
    clear. induction (combine ds gsss) as [|p l IH]; [reflexivity|]. cbn [map concat flat_map]. rewrite concat_app, IH. f_equal.
    rewrite map_map. f_equal. apply map_ext. intro gs. apply expected_written.
  - destruct (steps_trees _ _ _ empty_loaded E) as (hss & F & PA).
    + intros gs c h I0 Ic Ep. clear - TR I0 Ic Ep. induction TR as [|g hs gss hss [H _] TR IH]; [destruct I0|].
      destruct I0 as [->|I0]; [|auto]. unfold heads_are in H. revert H Ic. generalize (zlen (word_cells gs)). intros n H Ic.
      induction H as [|c' h' cs hs' [P B] H IH2]; [destruct Ic|]. destruct Ic as [->|Ic]; auto. rewrite P in Ep. injection Ep as <-. lia.
    + rewrite PA. cbn [empty_ud u_words map app]. f_equal. change (zlen (@nil word)) with 0.
      clear - F TR. revert hss F. induction TR as [|g hs gss hss' H TR IH]; intros hss F; inversion F; subst; auto.
      f_equal; auto. eapply tree_heads_fun; eauto.
Qed.
