(* Loading: the lines of an accepted file and what is made of them. *)
From Coq Require Import String Ascii ZArith NArith QArith Bool Sorted Lia List.
From Verif Require Import Base BaseFacts Model_Datamodel Model_Conllu Spec_Datamodel Spec_Conllu Model_UDEval Spec_UDEval Proofs_UDEval.
From Verif Require Import Proofs_Datamodel Proofs_Conllu Proofs_Conllu3 Proofs_Conllu10 Proofs_UDEval3.
Import ListNotations.
Open Scope Z_scope.

(* ---- one line ---- *)

Lemma is_crlf_iff c : is_crlf c = true <-> c = chCR \/ c = chNL.
Proof. unfold is_crlf. rewrite orb_true_iff, !N.eqb_eq. tauto. Qed.

Lemma drop_while_app_all {A} (p : A -> bool) l r : Forall (fun x => p x = true) l -> drop_while p (l ++ r) = drop_while p r.
Proof. induction 1 as [|x l Hx F IH]; cbn; auto. now rewrite Hx. Qed.

Lemma drop_while_split {A} (p : A -> bool) l : exists d, l = d ++ drop_while p l /\ Forall (fun x => p x = true) d.
Proof.
  induction l as [|x l (d & E & F)]; [exists []; split; auto|]. cbn. destruct (p x) eqn:Ex.
  - exists (x :: d). cbn. split; [congruence|auto].
  - exists []. cbn. auto.
Qed.

Lemma drop_while_hd {A} (p : A -> bool) l x r : drop_while p l = x :: r -> p x = false.
Proof. induction l as [|y l IH]; [discriminate|]. cbn. destruct (p y) eqn:Ey; auto. intros [= <- _]. auto. Qed.

Lemma line_text_iff raw line : line_text raw line <-> rstrip_crlf raw = line.
Proof.
  unfold rstrip_crlf. split.
  - intros (tail & -> & F & H). rewrite rev_app_distr.
    rewrite drop_while_app_all.
    + destruct (rev line) as [|c r] eqn:E.
      * apply (f_equal (@rev _)) in E. rewrite rev_involutive in E. now subst.
      * assert (El : line = rev r ++ [c]).
        { apply (f_equal (@rev _)) in E. rewrite rev_involutive in E. exact E. }
        destruct (H _ _ El) as [H1 H2]. cbn. replace (is_crlf c) with false.
        -- now rewrite <- E, rev_involutive.
        -- symmetry. apply not_true_iff_false. rewrite is_crlf_iff. tauto.
    + apply Forall_rev. eapply Forall_impl; [|exact F]. intros c. now rewrite is_crlf_iff.
  - intros <-. destruct (drop_while_split is_crlf (rev raw)) as (d & E & F). exists (rev d). split; [|split].
    + apply (f_equal (@rev _)) in E. rewrite rev_involutive, rev_app_distr in E. exact E.
    + apply Forall_rev. eapply Forall_impl; [|exact F]. intros c. now rewrite is_crlf_iff.
    + intros l c Hl. apply (f_equal (@rev _)) in Hl. rewrite rev_involutive, rev_app_distr in Hl. cbn in Hl.
      apply drop_while_hd in Hl. apply not_true_iff_false in Hl. rewrite is_crlf_iff in Hl. tauto.
Qed.

Lemma blank_iff raw : ud_blank raw <-> rstrip_crlf raw = [].
Proof. apply line_text_iff. Qed.

Lemma comment_iff raw : ud_comment raw <-> startswith (rstrip_crlf raw) (of_string "#") = true.
Proof.
  rewrite startswith_iff. split.
  - intros (r & H). apply line_text_iff in H. exists r. rewrite H. reflexivity.
  - intros (r & H). exists r. apply line_text_iff. rewrite H. reflexivity.
Qed.

Lemma ten_cells_iff raw c : ten_cells raw c <-> c = split chTAB (rstrip_crlf raw) /\ length c = 10%nat.
Proof.
  split.
  - intros (line & H & _ & E & L). apply line_text_iff in H. subst line. auto.
  - intros [E L]. exists (rstrip_crlf raw). split; [now apply line_text_iff|]. split; auto.
    intro C. rewrite C in E. subst c. discriminate.
Qed.

Lemma ten_cells_form (c : list str) : length c = 10%nat -> exists c0 c1 c2 c3 c4 c5 c6 c7 c8 c9, c = [c0;c1;c2;c3;c4;c5;c6;c7;c8;c9].
Proof. do 11 (destruct c as [|? c]; try discriminate). intros _. repeat eexists. Qed.

Lemma remove_spaces_squeeze s : remove_spaces s = squeeze s.
Proof. reflexivity. Qed.

(* ---- what a sentence adds ---- *)

Fixpoint row_words (ix : Z) (sp : span) (ws : list (list str * list str * bool)) : list word :=
  match ws with
  | [] => []
  | w :: ws' => mkWord ix sp (kept_columns (snd (fst w)) (snd w)) (snd w) PaNone :: row_words (ix + 1) sp ws'
  end.

Fixpoint new_words (ix at_ : Z) (gs : list (group (list str))) : list word :=
  match gs with
  | [] => []
  | g :: gs' =>
      row_words ix (mkSpan at_ (at_ + zlen (group_chars g))) (words_of g)
      ++ new_words (ix + zlen (words_of g)) (at_ + zlen (group_chars g)) gs'
  end.

Lemma new_words_cons ix at_ g gs :
  new_words ix at_ (g :: gs) =
  row_words ix (mkSpan at_ (at_ + zlen (group_chars g))) (words_of g)
  ++ new_words (ix + zlen (words_of g)) (at_ + zlen (group_chars g)) gs.
Proof. reflexivity. Qed.

Lemma row_words_length ix sp ws : length (row_words ix sp ws) = length ws.
Proof. revert ix; induction ws as [|w ws IH]; intro ix; cbn; auto. Qed.

Lemma row_words_zlen ix sp ws : zlen (row_words ix sp ws) = zlen ws.
Proof. unfold zlen. now rewrite row_words_length. Qed.
Lemma map_zlen {A B} (f : A -> B) l : zlen (map f l) = zlen l.
Proof. unfold zlen. now rewrite map_length. Qed.

Lemma new_words_length gs : forall ix at_, zlen (new_words ix at_ gs) = zlen (flat_map words_of gs).
Proof.
  induction gs as [|g gs IH]; intros ix at_; auto.
  rewrite new_words_cons, zlen_app, IH. cbn [flat_map]. rewrite zlen_app. unfold zlen. now rewrite row_words_length.
Qed.

Definition after (u : ud) (gs : list (group (list str))) (ws : list word) : ud :=
  mkUD (u_chars u ++ sentence_chars gs) (u_tokens u ++ expected_tokens (zlen (u_chars u)) gs) ws (u_sents u).

(* new_word keeps the columns *)
Lemma new_word_kept ix sp (c : list str) (b : bool) : length c = 10%nat ->
  new_word ix sp (if b then c else set_nth c 1 (remove_spaces (cell c 1))) b = mkWord ix sp (kept_columns c b) b PaNone.
Proof.
  intro L. destruct (ten_cells_form c L) as (c0&c1&c2&c3&c4&c5&c6&c7&c8&c9&->). destruct b; reflexivity.
Qed.

Lemma raise_false {A} e (k : result A) : (do _ <- raise_if false e; k) = k.
Proof. reflexivity. Qed.

Lemma zlen10 {A} (c : list A) : length c = 10%nat -> (zlen c =? 10) = true.
Proof. intro L. unfold zlen. now rewrite L. Qed.

Lemma squeeze_nonempty s : squeeze s <> [] -> (zlen (squeeze s) =? 0) = false.
Proof. intro H. destruct (squeeze s); [contradiction|]. unfold zlen. cbn [length]. apply Z.eqb_neq. lia. Qed.

Lemma nth1_set (c : list str) (s : str) : length c = 10%nat -> nth 6 (set_nth c 1 s) [] = cell c 6.
Proof. intro L. destruct (ten_cells_form c L) as (c0&c1&c2&c3&c4&c5&c6&c7&c8&c9&->). reflexivity. Qed.

(* ---- the lines of the body ---- *)

Section Body.
Variable u : ud.
Variable start : Z.

Definition stt (v : ud) (pend : Z) : lstate := mkL v (zlen (u_chars v)) (Some start) pend.

Lemma body_line v l c : ten_cells l c -> load_line (stt v 0) l = load_row (stt v 0) start (rstrip_crlf l).
Proof.
  intros (line & H & N & E & L). apply line_text_iff in H. unfold load_line, stt; cbn [l_pending l_start]. rewrite H.
  change (0 <? 0) with false. cbv iota. destruct line; [contradiction|reflexivity].
Qed.

Lemma row_empty v l c : ten_cells l c -> In 46%N (cell c 0) -> load_line (stt v 0) l = Ok (stt v 0).
Proof.
  intros T D. rewrite (body_line _ _ _ T). apply ten_cells_iff in T as [E L]. unfold load_row. rewrite <- E, (zlen10 _ L).
  cbn [negb]. rewrite raise_false. apply mem_char_spec in D. unfold cell in D. change (ch "."%char) with 46%N. rewrite D. reflexivity.
Qed.

Lemma not_mem c s : ~ In c s -> mem_char c s = false.
Proof. intro H. apply not_true_iff_false. now rewrite mem_char_spec. Qed.

Lemma row_word v l c h : ten_cells l c -> ~ In 46%N (cell c 0) -> ~ In 45%N (cell c 0) -> squeeze (cell c 1) <> [] ->
  parse_int (cell c 0) = Ok (zlen (u_words v) - start + 1) -> parse_int (cell c 6) = Ok h -> 0 <= h ->
  load_line (stt v 0) l = Ok (stt (after v [GWord c] (u_words v ++ new_words (zlen (u_words v)) (zlen (u_chars v)) [GWord c])) 0).
Proof.
  intros T D1 D2 F P1 P2 H0. rewrite (body_line _ _ _ T). apply ten_cells_iff in T as [E L]. unfold load_row. rewrite <- E, (zlen10 _ L).
  cbn [negb]. rewrite raise_false. apply not_mem in D1, D2. unfold cell in D1, D2.
  change (ch "."%char) with 46%N. change (ch "-"%char) with 45%N. rewrite D1, D2, remove_spaces_squeeze.
  fold (cell c 1). rewrite (squeeze_nonempty _ F), raise_false.
  unfold parse_int_ud. fold (cell c 0). rewrite P1. cbn [bind stt l_ud l_index].
  replace (zlen (u_words v) - start + 1 =? zlen (u_words v) - start + 1) with true by (symmetry; apply Z.eqb_refl).
  cbn [negb]. rewrite raise_false. rewrite nth1_set by auto. rewrite P2. cbn [bind].
  destruct (Z.ltb_spec h 0); [lia|]. rewrite raise_false.
  unfold after, stt. cbn [u_chars u_tokens u_words u_sents].
  rewrite new_words_cons. cbn [words_of row_words new_words app fst snd surface_row group_chars sentence_chars map concat expected_tokens].
  rewrite <- (remove_spaces_squeeze (cell c 1)).
  rewrite (new_word_kept _ _ c false L). rewrite app_nil_r.
  unfold group_chars. cbn [surface_row]. rewrite remove_spaces_squeeze. rewrite zlen_app. reflexivity.
Qed.

Lemma row_range v l c sa sb a b : ten_cells l c -> cell c 0 = sa ++ 45%N :: sb -> ~ In 46%N (cell c 0) -> ~ In 45%N sa -> ~ In 45%N sb ->
  squeeze (cell c 1) <> [] -> parse_int sa = Ok a -> parse_int sb = Ok b ->
  load_line (stt v 0) l = Ok (stt (after v [GRange c []] (u_words v)) (Z.max 0 (b - a + 1))).
Proof.
  intros T E0 D1 Na Nb F Pa Pb. rewrite (body_line _ _ _ T). apply ten_cells_iff in T as [E L]. unfold load_row. rewrite <- E, (zlen10 _ L).
  cbn [negb]. rewrite raise_false.
  assert (D2 : mem_char 45%N (cell c 0) = true) by (apply mem_char_spec; rewrite E0; apply in_or_app; cbn; auto).
  apply not_mem in D1. unfold cell in D1, D2.
  change (ch "."%char) with 46%N. change (ch "-"%char) with 45%N. rewrite D1, D2, remove_spaces_squeeze.
  fold (cell c 1). rewrite (squeeze_nonempty _ F), raise_false.
  unfold parse_range_ud. fold (cell c 0). rewrite E0. change (ch "-"%char) with 45%N. rewrite Proofs_Conllu3.split_app, Proofs_Conllu3.split_no by auto.
  unfold parse_int_ud. rewrite Pa, Pb. cbn [bind stt l_ud l_index].
  unfold after, stt. cbn [u_chars u_tokens u_words u_sents sentence_chars map concat group_chars surface_row expected_tokens].
  unfold group_chars. cbn [surface_row]. rewrite app_nil_r, zlen_app. replace (b - a + 1) with (b + 1 - a) by lia. reflexivity.
Qed.

Lemma row_mw v l c pend : 0 < pend -> ten_cells l c -> u_tokens v <> [] ->
  load_line (stt v pend) l =
  Ok (stt (mkUD (u_chars v) (u_tokens v) (u_words v ++ [mkWord (zlen (u_words v)) (last (u_tokens v) (mkSpan 0 0)) (kept_columns c true) true PaNone]) (u_sents v)) (pend - 1)).
Proof.
  intros P T N. apply ten_cells_iff in T as [E L]. unfold load_line, stt; cbn [l_pending].
  replace (0 <? pend) with true by (symmetry; apply Z.ltb_lt; lia).
  unfold load_mw_word. rewrite <- E, (zlen10 _ L). cbn [negb]. rewrite raise_false. cbn [l_ud l_start l_index].
  rewrite (py_index_last _ (mkSpan 0 0)) by auto. cbn [bind].
  rewrite (new_word_kept _ _ c true L). reflexivity.
Qed.

Lemma rows_mw : forall ws cs v pend, Forall2 ten_cells ws cs -> zlen cs <= pend -> u_tokens v <> [] ->
  foldM load_line (stt v pend) ws =
  Ok (stt (mkUD (u_chars v) (u_tokens v)
             (u_words v ++ row_words (zlen (u_words v)) (last (u_tokens v) (mkSpan 0 0)) (map (fun w => ([], w, true)) cs)) (u_sents v)) (pend - zlen cs)).
Proof.
  intros ws cs v pend F. revert v pend. induction F as [|l c ws cs T F IH]; intros v pend P N.
  - cbn. rewrite app_nil_r. unfold zlen. cbn. rewrite Z.sub_0_r. now destruct v.
  - unfold zlen in P. cbn [length] in P. assert (P0 : 0 < pend) by lia. cbn [foldM]. rewrite (row_mw _ _ _ _ P0 T N). cbn [bind].
    rewrite IH; [|unfold zlen; cbn [length]; lia|exact N].
    cbn [u_chars u_tokens u_words u_sents map row_words fst snd].
    rewrite <- app_assoc, zlen_app, !zlen_cons. cbn [app]. change (zlen (@nil word)) with 0. rewrite Z.add_0_l.
    replace (pend - 1 - zlen cs) with (pend - (zlen cs + 1)) by lia. reflexivity.
Qed.

Lemma row_words_surface ix sp ws s s' : row_words ix sp (map (fun w => (s, w, true)) ws) = row_words ix sp (map (fun w => (s', w, true)) ws).
Proof. revert ix. induction ws as [|w ws IH]; intro ix; cbn; auto. now rewrite IH. Qed.

(* the whole body *)
Lemma body_loads k body gs : ud_body k body gs -> forall v, zlen (u_words v) - start = k ->
  foldM load_line (stt v 0) body =
  do ws <- link_sentence (u_words v ++ new_words (zlen (u_words v)) (zlen (u_chars v)) gs) start;
  Ok (mkL (mkUD (u_chars v ++ sentence_chars gs) (u_tokens v ++ expected_tokens (zlen (u_chars v)) gs) ws
                (close_last (u_sents v) (zlen (u_chars v) + zlen (sentence_chars gs))))
          (zlen (u_chars v) + zlen (sentence_chars gs)) None 0).
Proof.
  induction 1 as [k l B|k l c ls gs T D BD IH|k l c ls gs h T D1 D2 F P1 P2 H0 BD IH|k l c ls gs sa sb a b ws cs T E0 D1 Na Nb F Pa Pb W Lc BD IH];
    intros v K.
  - cbn [foldM]. apply blank_iff in B. unfold load_line, stt; cbn [l_pending l_start]. change (0 <? 0) with false. cbv iota. rewrite B.
    cbn [new_words sentence_chars map concat expected_tokens l_ud l_index]. rewrite !app_nil_r. unfold zlen at 4 6. cbn [length Z.of_nat].
    rewrite Z.add_0_r. destruct (link_sentence (u_words v) start); reflexivity.
  - cbn [foldM]. rewrite (row_empty _ _ _ T D). cbn [bind]. apply IH; auto.
  - cbn [foldM]. rewrite (row_word v l c h) by (auto; now rewrite K). cbn [bind].
    rewrite IH.
    + unfold after. cbn [u_words u_chars u_tokens u_sents].
      rewrite !new_words_cons. cbn [new_words sentence_chars map concat expected_tokens]. rewrite !app_nil_r.
      rewrite !zlen_app, <- !app_assoc. cbn [app].
      replace (zlen (row_words (zlen (u_words v)) (mkSpan (zlen (u_chars v)) (zlen (u_chars v) + zlen (group_chars (GWord c)))) (words_of (GWord c))))
        with (zlen (words_of (GWord c))) by (unfold zlen; now rewrite row_words_length).
      unfold sentence_chars. rewrite !Z.add_assoc. reflexivity.
    + unfold after. cbn [u_words]. rewrite zlen_app, new_words_length. unfold zlen. cbn [flat_map words_of app length]. unfold zlen in K. lia.
  - cbn [foldM]. rewrite (row_range v l c sa sb a b) by auto. cbn [bind]. rewrite foldM_app.
    rewrite (rows_mw ws cs) by (auto; try lia; unfold after; cbn [u_tokens expected_tokens]; intro C; symmetry in C; now apply app_cons_not_nil in C).
    cbn [bind]. rewrite <- Lc, Z.sub_diag. rewrite IH.
    + unfold after. cbn [u_words u_chars u_tokens u_sents expected_tokens]. rewrite last_last.
      rewrite !new_words_cons. cbn [sentence_chars map concat expected_tokens].
      rewrite !zlen_app, <- !app_assoc. cbn [app]. rewrite ?app_nil_r.
      change (group_chars (GRange c [])) with (group_chars (GRange c cs)).
      cbn [words_of]. rewrite (row_words_surface _ _ cs [] c).
      rewrite !row_words_zlen, !map_zlen.
      unfold sentence_chars. rewrite ?Z.add_assoc, ?Z.add_0_r. reflexivity.
    + unfold after. cbn [u_words]. rewrite zlen_app. unfold zlen in *. rewrite row_words_length, map_length. lia.
Qed.

End Body.
