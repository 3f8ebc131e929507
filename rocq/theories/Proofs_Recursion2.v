(* Loading with a recursion limit. *)
From Coq Require Import String ZArith NArith QArith Bool Sorted Lia List.
From Verif Require Import Base BaseFacts Model_Datamodel Model_Conllu Spec_Datamodel Spec_Conllu Model_UDEval Spec_UDEval Proofs_UDEval.
From Verif Require Import Proofs_Datamodel Proofs_Datamodel2 Proofs_Syntax Proofs_Conllu Proofs_Conllu10 Proofs_UDEval3 Proofs_UDEval4
  Proofs_UDEval5 Proofs_UDEval6.
From Verif Require Import Model_Recursion Spec_Recursion Proofs_Recursion.
Import ListNotations.
Open Scope Z_scope.

(* ---- one sentence ---- *)

Lemma loop_bounded words start limit : 0 <= start -> forall js ps r, length ps = length words ->
  foldM (fun ps j => process_word limit words start ps j) ps (map (fun i => start + Z.of_nat i) js) = Ok r ->
  foldM (fun ps j => process_word (S (length words)) words start ps j) ps (map (fun i => start + Z.of_nat i) js) = Ok r.
Proof.
  intros S0. induction js as [|j js IH]; intros ps r L E; [exact E|]. cbn [map foldM] in *.
  apply bind_ok_iff in E as (ps1 & E1 & E). pose proof (process_bounded _ _ _ _ _ _ E1 ltac:(lia)) as B.
  rewrite (process_mono _ _ _ (S (length words)) _ _ _ B); [|rewrite <- L; pose proof (length_filter not_remap ps); lia].
  cbn [bind]. apply IH; auto. pose proof (process_general _ _ _ _ _ _ E1 ltac:(lia)) as [G _]. congruence.
Qed.

Lemma link_in_sound prev ws limit r : link_sentence_in limit (prev ++ ws) (zlen prev) = Ok r ->
  link_sentence (prev ++ ws) (zlen prev) = Ok r.
Proof.
  rewrite link_in_is. intro E. apply bind_ok_iff in E as (ps & E1 & E).
  unfold link_sentence. replace (Z.to_nat (zlen prev)) with (length prev) by (unfold zlen; lia).
  replace (length (prev ++ ws) - length prev)%nat with (length ws) by (rewrite app_length; lia).
  rewrite (loop_bounded _ _ limit (zlen_nonneg prev) _ _ ps).
  - exact E.
  - apply map_length.
  - destruct (foldM _ _ _) as [ps'|e]; cbn [relabel] in E1; [congruence|]. destruct e; discriminate.
Qed.

Lemma link_in_exact prev ws hs limit : Forall2 head_of ws hs -> Forall (fun h => 0 <= h <= zlen ws) hs ->
  Forall (fun w => w_parent w = PaNone) ws -> dependency_tree (map (fun h => Some (h - 1)) hs) ->
  (fits limit hs -> link_sentence_in limit (prev ++ ws) (zlen prev) = link_sentence (prev ++ ws) (zlen prev)) /\
  (forall i l, climb hs i l -> (limit <= length l)%nat -> link_sentence_in limit (prev ++ ws) (zlen prev) = Err ERuntime).
Proof.
  intros H B N T.
  assert (Hl : length hs = length ws) by (symmetry; eapply Forall2_length'; eauto).
  assert (W : forall j, (j < length ws)%nat -> exists p, way hs j p).
  { intros j L. apply (reaches_way [] []). destruct T as (_ & _ & _ & T). apply T. rewrite map_length. lia. }
  destruct (loop_exact prev ws hs H B W limit (length ws) 0 (map w_parent (prev ++ ws)) eq_refl (initial_processed prev ws hs N)) as [E1 E2].
  assert (C : forall i l, climb hs i l -> (i < length ws)%nat).
  { intros i l (rest & Wi & _). rewrite <- Hl. apply (way_lt _ _ _ Wi). destruct (way_head _ _ _ Wi) as (q & ->). now left. }
  split.
  - intro F. destruct (link_complete prev ws hs H B N T) as (r & Er). rewrite Er.
    assert (exists r', link_sentence_in limit (prev ++ ws) (zlen prev) = Ok r') as (r' & Er').
    { rewrite link_in_is. destruct E1 as (ps & Ep); [intros i l Li Ci; now apply (F i)|].
      rewrite Ep. cbn [relabel bind].
      pose proof (loop_bounded _ _ limit (zlen_nonneg prev) _ _ ps (map_length _ _) Ep) as Eb.
      unfold link_sentence in Er. replace (Z.to_nat (zlen prev)) with (length prev) in Er by (unfold zlen; lia).
      replace (length (prev ++ ws) - length prev)%nat with (length ws) in Er by (rewrite app_length; lia).
      rewrite Eb in Er. cbn [bind] in Er. eauto. }
    rewrite Er'. apply link_in_sound in Er'. congruence.
  - intros i l Ci L. rewrite link_in_is, E2; [reflexivity|]. exists i, l. pose proof (C _ _ Ci). split; [lia|auto].
Qed.

Lemma fits_dec hs limit : dependency_tree (map (fun h => Some (h - 1)) hs) ->
  fits limit hs \/ exists i l, climb hs i l /\ (limit <= length l)%nat.
Proof.
  intro T.
  (* climbs are first parts of ways, and there are finitely many *)
  assert (D : forall i, (forall l, climb hs i l -> (length l < limit)%nat) \/ exists l, climb hs i l /\ (limit <= length l)%nat).
  { intro i. destruct (Nat.lt_ge_cases i (length hs)) as [Li|Li].
    2:{ left. intros l (rest & Wi & _). exfalso. destruct (way_head _ _ _ Wi) as (q & Eq).
        pose proof (way_lt _ _ _ Wi i) as C. rewrite Eq in C. specialize (C (or_introl eq_refl)). lia. }
    assert (Wj : forall j, (j < length hs)%nat -> exists p, way hs j p).
    { intros j L. apply (reaches_way [] []). destruct T as (_ & _ & _ & T). apply T. rewrite map_length. lia. }
    destruct (Wj i Li) as (path & W).
    assert (New : forall j, (forall i' p, (i' < i)%nat -> way hs i' p -> ~ In j p) \/ (exists i' p, (i' < i)%nat /\ way hs i' p /\ In j p)).
    { intro j. clear W. assert (Le : (i <= length hs)%nat) by lia. clear Li. induction i as [|i IH]; [left; intros; lia|].
      destruct IH as [IH|(i' & p & L & Wi & I0)]; [lia| |right; exists i', p; split; [lia|auto]].
      destruct (Wj i ltac:(lia)) as (p & Wp). destruct (in_dec Nat.eq_dec j p) as [I0|N0]; [right; exists i, p; split; [lia|auto]|].
      left. intros i' p' L Wi. destruct (Nat.eq_dec i' i) as [->|]; [|apply (IH i' p'); auto; lia].
      now rewrite (way_fun _ _ _ Wi _ Wp). }
    assert (Ok1 : forall j, (nth_error hs j <> Some 0 /\ forall i' p, (i' < i)%nat -> way hs i' p -> ~ In j p) \/
                            ~ (nth_error hs j <> Some 0 /\ forall i' p, (i' < i)%nat -> way hs i' p -> ~ In j p)).
    { intro j. destruct (New j) as [Nj|(i' & p & L & Wi & I0)].
      - destruct (nth_error hs j) as [h|]; [|left; split; auto; discriminate].
        destruct (Z.eq_dec h 0) as [->|Nh]; [right; intros [C _]; now apply C|left; split; auto; congruence].
      - right. intros [_ C]. exact (C i' p L Wi I0). }
    assert (G : forall m, (m <= length path)%nat ->
       (forall j, In j (firstn m path) -> nth_error hs j <> Some 0 /\ forall i' p, (i' < i)%nat -> way hs i' p -> ~ In j p) \/
       ~ (forall j, In j (firstn m path) -> nth_error hs j <> Some 0 /\ forall i' p, (i' < i)%nat -> way hs i' p -> ~ In j p)).
    { intros m _. induction (firstn m path) as [|j l IH]; [left; intros j []|].
      destruct (Ok1 j) as [Oj|Nj]; [|right; intro C; apply Nj, C; now left].
      destruct IH as [IH|IH]; [left; intros k [<-|I0]; auto|right; intro C; apply IH; intros k I0; apply C; now right]. }
    destruct (Nat.le_gt_cases limit (length path)) as [Ll|Ll].
    - destruct (G limit Ll) as [Gl|Gl].
      + right. exists (firstn limit path). split; [|rewrite firstn_length; lia].
        exists (skipn limit path). rewrite firstn_skipn. split; auto.
      + left. intros l (rest & Wi & F). destruct (Nat.lt_ge_cases (length l) limit) as [|Lg]; auto. exfalso. apply Gl.
        intros j I0. apply F. rewrite (way_fun _ _ _ W _ Wi), firstn_app in I0.
        replace (limit - length l)%nat with 0%nat in I0 by lia. cbn [firstn] in I0. rewrite app_nil_r in I0.
        rewrite <- (firstn_skipn limit l). apply in_or_app. now left.
    - left. intros l (rest & Wi & F). rewrite (way_fun _ _ _ W _ Wi), app_length in Ll. lia. }
  assert (E : forall m, (forall i l, (i < m)%nat -> climb hs i l -> (length l < limit)%nat) \/ exists i l, climb hs i l /\ (limit <= length l)%nat).
  { induction m as [|m [IH|IH]]; [left; intros; lia| |now right].
    destruct (D m) as [Dm|(l & Dm)]; [|right; eauto].
    left. intros i l Li C. destruct (Nat.eq_dec i m) as [->|]; auto. apply (IH i); auto. lia. }
  destruct (E (length hs)) as [El|El]; [left|now right].
  intros i l C. apply (El i); auto. destruct C as (rest & Wi & _). apply (way_lt _ _ _ Wi). destruct (way_head _ _ _ Wi) as (q & ->). now left.
Qed.

(* ---- the whole file ---- *)

Lemma line_in_same limit st raw : rstrip_crlf raw <> [] -> load_line_in limit st raw = load_line st raw.
Proof. intro N. unfold load_line_in, load_line. destruct (rstrip_crlf raw); [contradiction|reflexivity]. Qed.

Lemma ten_same limit st raw c : ten_cells raw c -> load_line_in limit st raw = load_line st raw.
Proof. intros (line & H & N & _). apply line_text_iff in H. apply line_in_same. now rewrite H. Qed.

Lemma tens_same limit : forall ws cs st, Forall2 ten_cells ws cs -> foldM (load_line_in limit) st ws = foldM load_line st ws.
Proof.
  induction ws as [|w ws IH]; intros cs st F; [reflexivity|]. inversion F; subst. cbn [foldM].
  erewrite ten_same by eauto. destruct (load_line st w); cbn [bind]; eauto.
Qed.

Lemma body_loads_in limit start k body gs : ud_body k body gs -> forall v, zlen (u_words v) - start = k ->
  foldM (load_line_in limit) (stt start v 0) body =
  do ws <- link_sentence_in limit (u_words v ++ new_words (zlen (u_words v)) (zlen (u_chars v)) gs) start;
  Ok (mkL (mkUD (u_chars v ++ sentence_chars gs) (u_tokens v ++ expected_tokens (zlen (u_chars v)) gs) ws
                (close_last (u_sents v) (zlen (u_chars v) + zlen (sentence_chars gs))))
          (zlen (u_chars v) + zlen (sentence_chars gs)) None 0).
Proof.
  induction 1 as [k l B|k l c ls gs T D BD IH|k l c ls gs h T D1 D2 F P1 P2 H0 BD IH|k l c ls gs sa sb a b ws cs T E0 D1 Na Nb F Pa Pb W Lc BD IH];
    intros v K.
  - cbn [foldM]. apply blank_iff in B. unfold load_line_in, stt; cbn [l_pending l_start]. change (0 <? 0) with false. cbv iota. rewrite B.
    cbn [new_words sentence_chars map concat expected_tokens l_ud l_index]. rewrite !app_nil_r. unfold zlen at 4 6. cbn [length Z.of_nat].
    rewrite Z.add_0_r. destruct (link_sentence_in limit (u_words v) start); reflexivity.
  - cbn [foldM]. rewrite (ten_same limit _ _ _ T), (row_empty _ _ _ _ T D). cbn [bind]. apply IH; auto.
  - cbn [foldM]. rewrite (ten_same limit _ _ _ T), (row_word start v l c h) by (auto; now rewrite K). cbn [bind].
    rewrite IH.
    + unfold after. cbn [u_words u_chars u_tokens u_sents].
      rewrite !new_words_cons. cbn [new_words sentence_chars map concat expected_tokens]. rewrite !app_nil_r.
      rewrite !zlen_app, <- !app_assoc. cbn [app].
      replace (zlen (row_words (zlen (u_words v)) (mkSpan (zlen (u_chars v)) (zlen (u_chars v) + zlen (group_chars (GWord c)))) (words_of (GWord c))))
        with (zlen (words_of (GWord c))) by (unfold zlen; now rewrite row_words_length).
      unfold sentence_chars. rewrite !Z.add_assoc. reflexivity.
    + unfold after. cbn [u_words]. rewrite zlen_app, new_words_length. unfold zlen. cbn [flat_map words_of app length]. unfold zlen in K. lia.
  - cbn [foldM]. rewrite (ten_same limit _ _ _ T), (row_range start v l c sa sb a b) by auto. cbn [bind]. rewrite foldM_app, (tens_same limit ws cs) by auto.
    rewrite (rows_mw start ws cs) by (auto; try lia; unfold after; cbn [u_tokens expected_tokens]; intro C; symmetry in C; now apply app_cons_not_nil in C).
    cbn [bind]. rewrite <- Lc, Z.sub_diag. rewrite IH.
    + unfold after. cbn [u_words u_chars u_tokens u_sents expected_tokens]. rewrite last_last.
      rewrite !new_words_cons. cbn [sentence_chars map concat expected_tokens].
      rewrite !zlen_app, <- !app_assoc. cbn [app]. rewrite ?app_nil_r.
      change (group_chars (GRange c [])) with (group_chars (GRange c cs)).
      cbn [words_of]. rewrite (row_words_surface _ _ cs [] c).
      rewrite !row_words_zlen, !map_zlen.
      unfold sentence_chars. rewrite ?Z.add_assoc, ?Z.add_0_r. reflexivity.
    + unfold after. cbn [u_words]. rewrite zlen_app. unfold zlen in *. rewrite row_words_length, map_length. lia.
Qed.

Definition sentence_step_in (limit : nat) (u : ud) (gs : list (group (list str))) : result ud :=
  do ws <- link_sentence_in limit (u_words u ++ new_words (zlen (u_words u)) (zlen (u_chars u)) gs) (zlen (u_words u));
  Ok (mkUD (u_chars u ++ sentence_chars gs) (u_tokens u ++ expected_tokens (zlen (u_chars u)) gs) ws
           (u_sents u ++ [mkSpan (zlen (u_chars u)) (zlen (u_chars u) + zlen (sentence_chars gs))])).

Lemma open_line_in limit u l : ~ ud_comment l -> load_line_in limit (between u) l = load_line_in limit (stt (zlen (u_words u)) (open_sentence u) 0) l.
Proof.
  intro C. rewrite comment_iff in C. apply not_true_iff_false in C.
  unfold load_line_in, between, stt. cbn [l_pending l_start l_ud l_index]. rewrite C. change (0 <? 0) with false. cbv iota.
  destruct (rstrip_crlf l); reflexivity.
Qed.

Lemma sentence_loads_in limit u l ls gs : ~ ud_comment l -> ud_body 0 (l :: ls) gs ->
  foldM (load_line_in limit) (between u) (l :: ls) = do u' <- sentence_step_in limit u gs; Ok (between u').
Proof.
  intros C B. cbn [foldM]. rewrite (open_line_in limit u l C).
  change (foldM (load_line_in limit) (stt (zlen (u_words u)) (open_sentence u) 0) (l :: ls) = do u' <- sentence_step_in limit u gs; Ok (between u')).
  rewrite (body_loads_in limit (zlen (u_words u)) _ _ _ B) by (cbn [open_sentence u_words]; lia).
  unfold sentence_step_in. cbn [open_sentence u_words u_chars u_tokens u_sents]. rewrite close_last_app.
  destruct (link_sentence_in _ _ _); cbn [bind]; auto. unfold between. cbn [u_chars]. now rewrite zlen_app.
Qed.

Lemma comment_loads_in limit u l : ud_comment l -> load_line_in limit (between u) l = Ok (between u).
Proof.
  intro C. rewrite comment_iff in C. unfold load_line_in, between. cbn [l_pending l_start l_ud l_index]. rewrite C. reflexivity.
Qed.

Lemma file_loads_in limit ls gss : ud_lines ls gss -> forall u,
  foldM (load_line_in limit) (between u) ls = do u' <- foldM (sentence_step_in limit) u gss; Ok (between u').
Proof.
  induction 1 as [|l ls gss C H IH|l ls gs rest gss C B H IH]; intro u.
  - reflexivity.
  - cbn [foldM]. rewrite comment_loads_in by auto. apply IH.
  - rewrite foldM_app, (sentence_loads_in limit u l ls gs C B). cbn [foldM].
    destruct (sentence_step_in limit u gs) as [u'|x]; cbn [bind]; auto.
Qed.

Lemma load_in_is_steps limit text gss : ud_lines (file_lines text) gss ->
  load_conllu_in limit text = foldM (sentence_step_in limit) empty_ud gss.
Proof.
  intro H. unfold load_conllu_in. change initial_lstate with (between empty_ud). rewrite (file_loads_in _ _ _ H).
  destruct (foldM (sentence_step_in limit) empty_ud gss) as [u|x]; reflexivity.
Qed.

Lemma step_in_exact limit u gs hs : tree_heads gs hs ->
  (fits limit hs -> sentence_step_in limit u gs = sentence_step u gs) /\
  (~ fits limit hs -> sentence_step_in limit u gs = Err ERuntime).
Proof.
  intros [H T]. destruct (heads_of_words gs hs (zlen (u_words u)) (zlen (u_chars u)) H) as [H1 H2].
  destruct (link_in_exact (u_words u) _ hs limit H1 H2 (new_words_new _ _ _) T) as [E1 E2].
  unfold sentence_step_in, sentence_step. split; intro F.
  - now rewrite E1.
  - destruct (fits_dec hs limit T) as [C|(i & l & C & L)]; [contradiction|]. now rewrite (E2 i l C L).
Qed.

Lemma steps_in_exact limit gss hss : Forall2 tree_heads gss hss -> forall u,
  (Forall (fits limit) hss -> foldM (sentence_step_in limit) u gss = foldM sentence_step u gss) /\
  (~ Forall (fits limit) hss -> foldM (sentence_step_in limit) u gss = Err ERuntime).
Proof.
  induction 1 as [|gs hs gss hss T F IH]; intro u.
  - split; [reflexivity|]. intro C. destruct C. constructor.
  - cbn [foldM]. destruct (step_in_exact limit u gs hs T) as [E1 E2].
    destruct (step_accepts u gs hs T) as (u' & Eu). split.
    + intro A. inversion A; subst. rewrite E1, Eu by auto. cbn [bind]. now apply IH.
    + intro N. destruct (fits_dec hs limit (proj2 T)) as [D|(i & l & C & L)].
      * rewrite E1, Eu by auto. cbn [bind]. apply IH. intro A. apply N. now constructor.
      * rewrite E2; [reflexivity|]. intro D. specialize (D i l C). lia.
Qed.

Lemma load_in_exact limit text gss hss : ud_lines (file_lines text) gss -> Forall2 tree_heads gss hss ->
  (Forall (fits limit) hss -> load_conllu_in limit text = load_conllu text /\ exists u, load_conllu text = Ok u) /\
  (~ Forall (fits limit) hss -> load_conllu_in limit text = Err ERuntime).
Proof.
  intros UL F. rewrite (load_in_is_steps _ _ _ UL).
  destruct (steps_in_exact limit gss hss F empty_ud) as [E1 E2]. split; auto.
  intro A. split; [rewrite E1 by auto; symmetry; now apply load_is_steps|].
  apply (load_accepts text gss UL). clear -F. induction F; constructor; eauto.
Qed.

(* ---- what is loaded is the same ---- *)

Lemma line_in_sound limit st raw st' : load_line_in limit st raw = Ok st' ->
  (forall s, l_start st = Some s -> 0 <= s <= zlen (u_words (l_ud st))) ->
  load_line st raw = Ok st'.
Proof.
  unfold load_line_in, load_line. intros E V. destruct (0 <? l_pending st); auto.
  assert (G : forall words s r, 0 <= s <= zlen words -> link_sentence_in limit words s = Ok r -> link_sentence words s = Ok r).
  { intros words s r L El. rewrite <- (firstn_skipn (Z.to_nat s) words) in El |- *.
    assert (Es : s = zlen (firstn (Z.to_nat s) words)) by (unfold zlen in *; rewrite firstn_length; lia).
    rewrite Es in El at 3. rewrite Es at 3. now apply link_in_sound in El. }
  destruct (l_start st) as [s|].
  - destruct (rstrip_crlf raw); auto. apply bind_ok_iff in E as (r & Er & E).
    rewrite (G _ _ _ (V s eq_refl) Er). exact E.
  - destruct (startswith _ _); auto. destruct (rstrip_crlf raw); auto. apply bind_ok_iff in E as (r & Er & E).
    cbn [u_words] in *. rewrite (G _ _ _ (conj (zlen_nonneg _) (Z.le_refl _)) Er). exact E.
Qed.

Definition start_valid (st : lstate) : Prop := forall s, l_start st = Some s -> 0 <= s <= zlen (u_words (l_ud st)).

Lemma row_start st s line st' : load_row st s line = Ok st' -> l_start st = Some s -> start_valid st -> start_valid st'.
Proof.
  intros E Es V. specialize (V s Es). unfold load_row in E. apply bind_ok_iff in E as (u0 & _ & E).
  destruct (mem_char _ _); [injection E as <-; intros s' Es'; congruence|].
  apply bind_ok_iff in E as (u1 & _ & E). destruct (mem_char _ _).
  - apply bind_ok_iff in E as ((a, b) & _ & E). injection E as <-. intros s' Es'. cbn in *. injection Es' as <-. exact V.
  - apply bind_ok_iff in E as (x & _ & E). apply bind_ok_iff in E as (u2 & _ & E). apply bind_ok_iff in E as (y & _ & E).
    apply bind_ok_iff in E as (u3 & _ & E). injection E as <-. intros s' Es'. cbn in *. injection Es' as <-.
    rewrite zlen_app. pose proof (zlen_nonneg [new_word (zlen (u_words (l_ud st))) (mkSpan (l_index st) (l_index st + zlen (remove_spaces (nth 1 (split chTAB line) []))))
        (set_nth (split chTAB line) 1 (remove_spaces (nth 1 (split chTAB line) []))) false]). lia.
Qed.

Lemma line_start st raw st' : load_line st raw = Ok st' -> start_valid st -> start_valid st'.
Proof.
  intros E V. unfold load_line in E. destruct (0 <? l_pending st).
  - unfold load_mw_word in E. apply bind_ok_iff in E as (u0 & _ & E). apply bind_ok_iff in E as (sp & _ & E). injection E as <-.
    intros s Es. cbn in *. specialize (V s Es). rewrite zlen_app. unfold zlen in *. cbn [length]. lia.
  - destruct (l_start st) as [s|] eqn:Es.
    + destruct (rstrip_crlf raw) as [|c line].
      * apply bind_ok_iff in E as (ws & _ & E). injection E as <-. intros s' C. discriminate.
      * eapply row_start; eauto.
    + destruct (startswith _ _); [injection E as <-; exact V|]. destruct (rstrip_crlf raw) as [|c line].
      * apply bind_ok_iff in E as (ws & _ & E). injection E as <-. intros s' C. discriminate.
      * eapply row_start; [exact E|reflexivity|]. intros s' C. cbn in *. injection C as <-. split; [apply zlen_nonneg|lia].
Qed.

Lemma load_in_sound limit text u : load_conllu_in limit text = Ok u -> load_conllu text = Ok u.
Proof.
  unfold load_conllu_in, load_conllu. intro E. apply bind_ok_iff in E as (st & E1 & E).
  assert (F : foldM load_line initial_lstate (file_lines text) = Ok st).
  { assert (V : start_valid initial_lstate) by (intros s C; discriminate). revert E1 V. generalize initial_lstate.
    induction (file_lines text) as [|l ls IH]; intros s0 E1 V; [exact E1|]. cbn [foldM] in *.
    apply bind_ok_iff in E1 as (s1 & El & E1). pose proof (line_in_sound _ _ _ _ El V) as El'.
    rewrite El'. cbn [bind]. apply IH; auto. eapply line_start; eauto. }
  rewrite F. exact E.
Qed.

(* ---- which sentences fit ---- *)

Lemma way_depth_fits limit hs : (forall i path, way hs i path -> (length path <= limit)%nat) -> fits limit hs.
Proof.
  intros H i l (rest & W & F). specialize (H _ _ W). rewrite app_length in H.
  destruct rest as [|k rest]; [|cbn in H; lia]. exfalso.
  rewrite app_nil_r in W. assert (R : exists a r, l = a ++ [r] /\ nth_error hs r = Some 0).
  { clear -W. induction W as [j E|j h p E P W (a & r & -> & Er)]; [exists [], j; auto|exists (j :: a), r; auto]. }
  destruct R as (a & r & -> & Er). destruct (F r) as [C _]; [apply in_or_app; right; now left|]. contradiction.
Qed.

Lemma short_fits limit hs : (length hs <= limit)%nat -> fits limit hs.
Proof.
  intro L. apply way_depth_fits. intros i path W. apply Nat.le_trans with (m := length hs); auto.
  rewrite <- (seq_length (length hs) 0). apply NoDup_incl_length; [eapply way_nodup; eauto|].
  intros k Ik. apply in_seq. split; [lia|]. cbn. eapply way_lt; eauto.
Qed.

Lemma backward_fits hs : (forall j h, nth_error hs j = Some h -> h <= Z.of_nat j) -> fits 2 hs.
Proof.
  intros B i l (rest & W & F). destruct l as [|a [|b l]]; cbn; try lia. exfalso.
  cbn in W. inversion W as [|? h p E P W']; subst. destruct (F b) as [_ C]; [right; now left|].
  inversion W' as [? E'|? h' p' E' P' W'']; subst.
  - refine (C (Z.to_nat (h - 1)) _ _ W' _); [specialize (B _ _ E); lia|now left].
  - refine (C (Z.to_nat (h - 1)) _ _ W' _); [specialize (B _ _ E); lia|now left].
Qed.
