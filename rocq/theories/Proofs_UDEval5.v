(* Loading whole files. *)
From Coq Require Import String Ascii ZArith NArith QArith Bool Sorted Lia List.
From Verif Require Import Base BaseFacts Model_Datamodel Model_Conllu Spec_Datamodel Spec_Conllu Model_UDEval Spec_UDEval Proofs_UDEval.
From Verif Require Import Proofs_Datamodel Proofs_Conllu Proofs_Conllu3 Proofs_Conllu10 Proofs_UDEval3 Proofs_UDEval4.
Import ListNotations.
Open Scope Z_scope.

(* ---- linking in general ---- *)

Definition head_known (words : list word) (start : Z) (i : nat) : Prop :=
  exists w h, nth_error words i = Some w /\ head_of w h /\ h <= zlen words - start.

Lemma process_general words start : forall fuel ps j ps', process_word fuel words start ps j = Ok ps' -> 0 <= j ->
  length ps' = length ps /\
  (forall i p, nth_error ps i = Some p -> p <> PaNone -> nth_error ps' i = Some p) /\
  (forall i, nth_error ps' i = Some PaRemap -> nth_error ps i = Some PaRemap) /\
  (forall i k, nth_error ps' i = Some (PaWord k) -> nth_error ps i = Some (PaWord k) \/ 0 <= k < zlen words) /\
  ((forall i p, nth_error ps i = Some p -> p <> PaNone -> (Z.to_nat start <= i)%nat -> head_known words start i) ->
   (forall i p, nth_error ps' i = Some p -> p <> PaNone -> (Z.to_nat start <= i)%nat -> head_known words start i) /\
   (start <= j -> head_known words start (Z.to_nat j))).
Proof.
  induction fuel as [|fuel IH]; intros ps j ps' E J; [discriminate|]. cbn [process_word] in E.
  apply bind_ok_iff in E as (p & Ep & E). rewrite py_index_nonneg in Ep by auto.
  destruct (nth_error ps (Z.to_nat j)) as [p'|] eqn:Ej; [|discriminate]. injection Ep as ->.
  destruct p.
  - apply bind_ok_iff in E as (w & Ew & E). apply bind_ok_iff in E as (c & Ec & E). apply bind_ok_iff in E as (h & Eh & E).
    rewrite py_index_nonneg in Ew by auto. destruct (nth_error words (Z.to_nat j)) as [w'|] eqn:Ew'; [|discriminate]. injection Ew as ->.
    rewrite py_index_nonneg in Ec by (cbv; discriminate). change (Z.to_nat cHEAD) with 6%nat in Ec.
    destruct (nth_error (w_columns w) 6) as [c'|] eqn:Ec'; [|discriminate]. injection Ec as ->.
    destruct (Z.ltb_spec (zlen words - start) h) as [|Lh]; [discriminate|].
    assert (K : head_known words start (Z.to_nat j)) by (exists w, h; split; auto; split; auto; exists c; auto).
    destruct (Z.eqb_spec h 0) as [->|N].
    + injection E as <-. split; auto 6.
    + apply bind_ok_iff in E as (k & Ek & E). apply bind_ok_iff in E as (ps1 & E1 & E). injection E as <-.
      assert (Rk : 0 <= k < zlen words).
      { unfold resolve_index in Ek. destruct (_ && _) eqn:B; [|discriminate]. injection Ek as <-.
        apply andb_prop in B as [B1 B2]. apply Z.leb_le in B1. apply Z.ltb_lt in B2. lia. }
      destruct (IH _ _ _ E1 ltac:(lia)) as (L1 & F1 & F2 & F3 & F4). rewrite set_nth_length in L1.
      assert (Lj : (Z.to_nat j < length ps)%nat) by (eapply nth_error_Some_lt; eauto).
      split; [now rewrite set_nth_length|]. split; [|split; [|split]].
      * intros i p Hi Np. destruct (Nat.eq_dec (Z.to_nat j) i) as [<-|Ni]; [congruence|].
        rewrite set_nth_other by auto. apply F1; auto. now rewrite set_nth_other by auto.
      * intros i Hi. apply set_nth_get in Hi as [[_ C]|[Ni Hi]]; [discriminate|].
        apply F2 in Hi. apply set_nth_get in Hi as [[C _]|[_ Hi]]; [contradiction|auto].
      * intros i q Hi. apply set_nth_get in Hi as [[_ C]|[Ni Hi]]; [injection C as ->; right; auto|].
        apply F3 in Hi as [Hi|Hi]; auto. apply set_nth_get in Hi as [[C _]|[_ Hi]]; [contradiction|auto].
      * intro G. split; auto.
        destruct F4 as [F4 _].
        { intros i p Hi Np Li. apply set_nth_get in Hi as [[<- _]|[_ Hi]]; eauto. }
        intros i p Hi Np Li. apply set_nth_get in Hi as [[<- _]|[_ Hi]]; eauto.
  - discriminate.
  - injection E as <-. split; auto. split; auto. split; auto. split; auto. intro G. split; auto.
    intro Lj. eapply G; eauto; [discriminate|lia].
Qed.

Lemma loop_general words start : 0 <= start -> forall js ps ps',
  foldM (fun ps j => process_word (S (length words)) words start ps j) ps (map (fun i => start + Z.of_nat i) js) = Ok ps' ->
  length ps' = length ps /\
  (forall i, nth_error ps' i = Some PaRemap -> nth_error ps i = Some PaRemap) /\
  (forall i k, nth_error ps' i = Some (PaWord k) -> nth_error ps i = Some (PaWord k) \/ 0 <= k < zlen words) /\
  ((forall i p, nth_error ps i = Some p -> p <> PaNone -> (Z.to_nat start <= i)%nat -> head_known words start i) ->
   (forall i p, nth_error ps' i = Some p -> p <> PaNone -> (Z.to_nat start <= i)%nat -> head_known words start i) /\
   Forall (fun i => head_known words start (Z.to_nat start + i)) js).
Proof.
  intro S0. induction js as [|j js IH]; intros ps ps' E.
  - injection E as <-. auto 6.
  - cbn [map foldM] in E. apply bind_ok_iff in E as (ps1 & E1 & E).
    destruct (process_general _ _ _ _ _ _ E1 ltac:(lia)) as (L1 & _ & F2 & F3 & F4).
    destruct (IH _ _ E) as (L2 & G2 & G3 & G4). split; [congruence|]. split; [auto|]. split.
    + intros i k Hi. apply G3 in Hi as [Hi|Hi]; auto.
    + intro H. destruct (F4 H) as [H1 H2]. destruct (G4 H1) as [H3 H4]. split; auto. constructor; auto.
      replace (Z.to_nat start + j)%nat with (Z.to_nat (start + Z.of_nat j)) by lia. apply H2. lia.
Qed.

Definition parent_valid (n : Z) (w : word) : Prop :=
  match w_parent w with PaNone => True | PaRemap => False | PaWord k => 0 <= k < n end.

Lemma with_parents_nth ws : forall ps i, length ws = length ps ->
  nth_error (map w_parent (with_parents ws ps)) i = nth_error ps i.
Proof.
  induction ws as [|w ws IH]; intros [|p ps] i L; try discriminate; auto.
  destruct i; cbn; auto.
Qed.
Lemma with_parents_map {A} (f : word -> A) : (forall w p, f (mkWord (w_ix w) (w_span w) (w_columns w) (w_multi w) p) = f w) ->
  forall ws ps, length ws = length ps -> map f (with_parents ws ps) = map f ws.
Proof.
  intro Hf. induction ws as [|w ws IH]; intros [|p ps] L; try discriminate; auto.
  cbn. rewrite Hf, IH; auto.
Qed.

Lemma link_general prev ws r : link_sentence (prev ++ ws) (zlen prev) = Ok r ->
  Forall (parent_valid (zlen prev)) prev -> Forall (fun w => w_parent w = PaNone) ws ->
  map w_ix r = map w_ix (prev ++ ws) /\ map word_facts r = map word_facts (prev ++ ws) /\
  Forall (parent_valid (zlen r)) r /\ length r = length (prev ++ ws) /\
  Forall (fun w => exists h, head_of w h /\ h <= zlen ws) ws.
Proof.
  intros E Vp Vn. unfold link_sentence in E. apply bind_ok_iff in E as (ps & E & E'). apply bind_ok_iff in E' as (u0 & _ & E'). injection E' as <-.
  destruct (loop_general _ _ (zlen_nonneg prev) _ _ _ E) as (L & G2 & G3 & G4).
  rewrite map_length in L. symmetry in L.
  assert (T : Z.to_nat (zlen prev) = length prev) by (unfold zlen; lia).
  split; [now apply with_parents_map|]. split; [now apply with_parents_map|].
  assert (Lr : length (with_parents (prev ++ ws) ps) = length (prev ++ ws)).
  { rewrite <- (map_length w_ix (with_parents _ _)), (with_parents_map w_ix) by auto. apply map_length. }
  split; [|split; auto].
  - apply Forall_forall. intros w I0. apply In_nth_error in I0 as (i & Ei).
    pose proof (map_nth_error w_parent _ _ Ei) as Ep. rewrite with_parents_nth in Ep by auto.
    assert (Old : forall p, nth_error (map w_parent (prev ++ ws)) i = Some p -> p = PaNone \/ exists w0, In w0 prev /\ w_parent w0 = p).
    { intros p Hp. rewrite nth_error_map in Hp. destruct (nth_error (prev ++ ws) i) as [w0|] eqn:E0; [|discriminate].
      injection Hp as <-. apply nth_error_In in E0. apply in_app_or in E0 as [E0|E0]; eauto. rewrite Forall_forall in Vn. auto. }
    unfold parent_valid, zlen. rewrite Lr. destruct (w_parent w) as [| |k]; auto.
    + apply G2 in Ep. apply Old in Ep as [C|(w0 & I0 & C)]; [discriminate|].
      rewrite Forall_forall in Vp. specialize (Vp _ I0). unfold parent_valid in Vp. now rewrite C in Vp.
    + apply G3 in Ep as [Ep|Ep]; [|exact Ep]. apply Old in Ep as [C|(w0 & I0 & C)]; [discriminate|].
      rewrite Forall_forall in Vp. specialize (Vp _ I0). unfold parent_valid in Vp. rewrite C in Vp.
      rewrite app_length. unfold zlen in Vp. lia.
  - destruct G4 as [_ G4].
    { intros i p Hi Np Li. exfalso. rewrite T in Li. rewrite nth_error_map, nth_error_app2 in Hi by auto.
      destruct (nth_error ws (i - length prev)) as [w0|] eqn:E0; [|discriminate]. cbn in Hi. injection Hi as <-.
      apply nth_error_In in E0. rewrite Forall_forall in Vn. auto. }
    apply Forall_forall. intros w I0. apply In_nth_error in I0 as (i & Ei).
    rewrite Forall_forall in G4. specialize (G4 i). rewrite T, app_length in G4.
    destruct G4 as (w0 & h & E0 & Hh & Lh).
    { apply in_seq. apply nth_error_Some_lt in Ei. lia. }
    rewrite nth_error_app2 in E0 by lia. replace (length prev + i - length prev)%nat with i in E0 by lia.
    assert (w0 = w) by congruence. subst w0. exists h. split; auto. rewrite zlen_app in Lh. lia.
Qed.

(* ---- one sentence ---- *)

Definition sentence_step (u : ud) (gs : list (group (list str))) : result ud :=
  do ws <- link_sentence (u_words u ++ new_words (zlen (u_words u)) (zlen (u_chars u)) gs) (zlen (u_words u));
  Ok (mkUD (u_chars u ++ sentence_chars gs) (u_tokens u ++ expected_tokens (zlen (u_chars u)) gs) ws
           (u_sents u ++ [mkSpan (zlen (u_chars u)) (zlen (u_chars u) + zlen (sentence_chars gs))])).

Definition open_sentence (u : ud) : ud := mkUD (u_chars u) (u_tokens u) (u_words u) (u_sents u ++ [mkSpan (zlen (u_chars u)) 0]).
Definition between (u : ud) : lstate := mkL u (zlen (u_chars u)) None 0.

Lemma open_line u l : ~ ud_comment l -> load_line (between u) l = load_line (stt (zlen (u_words u)) (open_sentence u) 0) l.
Proof.
  intro C. rewrite comment_iff in C. apply not_true_iff_false in C.
  unfold load_line, between, stt. cbn [l_pending l_start l_ud l_index]. rewrite C. change (0 <? 0) with false. cbv iota.
  destruct (rstrip_crlf l); reflexivity.
Qed.

Lemma close_last_app ss a x e : close_last (ss ++ [mkSpan a x]) e = ss ++ [mkSpan a e].
Proof. unfold close_last. now rewrite removelast_last, rev_app_distr. Qed.

Lemma sentence_loads u l ls gs : ~ ud_comment l -> ud_body 0 (l :: ls) gs ->
  foldM load_line (between u) (l :: ls) = do u' <- sentence_step u gs; Ok (between u').
Proof.
  intros C B. cbn [foldM]. rewrite (open_line u l C).
  change (foldM load_line (stt (zlen (u_words u)) (open_sentence u) 0) (l :: ls) = do u' <- sentence_step u gs; Ok (between u')).
  rewrite (body_loads (zlen (u_words u)) _ _ _ B) by (cbn [open_sentence u_words]; lia).
  unfold sentence_step. cbn [open_sentence u_words u_chars u_tokens u_sents]. rewrite close_last_app.
  destruct (link_sentence _ _); cbn [bind]; auto. unfold between. cbn [u_chars]. now rewrite zlen_app.
Qed.

Lemma comment_loads u l : ud_comment l -> load_line (between u) l = Ok (between u).
Proof.
  intro C. rewrite comment_iff in C. unfold load_line, between. cbn [l_pending l_start l_ud l_index]. rewrite C. reflexivity.
Qed.

Lemma file_loads ls gss : ud_lines ls gss -> forall u,
  foldM load_line (between u) ls = do u' <- foldM sentence_step u gss; Ok (between u').
Proof.
  induction 1 as [|l ls gss C H IH|l ls gs rest gss C B H IH]; intro u.
  - reflexivity.
  - cbn [foldM]. rewrite comment_loads by auto. apply IH.
  - rewrite foldM_app, (sentence_loads u l ls gs C B). cbn [foldM].
    destruct (sentence_step u gs) as [u'|x]; cbn [bind]; auto.
Qed.

Definition empty_ud : ud := mkUD [] [] [] [].

Lemma load_is_steps text gss : ud_lines (file_lines text) gss -> load_conllu text = foldM sentence_step empty_ud gss.
Proof.
  intro H. unfold load_conllu. change initial_lstate with (between empty_ud). rewrite (file_loads _ _ H).
  destruct (foldM sentence_step empty_ud gss) as [u|x]; reflexivity.
Qed.

(* ---- accepted files have the expected shape ---- *)

Definition finished (st : lstate) : Prop := l_start st = None /\ l_pending st = 0.

Lemma load_row_inv v s line st' : load_row (stt s v 0) s line = Ok st' ->
  let c := split chTAB line in
  length c = 10%nat /\
  ((In 46%N (cell c 0)) \/
   (~ In 46%N (cell c 0) /\ ~ In 45%N (cell c 0) /\ squeeze (cell c 1) <> [] /\
    parse_int (cell c 0) = Ok (zlen (u_words v) - s + 1) /\ exists h, parse_int (cell c 6) = Ok h /\ 0 <= h) \/
   (~ In 46%N (cell c 0) /\ squeeze (cell c 1) <> [] /\
    exists sa sb a b, cell c 0 = sa ++ 45%N :: sb /\ ~ In 45%N sa /\ ~ In 45%N sb /\ parse_int sa = Ok a /\ parse_int sb = Ok b)).
Proof.
  intros E c. unfold load_row in E. fold c in E.
  apply bind_ok_iff in E as (u0 & E0 & E). unfold raise_if in E0.
  destruct (Z.eqb_spec (zlen c) 10) as [L|]; [|discriminate]. assert (L' : length c = 10%nat) by (unfold zlen in L; lia).
  split; auto. change (ch "."%char) with 46%N in E. change (ch "-"%char) with 45%N in E.
  fold (cell c 0) in E. fold (cell c 1) in E. rewrite remove_spaces_squeeze in E.
  destruct (mem_char 46%N (cell c 0)) eqn:D; [left; now apply mem_char_spec|].
  assert (D' : ~ In 46%N (cell c 0)) by (rewrite <- mem_char_spec; congruence).
  apply bind_ok_iff in E as (u1 & E1 & E). unfold raise_if in E1. destruct (Z.eqb_spec (zlen (squeeze (cell c 1))) 0) as [|F]; [discriminate|].
  assert (F' : squeeze (cell c 1) <> []) by (intro X; rewrite X in F; apply F; reflexivity).
  right. destruct (mem_char 45%N (cell c 0)) eqn:M.
  - right. split; auto. split; auto. apply bind_ok_iff in E as ((a & b) & Er & E). unfold parse_range_ud in Er.
    change (ch "-"%char) with 45%N in Er.
    pose proof (Proofs_Conllu3.join_split 45%N (cell c 0)) as J. pose proof (Proofs_Conllu3.split_pieces 45%N (cell c 0)) as SP.
    destruct (split 45%N (cell c 0)) as [|sa [|sb [|x l]]]; try discriminate.
    apply bind_ok_iff in Er as (a' & Ea & Er). apply bind_ok_iff in Er as (b' & Eb & Er).
    unfold parse_int_ud in Ea, Eb.
    destruct (parse_int sa) as [za|] eqn:Pa; [|discriminate]. destruct (parse_int sb) as [zb|] eqn:Pb; [|discriminate].
    exists sa, sb, za, zb. inversion SP as [|? ? SP1 SP2]; subst. inversion SP2; subst. split; auto.
  - left. split; auto. split; [rewrite <- mem_char_spec; congruence|]. split; auto.
    apply bind_ok_iff in E as (id & Ei & E). unfold parse_int_ud in Ei. destruct (parse_int (cell c 0)) as [z|] eqn:Pi; [|discriminate].
    injection Ei as ->. apply bind_ok_iff in E as (u2 & E2 & E). unfold raise_if in E2. cbn [stt l_ud] in E2.
    destruct (Z.eqb_spec id (zlen (u_words v) - s + 1)) as [->|]; [|discriminate]. split; auto.
    apply bind_ok_iff in E as (h & Eh & E). rewrite nth1_set in Eh by auto. unfold parse_int_ud in Eh.
    destruct (parse_int (cell c 6)) as [z|] eqn:Ph; [|discriminate]. injection Eh as ->.
    apply bind_ok_iff in E as (u3 & E3 & E). unfold raise_if in E3. destruct (Z.ltb_spec h 0); [discriminate|]. eauto.
Qed.

Lemma load_mw_inv v s pend l st' : 0 < pend -> load_line (stt s v pend) l = Ok st' -> ten_cells l (split chTAB (rstrip_crlf l)).
Proof.
  intros P E. unfold load_line, stt in E. cbn [l_pending] in E. replace (0 <? pend) with true in E by (symmetry; apply Z.ltb_lt; lia).
  unfold load_mw_word in E. apply bind_ok_iff in E as (u0 & E0 & _). unfold raise_if in E0.
  apply ten_cells_iff. split; auto. destruct (Z.eqb_spec (zlen (split chTAB (rstrip_crlf l))) 10) as [L|]; [|discriminate]. unfold zlen in L. lia.
Qed.

Lemma decompose : forall ls,
  (forall v s pend fin, foldM load_line (stt s v pend) ls = Ok fin -> finished fin -> 0 <= pend -> (0 < pend -> u_tokens v <> []) ->
     exists ws cs body rest gs gss, ls = ws ++ body ++ rest /\ Forall2 ten_cells ws cs /\ zlen cs = pend /\
       ud_body (zlen (u_words v) - s + pend) body gs /\ ud_lines rest gss) /\
  (forall u fin, foldM load_line (between u) ls = Ok fin -> finished fin -> exists gss, ud_lines ls gss).
Proof.
  induction ls as [|l ls [IHs IHb]].
  - split.
    + intros v s pend fin E [F1 F2]. injection E as <-. discriminate.
    + intros u fin _ _. exists []. constructor.
  - assert (Body : forall v s pend fin, foldM load_line (stt s v pend) (l :: ls) = Ok fin -> finished fin -> 0 <= pend -> (0 < pend -> u_tokens v <> []) ->
     exists ws cs body rest gs gss, l :: ls = ws ++ body ++ rest /\ Forall2 ten_cells ws cs /\ zlen cs = pend /\
       ud_body (zlen (u_words v) - s + pend) body gs /\ ud_lines rest gss).
    { intros v s pend fin E F P NT. cbn [foldM] in E. apply bind_ok_iff in E as (st & El & E).
      destruct (Z.eq_dec pend 0) as [->|NP].
      - exists [], []. cbn [app]. destruct (rstrip_crlf l) as [|c0 line] eqn:Er.
        + (* the blank line *)
          unfold load_line, stt in El. cbn [l_pending l_start] in El. change (0 <? 0) with false in El. cbv iota in El. rewrite Er in El.
          cbn [l_ud l_index] in El. apply bind_ok_iff in El as (ws & Ew & El). injection El as <-.
          destruct (IHb (mkUD (u_chars v) (u_tokens v) ws (close_last (u_sents v) (zlen (u_chars v)))) fin E F) as (gss & UL).
          exists [l], ls, [], gss. split; auto. split; [constructor|]. split; auto. split; auto. constructor. now apply blank_iff.
        + assert (T : length (split chTAB (rstrip_crlf l)) = 10%nat -> ten_cells l (split chTAB (rstrip_crlf l))).
          { intro L. apply ten_cells_iff. auto. }
          assert (El' : load_row (stt s v 0) s (rstrip_crlf l) = Ok st).
          { unfold load_line, stt in El. cbn [l_pending l_start] in El. change (0 <? 0) with false in El. cbv iota in El. rewrite Er in El. rewrite Er. exact El. }
          destruct (load_row_inv _ _ _ _ El') as (L & [D|[(D1 & D2 & Fm & Pi & h & Ph & H0)|(D1 & Fm & sa & sb & a & b & Ei & Na & Nb & Pa & Pb)]]); specialize (T L).
          * rewrite (row_empty s v l _ T D) in El. injection El as <-.
            destruct (IHs v s 0 fin E F (Z.le_refl _) ltac:(lia)) as (ws & cs & body & rest & gs & gss & -> & W & Z0 & B & UL).
            assert (cs = []) by (destruct cs; [auto|unfold zlen in Z0; cbn [length] in Z0; lia]). subst cs. inversion W; subst.
            exists (l :: body), rest, gs, gss. split; auto. split; [constructor|]. split; auto. split; auto. eapply ub_empty; eauto.
          * rewrite (row_word s v l _ h T) in El by auto. injection El as <-.
            destruct (IHs _ _ _ _ E F (Z.le_refl _) ltac:(lia)) as (ws & cs & body & rest & gs & gss & -> & W & Z0 & B & UL).
            assert (cs = []) by (destruct cs; [auto|unfold zlen in Z0; cbn [length] in Z0; lia]). subst cs. inversion W; subst.
            exists (l :: body), rest, (GWord (split chTAB (rstrip_crlf l)) :: gs), gss.
            split; auto. split; [constructor|]. split; auto. split; auto.
            eapply ub_word; eauto; [now rewrite Z.add_0_r|].
            unfold after in B. cbn [u_words] in B. rewrite zlen_app, zlen_cons in B. change (zlen (@nil word)) with 0 in B.
            replace (zlen (u_words v) + (0 + 1) - s + 0) with (zlen (u_words v) - s + 0 + 1) in B by lia. exact B.
          * rewrite (row_range s v l _ sa sb a b T) in El by auto. injection El as <-.
            destruct (IHs _ _ _ _ E F (Z.le_max_l _ _)) as (ws & cs & body & rest & gs & gss & -> & W & Z0 & B & UL).
            { intros _. unfold after. cbn [u_tokens expected_tokens]. intro C. symmetry in C. now apply app_cons_not_nil in C. }
            exists (l :: ws ++ body), rest, (GRange (split chTAB (rstrip_crlf l)) cs :: gs), gss.
            split; [cbn [app]; now rewrite app_assoc|]. split; [constructor|]. split; auto. split; auto.
            eapply ub_range; eauto. rewrite Z0. unfold after in B. cbn [u_words] in B. rewrite Z.add_0_r. exact B.
      - assert (P0 : 0 < pend) by lia. pose proof (load_mw_inv _ _ _ _ _ P0 El) as T.
        rewrite (row_mw s v l _ pend P0 T (NT P0)) in El. injection El as <-.
        destruct (IHs _ _ _ _ E F) as (ws & cs & body & rest & gs & gss & -> & W & Z0 & B & UL); [lia|cbn [u_tokens]; intros _; auto|].
        exists (l :: ws), (split chTAB (rstrip_crlf l) :: cs), body, rest, gs, gss.
        split; auto. split; auto. split; [rewrite zlen_cons; lia|]. split; auto.
        cbn [u_words] in B. rewrite zlen_app, zlen_cons in B. change (zlen (@nil word)) with 0 in B.
        replace (zlen (u_words v) + (0 + 1) - s + (pend - 1)) with (zlen (u_words v) - s + pend) in B by lia. exact B. }
    split; auto.
    intros u fin E F. destruct (startswith (rstrip_crlf l) (of_string "#")) eqn:C.
    + apply comment_iff in C. cbn [foldM] in E. rewrite comment_loads in E by auto. cbn [bind] in E.
      destruct (IHb _ _ E F) as (gss & UL). exists gss. now apply ul_comment.
    + assert (C' : ~ ud_comment l) by (rewrite comment_iff; congruence).
      cbn [foldM] in E. rewrite (open_line u l C') in E.
      destruct (Body (open_sentence u) (zlen (u_words u)) 0 fin E F (Z.le_refl _) ltac:(lia)) as (ws & cs & body & rest & gs & gss & Els & W & Z0 & B & UL).
      assert (cs = []) by (destruct cs; [auto|unfold zlen in Z0; cbn [length] in Z0; lia]). subst cs. inversion W; subst ws.
      cbn [app] in Els. rewrite Els. exists (gs :: gss).
      assert (exists body', body = l :: body') as (body' & ->).
      { destruct body as [|l' body]; [inversion B|]. cbn [app] in Els. injection Els as <- _. eauto. }
      apply ul_sentence; auto. cbn [open_sentence u_words] in B. replace (zlen (u_words u) - zlen (u_words u) + 0) with 0 in B by lia. exact B.
Qed.

Lemma load_shape text u : load_conllu text = Ok u -> exists gss, ud_lines (file_lines text) gss.
Proof.
  intro E. unfold load_conllu in E. apply bind_ok_iff in E as (fin & E & E').
  apply bind_ok_iff in E' as (u1 & E1 & E'). apply bind_ok_iff in E' as (u2 & E2 & E'). injection E' as <-.
  assert (F : finished fin \/ l_pending fin < 0).
  { unfold raise_if in E1, E2. destruct (Z.ltb_spec 0 (l_pending fin)); [discriminate|].
    destruct (l_start fin) eqn:S0; [discriminate|]. destruct (Z.eq_dec (l_pending fin) 0); [left; split; auto|right; lia]. }
  destruct F as [F|F]; [exact (proj2 (decompose _) empty_ud fin E F)|].
  exfalso.
  assert (P : forall ls st st', foldM load_line st ls = Ok st' -> 0 <= l_pending st -> 0 <= l_pending st').
  { induction ls as [|l ls IH]; intros st st' X H; [injection X as <-; auto|]. cbn [foldM] in X.
    apply bind_ok_iff in X as (st1 & X1 & X). apply (IH _ _ X). clear X IH.
    unfold load_line in X1. destruct (Z.ltb_spec 0 (l_pending st)).
    - unfold load_mw_word in X1. apply bind_ok_iff in X1 as (? & _ & X1). apply bind_ok_iff in X1 as (? & _ & X1). injection X1 as <-. cbn. lia.
    - assert (R : forall st0 s line st2, load_row st0 s line = Ok st2 -> 0 <= l_pending st0 -> 0 <= l_pending st2).
      { intros st0 s line st2 R H1. unfold load_row in R. apply bind_ok_iff in R as (? & _ & R).
        destruct (mem_char _ _); [injection R as <-; auto|]. apply bind_ok_iff in R as (? & _ & R).
        destruct (mem_char _ _).
        - apply bind_ok_iff in R as ((a & b) & _ & R). injection R as <-. cbn. lia.
        - apply bind_ok_iff in R as (? & _ & R). apply bind_ok_iff in R as (? & _ & R). apply bind_ok_iff in R as (? & _ & R).
          apply bind_ok_iff in R as (? & _ & R). injection R as <-. cbn. lia. }
      destruct (l_start st).
      + destruct (rstrip_crlf l); [apply bind_ok_iff in X1 as (? & _ & X1); injection X1 as <-; cbn; lia|eauto].
      + destruct (startswith _ _); [injection X1 as <-; auto|].
        destruct (rstrip_crlf l); [apply bind_ok_iff in X1 as (? & _ & X1); injection X1 as <-; cbn; lia|]. eapply R; [exact X1|cbn; lia]. }
  specialize (P _ _ _ E (Z.le_refl _)). lia.
Qed.
