(* Reader theorems: column selection, inserted lines. *)
From Coq Require Import String Ascii ZArith NArith Bool Lia Permutation Sorted List.
From Verif Require Import Base BaseFacts Model_Datamodel Model_Conllu Spec_Datamodel Spec_Conllu
  Proofs_Datamodel Proofs_Syntax Proofs_Datamodel2 Proofs_Datamodel4 Proofs_Conllu Proofs_Conllu2 Proofs_Conllu3
  Proofs_Conllu4.
Import ListNotations.
Open Scope Z_scope.

(* ------------------------------------------------------------------ *)
(* Fewer columns                                                        *)

Definition restrict_pos (cols : columns) (o : option pos) : option pos :=
  match o with
  | None => None
  | Some p => if has_col cols cUPOS || has_col cols cXPOS || has_col cols cFEATS
              then Some (mkPos (sel cols cUPOS (upos p)) (sel cols cXPOS (xpos p)) (if has_col cols cFEATS then feats p else []))
              else None
  end.

Definition restrict_row (cols : columns) (r : irow) : irow :=
  mkRow (i_id r) (i_text r) (restrict_pos cols (i_pos r)) (sel cols cLEMMA (i_lemma r)) (sel cols cHEAD (i_head r))
        (sel cols cDEPREL (i_deprel r)) (i_space r).

Lemma parse_line_restrict cols c r :
  parse_line (normal_columns all_columns) c = Ok r -> parse_line (normal_columns cols) c = Ok (restrict_row (normal_columns cols) r).
Proof.
  set (nc := normal_columns cols). clearbody nc. unfold parse_line. intros H.
  apply bind_ok_iff in H. destruct H as (i & Hi & H). apply bind_ok_iff in H. destruct H as (form & Hf & H).
  apply bind_ok_iff in H. destruct H as (p & Hp & H). apply bind_ok_iff in H. destruct H as (lemma & Hl & H).
  apply bind_ok_iff in H. destruct H as (head & Hh & H). apply bind_ok_iff in H. destruct H as (deprel & Hd & H).
  apply bind_ok_iff in H. destruct H as (misc & Hm & H). apply bind_ok_iff in H. destruct H as (md & Hmd & H).
  apply bind_ok_iff in H. destruct H as (h & Hho & H). injection H as <-.
  rewrite Hi, Hf. cbn [bind].
  assert (C : forall k x, column_of (normal_columns all_columns) k (token_repr c) = Ok x ->
              has_col (normal_columns all_columns) k = true ->
              column_of nc k (token_repr c) = Ok (sel nc k x)).
  { intros k x E B. unfold column_of, sel in *. rewrite B in E. destruct (has_col nc k); auto. }
  assert (EP : pos_of nc (token_repr c) = Ok (restrict_pos nc p)).
  { unfold pos_of in *. change (has_col (normal_columns all_columns) cUPOS || has_col (normal_columns all_columns) cXPOS || has_col (normal_columns all_columns) cFEATS) with true in Hp.
    apply bind_ok_iff in Hp. destruct Hp as (u & Hu & Hp). apply bind_ok_iff in Hp. destruct Hp as (x & Hx & Hp).
    apply bind_ok_iff in Hp. destruct Hp as (f & Hff & Hp). apply bind_ok_iff in Hp. destruct Hp as (fs & Hfs & Hp). injection Hp as <-.
    rewrite (C _ _ Hu), (C _ _ Hx), (C _ _ Hff) by reflexivity. cbn [bind restrict_pos].
    destruct (has_col nc cUPOS || has_col nc cXPOS || has_col nc cFEATS); auto. cbn [upos xpos feats].
    unfold sel at 1. destruct (has_col nc cFEATS); [rewrite Hfs|]; reflexivity. }
  rewrite EP. cbn [bind]. rewrite (C _ _ Hl), (C _ _ Hh), (C _ _ Hd), Hm by reflexivity. cbn [bind]. rewrite Hmd. cbn [bind].
  assert (HH : match sel nc cHEAD head with Some s => rmap Some (parse_int s) | None => Ok None end = Ok (sel nc cHEAD h)).
  { unfold sel. destruct (has_col nc cHEAD); auto. }
  rewrite HH. reflexivity.
Qed.

Definition map_group {A B} (f : A -> B) (g : group A) : group B :=
  match g with GWord r => GWord (f r) | GRange r ws => GRange (f r) (map f ws) end.
Definition map_open (f : irow -> irow) (op : opened) : opened :=
  match op with None => None | Some (g, ws, n) => Some (f g, map f ws, n) end.

Lemma row_step_restrict nc cur op r :
  row_step (map (map_group (restrict_row nc)) cur) (map_open (restrict_row nc) op) (restrict_row nc r) =
  rmap (fun p => (map (map_group (restrict_row nc)) (fst p), map_open (restrict_row nc) (snd p))) (row_step cur op r).
Proof.
  unfold row_step. destruct op as [[[g ws] n]|]; cbn [map_open].
  - change (i_text (restrict_row nc g)) with (i_text g). destruct (i_text g); auto.
    replace (zlen (map (restrict_row nc) ws ++ [restrict_row nc r])) with (zlen (ws ++ [r])).
    2:{ rewrite !zlen_app, zlen_map. auto. }
    destruct (n =? zlen (ws ++ [r])); cbn [rmap bind fst snd map_open]; rewrite ?map_app; simpl; rewrite ?map_app; auto.
  - change (i_id (restrict_row nc r)) with (i_id r). change (i_text (restrict_row nc r)) with (i_text r).
    destruct (i_id r) as [i|]; auto. destruct (mem_char 46%N i); auto. destruct (mem_char 45%N i).
    + destruct (range_count i); auto.
    + destruct (i_text r); auto. cbn [rmap bind fst snd map_open]. rewrite map_app. auto.
Qed.

Lemma comment_not_blank l : comment_line l -> blank_line l -> False.
Proof. intros [s E] B. unfold blank_line in B. rewrite B in E. discriminate. Qed.

Lemma parse_restrict cols lines : forall cur op bs' t' bs t,
  parse cur op (events (normal_columns all_columns) lines) = (bs', t') ->
  parse (map (map_group (restrict_row (normal_columns cols))) cur) (map_open (restrict_row (normal_columns cols)) op)
        (events (normal_columns cols) lines) = (bs, t) ->
  exists more, bs = map (map (map_group (restrict_row (normal_columns cols)))) bs' ++ more /\
    (forall lf, t' = TEnd lf -> more = [] /\ t = TEnd (map (map_group (restrict_row (normal_columns cols))) lf)).
Proof.
  set (R := restrict_row (normal_columns cols)).
  induction lines as [|l lines IH]; intros cur op bs' t' bs t H1 H2.
  - cbn [events parse] in *. injection H1 as <- <-. injection H2 as <- <-. exists []. split; auto.
    intros lf E. destruct op; [discriminate|]. injection E as <-. auto.
  - cbn [events] in *.
    destruct (line_event_spec (normal_columns all_columns) l) as [[C E]|[[C E]|[C E]]];
    destruct (line_event_spec (normal_columns cols) l) as [[C' E']|[[C' E']|[C' E']]]; rewrite E in H1; rewrite E' in H2;
      try (exfalso; first [eapply comment_not_blank; eassumption | apply (proj1 C); assumption | apply (proj2 C); assumption
                          | apply (proj1 C'); assumption | apply (proj2 C'); assumption]).
    + apply (IH cur op); auto.
    + cbn [parse] in *. destruct op as [[[g ws] n]|]; cbn [map_open] in *.
      { injection H1 as <- <-. injection H2 as <- <-. exists []. split; auto. discriminate. }
      destruct cur as [|g cur]; cbn [map] in *.
      { injection H1 as <- <-. injection H2 as <- <-. exists []. split; auto. discriminate. }
      destruct (parse [] None (events (normal_columns all_columns) lines)) as [b1 t1] eqn:P1.
      destruct (parse [] None (events (normal_columns cols) lines)) as [b2 t2] eqn:P2.
      injection H1 as <- <-. injection H2 as <- <-.
      destruct (IH [] None _ _ _ _ P1 P2) as (more & -> & X). exists more. split; auto.
    + destruct (parse_line (normal_columns all_columns) (cells_of l)) as [r|e] eqn:PL.
      * apply parse_line_restrict with (cols := cols) in PL. rewrite PL in H2. cbn [parse] in *. fold R in H2.
        unfold R in H2 at 3. unfold R in H2 at 1 2. rewrite row_step_restrict in H2. fold R in H2.
        destruct (row_step cur op r) as [[cur' op']|e]; cbn [rmap bind fst snd] in H2.
        -- apply (IH cur' op'); auto.
        -- injection H1 as <- <-. injection H2 as <- <-. exists []. split; auto. discriminate.
      * cbn [parse] in H1. injection H1 as <- <-. exists bs. split; auto. discriminate.
Qed.

Definition restrict_token (nc : columns) (t : token) : token :=
  mkToken (tstart t) (tend t) (restrict_pos nc (tpos t)) (sel nc cLEMMA (tlemma t)) (sel nc cDEPREL (tdeprel t)) (tsub t) (trepl t)
          (sel nc cHEAD (thdoc t)) (sel nc cHEAD (thsent t)) (textras t).

Lemma row_token_restrict nc a b sub repl r : row_token a b sub repl (restrict_row nc r) = restrict_token nc (row_token a b sub repl r).
Proof.
  unfold row_token, restrict_token, restrict_row, sel. simpl. destruct (has_col nc cHEAD); auto.
Qed.

Lemma layout_restrict nc gs off : layout off (map (map_group (restrict_row nc)) gs) = map (restrict_token nc) (layout off gs).
Proof.
  revert off; induction gs as [|g gs IH]; intros off; simpl; auto. rewrite map_app. f_equal.
  - destruct g as [r|r ws]; simpl.
    + rewrite row_token_restrict. auto.
    + generalize (off + zlen (i_text r)) as e. generalize 0 as sub. induction ws as [|w ws IHw]; intros sub e; simpl; auto.
      rewrite row_token_restrict, IHw. auto.
  - rewrite <- IH. f_equal. destruct g; auto.
Qed.

Lemma surface_restrict nc gs : surface (map (map_group (restrict_row nc)) gs) = surface gs.
Proof. unfold surface. rewrite map_map. f_equal. apply map_ext. intros []; auto. Qed.

Lemma count_restrict nc gs : count (map (map_group (restrict_row nc)) gs) = count gs.
Proof. unfold count. rewrite layout_restrict, zlen_map. auto. Qed.

Lemma bounds_restrict nc acc : forall a, bounds a (map (map (map_group (restrict_row nc))) acc) = bounds a acc.
Proof. induction acc as [|b acc IH]; intros a; simpl; auto. rewrite count_restrict, IH. auto. Qed.

Lemma fill_restrict nc st t : thdoc t = None -> fill st (restrict_token nc t) = restrict_token nc (fill st t).
Proof.
  intros H. unfold fill, restrict_token, filled_pair, sel. simpl. rewrite H. destruct (has_col nc cHEAD); auto.
Qed.

Lemma group_ok_restrict nc g : group_ok g -> group_ok (map_group (restrict_row nc) g).
Proof. destruct g as [r|r [|w ws]]; unfold group_ok; simpl; intros [? ?]; split; auto; congruence. Qed.

Lemma block_ok_restrict nc b : block_ok b -> block_ok (map (map_group (restrict_row nc)) b).
Proof.
  intros [N F]. split; [destruct b; simpl; congruence|]. apply Forall_map. eapply Forall_impl; [|exact F].
  apply group_ok_restrict.
Qed.

Lemma raw_doc_restrict nc acc : Forall block_ok acc ->
  raw_doc (map (map (map_group (restrict_row nc))) acc) =
  mkDoc (dtext (raw_doc acc)) (map (restrict_token nc) (dtokens (raw_doc acc))) (dsents (raw_doc acc)).
Proof.
  intros F. unfold raw_doc. cbn [dtext dtokens dsents]. rewrite <- concat_map, surface_restrict, layout_restrict, bounds_restrict.
  f_equal. unfold fill_all. rewrite concat_map, map_map. f_equal. apply map_ext_in. intros s Hs.
  unfold tokens_of. rewrite skipn_map, firstn_map, !map_map. apply map_ext_in. intros t Ht. apply fill_restrict.
  assert (I : In t (layout 0 (concat acc))).
  { apply (tokens_of_incl _ s). exact Ht. }
  apply layout_in in I; [tauto|]. apply blocks_groups; auto.
Qed.

Lemma well_parsed_restrict nc ts : well_parsed ts -> well_parsed (map (restrict_token nc) ts).
Proof.
  unfold well_parsed. rewrite map_map. destruct (has_col nc cHEAD) eqn:B.
  - replace (map (fun x => shown_head (restrict_token nc x)) ts) with (map shown_head ts); auto.
    apply map_ext. intros t. unfold shown_head, restrict_token, sel. simpl. rewrite B. auto.
  - intros _. left. unfold unparsed. apply Forall_map. apply Forall_forall. intros t _.
    unfold shown_head, restrict_token, sel. simpl. rewrite B. auto.
Qed.

Lemma restrict_token_spec cols t : tpos t <> None -> restricted_token cols (restrict_token (normal_columns cols) t) t.
Proof.
  intros NP. constructor; simpl.
  - repeat split; auto.
  - apply sel_wants.
  - apply sel_wants.
  - split; intros W; split; apply sel_wants; auto.
  - unfold restricted_pos, restrict_pos. destruct (tpos t) as [p|]; [|congruence].
    destruct (has_col (normal_columns cols) cUPOS || has_col (normal_columns cols) cXPOS || has_col (normal_columns cols) cFEATS) eqn:B.
    + right. split; [rewrite !orb_true_iff, !has_col_wants in B; unfold cUPOS, cXPOS, cFEATS in B; tauto|].
      eexists _, _. split; [reflexivity|]. split; [reflexivity|]. simpl. split; [apply sel_wants|]. split; [apply sel_wants|].
      split; intros W.
      * apply has_col_wants in W. unfold cFEATS. rewrite W. auto.
      * apply not_wants in W. unfold cFEATS. rewrite W. auto.
    + left. split; auto. apply orb_false_iff in B. destruct B as [B B3]. apply orb_false_iff in B. destruct B as [B1 B2].
      apply not_wants in B1, B2, B3. unfold cUPOS, cXPOS, cFEATS in *. tauto.
Qed.

(* the full reader gives every token tags *)
Definition row_tagged (r : irow) : Prop := i_pos r <> None.
Definition group_tagged (g : group irow) : Prop :=
  match g with GWord r => row_tagged r | GRange _ ws => Forall row_tagged ws end.

Lemma parse_tagged evs : (forall r, In (EvRow r) evs -> row_tagged r) ->
  forall cur op bs t, Forall group_tagged cur ->
  match op with Some (_, ws, _) => Forall row_tagged ws | None => True end ->
  parse cur op evs = (bs, t) -> Forall (Forall group_tagged) bs.
Proof.
  induction evs as [|e evs IH]; intros R cur op bs t C O H; simpl in H; [inversion H; constructor|].
  assert (R' : forall r, In (EvRow r) evs -> row_tagged r) by (intros; apply R; simpl; auto).
  destruct e as [|r|e]; [| |inversion H; constructor].
  - destruct op; [inversion H; constructor|]. destruct cur as [|g cur]; [inversion H; constructor|].
    destruct (parse [] None evs) as [bs' t'] eqn:E. inversion H; subst. constructor; auto.
    eapply IH with (cur := []) (op := None); eauto.
  - assert (Rr : row_tagged r) by (apply R; simpl; auto).
    destruct (row_step cur op r) as [[cur' op']|x] eqn:E; [|inversion H; constructor].
    assert (X : Forall group_tagged cur' /\ match op' with Some (_, ws, _) => Forall row_tagged ws | None => True end).
    { unfold row_step in E. destruct op as [[[g ws] n]|].
      - destruct (i_text g); [discriminate|].
        assert (W : Forall row_tagged (ws ++ [r])) by (apply Forall_app; auto).
        destruct (n =? zlen (ws ++ [r])); inversion E; subst; split; auto. apply Forall_app; split; auto.
      - destruct (i_id r) as [i|]; [|discriminate]. destruct (mem_char 46%N i); [inversion E; subst; auto|].
        destruct (mem_char 45%N i).
        + destruct (range_count i); inversion E; subst; auto.
        + destruct (i_text r); inversion E; subst. split; auto. apply Forall_app; split; auto. }
    destruct X. eapply IH; eauto.
Qed.

Lemma layout_tagged gs off t : Forall group_tagged gs -> In t (layout off gs) -> tpos t <> None.
Proof.
  intros F. revert off. induction F as [|g gs G F IH]; intros off; simpl; [tauto|].
  intros H. apply in_app_or in H. destruct H as [H|H]; [|eapply IH; eauto].
  destruct g as [r|r ws]; simpl in *.
  - destruct H as [<-|[]]. auto.
  - revert H. generalize (off + zlen (i_text r)) as e. generalize 0 as sub.
    induction G as [|w ws W G IHw]; simpl; intros sub e; [tauto|]. intros [<-|H]; eauto.
Qed.

Lemma doc_of_restrict cols acc d : Forall block_ok acc -> acc <> [] -> Forall (Forall group_tagged) acc ->
  doc_of acc [] = Ok d ->
  exists d', doc_of (map (map (map_group (restrict_row (normal_columns cols)))) acc) [] = Ok d' /\ restricted_document cols d' d.
Proof.
  set (nc := normal_columns cols). intros F N TG E. apply doc_of_ok in E; auto. destruct E as [-> W].
  assert (F' : Forall block_ok (map (map (map_group (restrict_row nc))) acc)).
  { apply Forall_map. eapply Forall_impl; [|exact F]. apply block_ok_restrict. }
  eexists. split.
  - apply doc_of_ok; auto.
    + destruct acc; simpl; congruence.
    + split; [reflexivity|]. intros a1 b a2 E. apply map_eq_app in E. destruct E as (c1 & c2 & -> & <- & E2).
      destruct c2 as [|b' c2]; [discriminate|]. cbn [map] in E2. injection E2 as <- _.
      rewrite <- concat_map, count_restrict, surface_restrict, layout_restrict.
      rewrite map_map. specialize (W c1 b' c2 eq_refl).
      assert (GB : Forall group_ok b') by (rewrite Forall_forall in F; apply F, in_or_app; simpl; auto).
      rewrite (map_ext_in _ (fun t => restrict_token nc (fill (count (concat c1)) t))).
      * rewrite <- map_map. apply well_parsed_restrict; auto.
      * intros t Ht. apply fill_restrict. apply layout_in in Ht; tauto.
  - rewrite raw_doc_restrict by auto. unfold restricted_document. simpl. split; auto. split; auto.
    assert (P : Forall (fun t => tpos t <> None) (fill_all (layout 0 (concat acc)) (bounds 0 acc))).
    { apply Forall_forall. intros t Ht. unfold fill_all in Ht. apply in_concat in Ht. destruct Ht as (l & Hl & Ht).
      apply in_map_iff in Hl. destruct Hl as (s & <- & Hs). apply in_map_iff in Ht. destruct Ht as (t0 & <- & Ht).
      simpl. apply tokens_of_incl in Ht. eapply layout_tagged; [|exact Ht].
      apply Forall_concat. auto. }
    induction P as [|t l X P IH]; simpl; constructor; auto. apply restrict_token_spec; auto.
Qed.

Lemma assemble_restrict cols limit t' t more bs' : 0 < limit ->
  (forall lf, t' = TEnd lf -> Forall group_ok lf /\ more = [] /\ t = TEnd (map (map_group (restrict_row (normal_columns cols))) lf)) ->
  forall acc ds' e' ds e, Forall block_ok (acc ++ bs') -> Forall (Forall group_tagged) (acc ++ bs') -> zlen acc < limit ->
  assemble limit acc bs' t' = (ds', e') ->
  assemble limit (map (map (map_group (restrict_row (normal_columns cols)))) acc)
                 (map (map (map_group (restrict_row (normal_columns cols)))) bs' ++ more) t = (ds, e) ->
  exists ds1 ds2, ds = ds1 ++ ds2 /\ Forall2 (restricted_document cols) ds1 ds' /\ (e' = None -> ds2 = [] /\ e = None).
Proof.
  intros LP HT. set (R := map (map (map_group (restrict_row (normal_columns cols))))).
  induction bs' as [|b bs' IH]; intros acc ds' e' ds e F TG LT H1 H2.
  - rewrite app_nil_r in *. simpl in H1. destruct t' as [e1|lf].
    { injection H1 as <- <-. exists [], ds. repeat split; auto; discriminate. }
    destruct (HT lf eq_refl) as (GL & -> & ->). simpl in H2.
    destruct lf as [|g lf].
    + destruct acc as [|b acc].
      * injection H1 as <- <-. injection H2 as <- <-. exists [], []. repeat split; auto.
      * destruct (doc_of (b :: acc) []) as [d|e1] eqn:E.
        -- injection H1 as <- <-. destruct (doc_of_restrict cols (b :: acc) d F ltac:(congruence) TG E) as (d' & E' & RD).
           fold R in E'. cbn [R map] in H2, E'. simpl in H2. simpl in E'. rewrite E' in H2.
           injection H2 as <- <-. exists [d'], []. repeat split; auto.
        -- injection H1 as <- <-. exists [], ds. repeat split; auto; discriminate.
    + destruct (doc_of_left acc (g :: lf)) as [e1 E]; auto; [congruence|].
      rewrite E in H1. assert (H1' : ([], Some e1) = (ds', e')) by (destruct acc; auto).
      injection H1' as <- <-. exists [], ds. repeat split; auto; discriminate.
  - assert (A1 : acc ++ b :: bs' = (acc ++ [b]) ++ bs') by (rewrite <- app_assoc; auto).
    cbn [assemble] in H1. unfold R in H2. cbn [map app assemble] in H2. fold R in H2.
    assert (ER : R acc ++ [map (map_group (restrict_row (normal_columns cols))) b] = R (acc ++ [b])).
    { unfold R. rewrite map_app. auto. }
    assert (EZ : zlen (R (acc ++ [b])) = zlen (acc ++ [b])) by (unfold R; apply zlen_map).
    rewrite ER, EZ in H2. rewrite A1 in F, TG.
    destruct (limit <=? zlen (acc ++ [b])) eqn:El.
    + apply Forall_app in F. apply Forall_app in TG. destruct F as [F1 F2], TG as [T1 T2].
      destruct (doc_of (acc ++ [b]) []) as [d|e1] eqn:E.
      * destruct (doc_of_restrict cols (acc ++ [b]) d F1 ltac:(destruct acc; simpl; congruence) T1 E) as (d' & E' & RD).
        fold R in E'. rewrite E' in H2.
        destruct (assemble limit [] bs' t') as [x1 y1] eqn:A.
        destruct (assemble limit [] (R bs' ++ more) t) as [x2 y2] eqn:B.
        injection H1 as <- <-. injection H2 as <- <-.
        destruct (IH [] x1 y1 x2 y2 F2 T2 LP A B) as (ds1 & ds2 & -> & F0 & X).
        exists (d' :: ds1), ds2. repeat split; auto; apply X; auto.
      * injection H1 as <- <-. exists [], ds. repeat split; auto; discriminate.
    + apply (IH (acc ++ [b]) ds' e'); auto.
      assert (zlen (acc ++ [b]) = zlen acc + 1) by (rewrite zlen_app; reflexivity). lia.
Qed.

Lemma reader_columns limit cols text ds' e' ds e :
  read_str limit all_columns text = Ok (ds', e') -> read_str limit cols text = Ok (ds, e) ->
  exists ds1 ds2, ds = ds1 ++ ds2 /\ Forall2 (restricted_document cols) ds1 ds' /\ (e' = None -> ds2 = [] /\ e = None).
Proof.
  intros H1 H2. apply read_str_blocks in H1. apply read_str_blocks in H2. destruct H1 as [LP H1], H2 as [_ H2].
  destruct (parse [] None (events (normal_columns all_columns) (file_lines text))) as [bs' t'] eqn:P1.
  destruct (parse [] None (events (normal_columns cols) (file_lines text))) as [bs t] eqn:P2.
  destruct (parse_restrict cols (file_lines text) [] None bs' t' bs t P1 P2) as (more & -> & HT).
  destruct (parse_ok _ _ _ _ _ (Forall_nil _) P1) as [BO TO].
  assert (TG : Forall (Forall group_tagged) bs').
  { eapply parse_tagged with (cur := []) (op := None); [|constructor|exact I|exact P1].
    intros r Hr. apply in_events in Hr. destruct Hr as (raw & _ & PL). apply parse_line_row in PL.
    pose proof (ro_pos _ _ _ PL) as X. change (has_col (normal_columns all_columns) cUPOS || has_col (normal_columns all_columns) cXPOS || has_col (normal_columns all_columns) cFEATS) with true in X.
    destruct X as (fs & E & _). unfold row_tagged. rewrite E. congruence. }
  symmetry in H1, H2.
  assert (HT' : forall lf, t' = TEnd lf -> Forall group_ok lf /\ more = [] /\ t = TEnd (map (map_group (restrict_row (normal_columns cols))) lf)).
  { intros lf E. destruct (HT lf E). auto. }
  exact (assemble_restrict cols limit t' t more bs' LP HT' [] ds' e' ds e BO TG LP H1 H2).
Qed.

(* ------------------------------------------------------------------ *)
(* Inserted lines                                                       *)

Definition line_end (s : str) : Prop := s = [] \/ exists s0, s = s0 ++ [chNL].

Lemma file_lines_snoc s0 s2 : file_lines (s0 ++ chNL :: s2) = file_lines (s0 ++ [chNL]) ++ file_lines s2.
Proof.
  induction s0 as [|c s0 IH]; simpl; auto. destruct (c =? chNL)%N; [rewrite IH; auto|].
  rewrite IH. destruct (file_lines (s0 ++ [chNL])) as [|l ls] eqn:E; simpl; auto.
  exfalso. destruct s0 as [|x s0]; simpl in E; [discriminate|].
  destruct (x =? chNL)%N; [discriminate|]. destruct (file_lines (s0 ++ [chNL])); discriminate.
Qed.

Lemma file_lines_app s1 s2 : line_end s1 -> file_lines (s1 ++ s2) = file_lines s1 ++ file_lines s2.
Proof. intros [->|[s0 ->]]; auto. rewrite <- app_assoc. apply file_lines_snoc. Qed.

Lemma file_lines_one l : ~ In chNL l -> file_lines (l ++ [chNL]) = [l ++ [chNL]].
Proof.
  induction l as [|c l IH]; simpl; auto. intros H. destruct (N.eqb_spec c chNL); [tauto|].
  rewrite IH by tauto. auto.
Qed.

Lemma drop_while_last {A} (p : A -> bool) l x : p x = false -> drop_while p (l ++ [x]) = drop_while p l ++ [x].
Proof. intros H. induction l as [|y l IH]; simpl; [rewrite H; auto|]. destruct (p y); auto. Qed.

Lemma strip_crlf_head c s : is_crlf c = false -> exists s', strip_crlf (c :: s) = c :: s'.
Proof.
  intros H. unfold strip_crlf. simpl. rewrite H. simpl. rewrite drop_while_last by auto. rewrite rev_app_distr. simpl. eauto.
Qed.

Lemma comment_is_comment s : comment_line (35%N :: s).
Proof. unfold comment_line. destruct (strip_crlf_head 35%N s) as [s' E]; auto. exists s'. exact E. Qed.

Lemma events_app cols l1 l2 : events cols (l1 ++ l2) = events cols l1 ++ events cols l2.
Proof. induction l1 as [|l l1 IH]; simpl; auto. destruct (line_event cols l); simpl; rewrite IH; auto. Qed.

Lemma read_str_lines limit cols text1 text2 :
  (0 < limit -> parse [] None (events (normal_columns cols) (file_lines text1)) = parse [] None (events (normal_columns cols) (file_lines text2))) ->
  read_str limit cols text1 = read_str limit cols text2.
Proof.
  intros H. destruct (Z.ltb_spec 0 limit) as [L|L].
  - rewrite (proj2 (read_str_blocks limit cols text1 _) (conj L eq_refl)).
    rewrite (proj2 (read_str_blocks limit cols text2 _) (conj L eq_refl)). rewrite H; auto.
  - unfold read_str, assert. assert (E : (0 <? limit) = false) by lia. rewrite E. auto.
Qed.

Lemma comment_ignored limit cols s1 c s2 : line_end s1 -> ~ In chNL c ->
  read_str limit cols (s1 ++ (35%N :: c) ++ [chNL] ++ s2) = read_str limit cols (s1 ++ s2).
Proof.
  intros LE NC. apply read_str_lines. intros _. f_equal.
  rewrite !file_lines_app by auto.
  rewrite (app_assoc (35%N :: c)). rewrite (file_lines_app ((35%N :: c) ++ [chNL])).
  2:{ right. eauto. }
  rewrite file_lines_one by (simpl; intros [X|X]; [discriminate|auto]).
  rewrite !events_app. f_equal. simpl app.
  destruct (line_event_spec (normal_columns cols) (35%N :: c ++ [chNL])) as [[_ E]|[[C _]|[C _]]].
  - rewrite (file_lines_app s1) by auto. rewrite events_app. f_equal.
    match goal with |- context [line_event ?a ?b] => change (line_event a b) with (line_event (normal_columns cols) (35%N :: c ++ [chNL])) end.
    rewrite E. auto.
  - exfalso. destruct (comment_is_comment (c ++ [chNL])) as [s E]. unfold blank_line in C. rewrite C in E. discriminate.
  - exfalso. apply (proj1 C). apply comment_is_comment.
Qed.

(* empty nodes *)
Lemma parse_rows_err rows e : forall cur op, exists x, forall evs, parse cur op (map EvRow rows ++ EvErr e :: evs) = x.
Proof.
  induction rows as [|r rows IH]; intros cur op; simpl; [eauto|].
  destruct (row_step cur op r) as [[cur' op']|]; [apply IH|eauto].
Qed.

Lemma parse_fill_range g n ws2 : forall cur ws, ws2 <> [] -> zlen (ws ++ ws2) = n ->
  (exists x, forall evs, parse cur (Some (g, ws, n)) (map EvRow ws2 ++ evs) = x) \/
  (forall evs, parse cur (Some (g, ws, n)) (map EvRow ws2 ++ evs) = parse (cur ++ [GRange g (ws ++ ws2)]) None evs).
Proof.
  induction ws2 as [|w ws2 IH]; intros cur ws NE Z; [congruence|]. cbn [map app parse row_step].
  destruct (i_text g) eqn:Et; [left; eauto|]. destruct ws2 as [|w2 ws2].
  - rewrite Z, Z.eqb_refl. right. intros. simpl. auto.
  - assert (E : (n =? zlen (ws ++ [w])) = false).
    { rewrite <- Z. rewrite !zlen_app, !zlen_cons. change (zlen (@nil irow)) with 0. pose proof (zlen_nonneg ws2). lia. }
    rewrite E. destruct (IH cur (ws ++ [w])) as [X|X]; auto; [congruence|rewrite <- app_assoc; auto|].
    right. intros evs. rewrite X, <- app_assoc. auto.
Qed.

Lemma parse_grouped rows gs : grouped i_id rows gs -> forall cur,
  (exists x, forall evs, parse cur None (map EvRow rows ++ evs) = x) \/
  (forall evs, parse cur None (map EvRow rows ++ evs) = parse (cur ++ gs) None evs).
Proof.
  induction 1 as [|r rs gs i E I G IH|r rs gs i E I1 I2 G IH|r ws rs gs sa sb a b E I NA NB PA PB NE Z G IH]; intros cur.
  - right. intros. rewrite app_nil_r. auto.
  - cbn [map app parse row_step]. rewrite E. apply mem_char_spec in I. rewrite I. apply IH.
  - cbn [map app parse row_step]. rewrite E.
    assert (M1 : mem_char 46%N i = false) by (destruct (mem_char 46%N i) eqn:M; auto; apply mem_char_spec in M; tauto).
    assert (M2 : mem_char 45%N i = false) by (destruct (mem_char 45%N i) eqn:M; auto; apply mem_char_spec in M; tauto).
    rewrite M1, M2. destruct (i_text r); [left; eauto|].
    destruct (IH (cur ++ [GWord r])) as [X|X]; auto. right. intros. rewrite X, <- app_assoc. auto.
  - cbn [map app parse row_step]. rewrite E.
    assert (M1 : mem_char 46%N (sa ++ 45%N :: sb) = false) by (destruct (mem_char 46%N (sa ++ 45%N :: sb)) eqn:M; auto; apply mem_char_spec in M; tauto).
    assert (M2 : mem_char 45%N (sa ++ 45%N :: sb) = true) by (apply mem_char_spec, in_or_app; simpl; auto).
    rewrite M1, M2.
    assert (RC : range_count (sa ++ 45%N :: sb) = Ok (b - a + 1)).
    { unfold range_count. change (ch "-"%char) with 45%N. rewrite split_app by auto. rewrite (split_no 45%N sb) by auto.
      change (zlen [sa; sb] =? 2) with true.
      change (py_index [sa; sb] 1) with (Ok sb). change (py_index [sa; sb] 0) with (Ok sa). cbn [assert bind].
      rewrite PB. cbn [bind]. rewrite PA. auto. }
    rewrite RC. cbn [bind].
    destruct (parse_fill_range r (b - a + 1) ws cur [] NE) as [[x X]|X].
    + simpl. auto.
    + left. exists x. intros evs. rewrite map_app, <- app_assoc. auto.
    + destruct (IH (cur ++ [GRange r ws])) as [[x Y]|Y].
      * left. exists x. intros evs. rewrite map_app, <- app_assoc, X. simpl. auto.
      * right. intros evs. rewrite map_app, <- app_assoc, X. simpl. rewrite Y, <- app_assoc. auto.
Qed.

Lemma parse_prefix cols ls crows : sentence_prefix ls crows -> forall cgs, grouped row_id crows cgs -> forall cur,
  (exists x, forall ls2, parse cur None (events cols (ls ++ ls2)) = x) \/
  (exists cur', forall ls2, parse cur None (events cols (ls ++ ls2)) = parse cur' None (events cols ls2)).
Proof.
  intros SP cgs G cur.
  assert (D : (exists rows, Forall2 (fun r c => parse_line cols c = Ok r) rows crows /\ events cols ls = map EvRow rows) \/
              (exists rows e evs, events cols ls = map EvRow rows ++ EvErr e :: evs)).
  { clear G. induction SP as [|l ls rows C SP IH|l ls rows C SP IH].
    - left. exists []. auto.
    - cbn [events]. destruct (line_event_spec cols l) as [[_ E]|[[C' _]|[C' _]]].
      + rewrite E. auto.
      + exfalso. destruct C as [s E]. unfold blank_line in C'. rewrite C' in E. discriminate.
      + exfalso. apply (proj1 C'). auto.
    - cbn [events]. destruct (line_event_spec cols l) as [[C' E]|[[C' E]|[_ E]]]; [exfalso; apply (proj1 C); auto|exfalso; apply (proj2 C); auto|].
      rewrite E. destruct (parse_line cols (cells_of l)) as [r|e] eqn:PL.
      + destruct IH as [(rows' & F & Ev)|(rows' & e & evs & Ev)]; rewrite Ev.
        * left. exists (r :: rows'). split; auto.
        * right. exists (r :: rows'), e, evs. auto.
      + right. exists [], e, (events cols ls). auto. }
  destruct D as [(rows & F & Ev)|(rows & e & evs & Ev)].
  - assert (HI : forall r c, parse_line cols c = Ok r -> i_id r = row_id c) by (intros r c H; apply (ro_id _ _ _ (parse_line_row _ _ _ H))).
    destruct (grouped_transfer _ _ _ HI _ _ G _ F) as (gs & G' & _).
    destruct (parse_grouped _ _ G' cur) as [[x X]|X].
    + left. exists x. intros. rewrite events_app, Ev. auto.
    + right. exists (cur ++ gs). intros. rewrite events_app, Ev. auto.
  - left. destruct (parse_rows_err rows e cur None) as [x X]. exists x. intros. rewrite events_app, Ev, <- app_assoc. apply X.
Qed.

Lemma parse_blank evs1 : forall cur op,
  (exists x, forall evs, parse cur op (evs1 ++ EvBlank :: evs) = x) \/
  (exists bs, forall evs, parse cur op (evs1 ++ EvBlank :: evs) = let (bs', t) := parse [] None evs in (bs ++ bs', t)).
Proof.
  induction evs1 as [|e evs1 IH]; intros cur op.
  - simpl. destruct op; [left; eauto|]. destruct cur as [|g cur]; [left; eauto|]. right. exists [g :: cur]. auto.
  - destruct e as [|r|e]; simpl.
    + destruct op; [left; eauto|]. destruct cur as [|g cur]; [left; eauto|].
      destruct (IH [] None) as [[x X]|[bs X]].
      * left. exists (let (bs, t) := x in ((g :: cur) :: bs, t)). intros. rewrite X. auto.
      * right. exists ((g :: cur) :: bs). intros. rewrite X. destruct (parse [] None evs). auto.
    + destruct (row_step cur op r) as [[cur' op']|]; [apply IH|left; eauto].
    + left; eauto.
Qed.

Lemma empty_node_ignored limit cols s1 l s2 i ls0 ls1 rows gs :
  line_end s1 -> ~ In chNL l ->
  row_line (l ++ [chNL]) -> well_formed_row (cells_of (l ++ [chNL])) ->
  row_id (cells_of (l ++ [chNL])) = Some i -> In 46%N i ->
  file_lines s1 = ls0 ++ ls1 -> (ls0 = [] \/ exists ls b, ls0 = ls ++ [b] /\ blank_line b) ->
  sentence_prefix ls1 rows -> grouped row_id rows gs ->
  read_str limit cols (s1 ++ l ++ [chNL] ++ s2) = read_str limit cols (s1 ++ s2).
Proof.
  intros LE NL RL WF RI I46 FL B SP G. apply read_str_lines. intros _. set (nc := normal_columns cols).
  assert (E1 : file_lines (s1 ++ l ++ [chNL] ++ s2) = file_lines s1 ++ (l ++ [chNL]) :: file_lines s2).
  { rewrite file_lines_app by auto. f_equal. rewrite (app_assoc l), file_lines_app by (right; eauto).
    rewrite file_lines_one by auto. auto. }
  rewrite E1, file_lines_app by auto. rewrite FL. rewrite <- !app_assoc.
  assert (EV : forall ls2, exists r, events nc ((l ++ [chNL]) :: ls2) = EvRow r :: events nc ls2 /\ i_id r = Some i).
  { intros ls2. destruct (parse_line_total nc _ WF) as [r PL]. exists r. split.
    - cbn [events]. destruct (line_event_spec nc (l ++ [chNL])) as [[C _]|[[C _]|[_ E]]];
        [exfalso; apply (proj1 RL); auto|exfalso; apply (proj2 RL); auto|]. rewrite E, PL. auto.
    - rewrite (ro_id _ _ _ (parse_line_row _ _ _ PL)). auto. }
  assert (CORE : forall cur, (exists x, forall ls2, parse cur None (events nc (ls1 ++ ls2)) = x) \/
                        (exists cur', forall ls2, parse cur None (events nc (ls1 ++ ls2)) = parse cur' None (events nc ls2))).
  { intros. eapply parse_prefix; eauto. }
  assert (DONE : parse [] None (events nc (ls1 ++ (l ++ [chNL]) :: file_lines s2)) = parse [] None (events nc (ls1 ++ file_lines s2))).
  { destruct (CORE []) as [[x X]|[cur' X]]; rewrite !X; auto. destruct (EV (file_lines s2)) as (r & -> & Ei).
    cbn [parse row_step]. rewrite Ei. apply mem_char_spec in I46. rewrite I46. auto. }
  destruct B as [->|(ls & b & -> & BB)]; [exact DONE|].
  assert (EB : forall ls2, events nc (((ls ++ [b]) ++ ls2)) = events nc ls ++ EvBlank :: events nc ls2).
  { intros. rewrite <- app_assoc, events_app. f_equal. simpl.
    destruct (line_event_spec nc b) as [[[s C] _]|[[_ E]|[C _]]].
    - exfalso. unfold blank_line in BB. rewrite BB in C. discriminate.
    - rewrite E. auto.
    - exfalso. apply (proj2 C). auto. }
  rewrite !EB. destruct (parse_blank (events nc ls) [] None) as [[x X]|[bs X]]; rewrite !X; auto. rewrite DONE. auto.
Qed.
