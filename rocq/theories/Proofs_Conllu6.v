(* What the CoNLL-U writer writes. *)
From Coq Require Import String Ascii ZArith NArith Bool Lia Permutation Sorted List.
From Verif Require Import Base BaseFacts Model_Datamodel Model_Conllu Spec_Datamodel Spec_Conllu
  Proofs_Datamodel Proofs_Syntax Proofs_Datamodel2 Proofs_Datamodel4 Proofs_Conllu Proofs_Conllu2 Proofs_Conllu3
  Proofs_Conllu4.
Import ListNotations.
Open Scope Z_scope.

Lemma chosen_wants cols c : chosen cols c = true <-> wants cols c.
Proof.
  unfold chosen, wants. rewrite orb_true_iff, andb_true_iff, Z.eqb_eq. fold (has_col cols c). fold (has_col cols 7).
  rewrite !has_col_in. tauto.
Qed.

Lemma chosen_normal cols c : has_col (normal_columns cols) c = chosen cols c.
Proof.
  destruct (chosen cols c) eqn:E.
  - apply has_col_wants, chosen_wants. auto.
  - apply not_wants. rewrite <- chosen_wants. congruence.
Qed.

Lemma normalize_index_nonneg i : 0 <= i -> normalize_index i = print_Z (i + 1).
Proof. intros H. unfold normalize_index. assert (E : (i =? -1) = false) by lia. rewrite E. auto. Qed.

Lemma normalize_index_head h : normalize_index h = print_Z (h + 1).
Proof. unfold normalize_index. destruct (Z.eqb_spec h (-1)); subst; auto. Qed.

Definition view_of (text : str) (v : navtoken) : Prop := nv_text v = text /\ nv_docview v = false.

Lemma to_conll_row cols text i v sp :
  view_of text v -> 0 <= i -> (chosen cols 5 = true \/ tpos (nv_token v) = None) ->
  to_conll (normal_columns cols) i v sp true =
  Ok (expected_row cols text (i + 1) (nv_token v) (if sp then spacing (space_after text (nv_token v)) else of_string "_")).
Proof.
  intros [VT VD] Hi HF. unfold to_conll, expected_row. rewrite !chosen_normal.
  unfold cLEMMA, cUPOS, cXPOS, cFEATS, cHEAD, cDEPREL. unfold head_index. rewrite VD.
  unfold wtext, wspace_after. rewrite VT. rewrite normalize_index_nonneg by auto. replace (i + 1 - 1) with i by lia.
  assert (M : (if sp && negb (space_after text (nv_token v)) then space_after_no else underscore) =
              (if sp then spacing (space_after text (nv_token v)) else of_string "_")).
  { destruct sp, (space_after text (nv_token v)); auto. }
  rewrite M.
  assert (T : (match tpos (nv_token v) with
               | Some p => do f <- (if chosen cols 5 then Ok (feats_to_string (feats p)) else Err EType);
                   Ok (shield_none (if chosen cols 3 then upos p else None), shield_none (if chosen cols 4 then xpos p else None), f)
               | None => Ok (underscore, underscore, underscore) end) =
              Ok (if chosen cols 3 then shown (match tpos (nv_token v) with Some p => upos p | None => None end) else of_string "_",
                  if chosen cols 4 then shown (match tpos (nv_token v) with Some p => xpos p | None => None end) else of_string "_",
                  if chosen cols 5 then match tpos (nv_token v) with Some p => feats_cell (feats p) | None => of_string "_" end else of_string "_")).
  { destruct (tpos (nv_token v)) as [p|].
    - destruct HF as [->|]; [|discriminate]. cbn [bind]. destruct (chosen cols 3), (chosen cols 4); reflexivity.
    - destruct (chosen cols 3), (chosen cols 4), (chosen cols 5); reflexivity. }
  rewrite T. cbn [bind].
  assert (L : shield_none (if chosen cols 2 then tlemma (nv_token v) else None) =
              if chosen cols 2 then shown (tlemma (nv_token v)) else of_string "_").
  { destruct (chosen cols 2); auto. }
  assert (D : shield_none (if chosen cols 7 then tdeprel (nv_token v) else None) =
              if chosen cols 7 then shown (tdeprel (nv_token v)) else of_string "_").
  { destruct (chosen cols 7); auto. }
  rewrite L, D. destruct (chosen cols 6); auto. destruct (thsent (nv_token v)) as [h|]; auto.
  rewrite normalize_index_head. auto.
Qed.

(* tags that cannot be written *)
Lemma to_conll_fails cols i v sp : chosen cols 5 = false -> tpos (nv_token v) <> None ->
  to_conll (normal_columns cols) i v sp true = Err EType.
Proof.
  intros H N. unfold to_conll. rewrite (chosen_normal cols cFEATS). unfold cFEATS. rewrite H.
  destruct (tpos (nv_token v)); [auto|congruence].
Qed.

Lemma format_rendered cells : format_line cells = rendered [cells].
Proof. unfold rendered, format_line. simpl. rewrite app_nil_r. auto. Qed.

Lemma rendered_app r1 r2 : rendered (r1 ++ r2) = rendered r1 ++ rendered r2.
Proof. unfold rendered. rewrite map_app, concat_app. auto. Qed.

Lemma rendered_cons c r : rendered (c :: r) = format_line c ++ rendered r.
Proof. reflexivity. Qed.

(* the words of a multiword token *)
Lemma write_words cols text vs : forall out i m,
  Forall (view_of text) vs -> 0 <= i -> Forall (fun v => chosen cols 5 = true \/ tpos (nv_token v) = None) vs ->
  foldM (fun st v => write_regular (normal_columns cols) st v false) (mkWState out i m) vs =
  Ok (mkWState (out ++ rendered (word_rows cols text (i + 1) (map nv_token vs))) (i + zlen vs) m).
Proof.
  induction vs as [|v vs IH]; intros out i m V Hi T; simpl.
  - unfold rendered; simpl. rewrite app_nil_r. change (zlen (@nil navtoken)) with 0. rewrite Z.add_0_r. auto.
  - inversion V; subst. inversion T; subst. unfold write_regular at 1. cbn [w_index w_out w_multi].
    rewrite (to_conll_row cols text) by auto. cbn [bind]. rewrite IH by (auto; lia).
    rewrite rendered_cons, <- app_assoc. do 2 f_equal. rewrite zlen_cons. lia.
Qed.

Definition coincides_span a b : coincides a b = true <-> same_span a b.
Proof. unfold coincides, same_span. rewrite andb_true_iff, !Z.eqb_eq. tauto. Qed.

(* the grouping the writer does, p being the words collected so far *)
Fixpoint regroup (p ts : list token) : list (group token) :=
  match ts with
  | [] => match p with [] => [] | f :: _ => [GRange f p] end
  | t :: ts' =>
      match p with
      | [] => if is_multiword t then regroup [t] ts' else GWord t :: regroup [] ts'
      | f :: _ => if coincides f t then regroup (p ++ [t]) ts'
                  else GRange f p :: (if is_multiword t then regroup [t] ts' else GWord t :: regroup [] ts')
      end
  end.

Definition pend (i : Z) (ps : list navtoken) : option wmulti :=
  match ps with [] => None | f :: _ => Some (mkWM (i + 1) f ps) end.

Definition flush (cols : columns) (st : wstate) : result wstate :=
  match w_multi st with None => Ok st | Some m => write_multiword cols st m end.

Lemma write_multiword_ok cols text out i mm f ps : view_of text f ->
  Forall (view_of text) ps -> 0 <= i -> Forall (fun v => chosen cols 5 = true \/ tpos (nv_token v) = None) ps ->
  write_multiword (normal_columns cols) (mkWState out i mm) (mkWM (i + 1) f ps) =
  Ok (mkWState (out ++ rendered (expected_range text (i + 1) (nv_token f) (zlen (map nv_token ps)) ::
                                 word_rows cols text (i + 1) (map nv_token ps))) (i + zlen ps) mm).
Proof.
  intros VF V Hi T. unfold write_multiword. cbn [w_out w_index w_multi wm_tokens].
  rewrite (write_words cols text) by auto. rewrite rendered_cons, <- app_assoc. do 5 f_equal.
  unfold range_line, expected_range, wdoc_text, wspace_after. cbn [wm_start wm_first wm_tokens].
  destruct VF as [-> _]. rewrite zlen_map. change (ch "-"%char) with 45%N.
  unfold spacing. destruct (space_after text (nv_token f)); auto.
Qed.

Definition good_view cols text v := view_of text v /\ (chosen cols 5 = true \/ tpos (nv_token v) = None).

Lemma good_view_split cols text vs : Forall (good_view cols text) vs ->
  Forall (view_of text) vs /\ Forall (fun v => chosen cols 5 = true \/ tpos (nv_token v) = None) vs.
Proof. intros F. split; eapply Forall_impl; [|exact F| |exact F]; intros a []; auto. Qed.

Lemma write_tokens cols text vs : forall ps out i, 0 <= i ->
  Forall (good_view cols text) ps -> Forall (good_view cols text) vs ->
  exists out' i' ps', foldM (write_token (normal_columns cols)) (mkWState out i (pend i ps)) vs = Ok (mkWState out' i' (pend i' ps')) /\
    0 <= i' /\ Forall (good_view cols text) ps' /\
    out' ++ rendered (expected_rows cols text (i' + 1) (regroup (map nv_token ps') [])) =
    out ++ rendered (expected_rows cols text (i + 1) (regroup (map nv_token ps) (map nv_token vs))) /\
    (ps' <> [] <-> ends_multiword (regroup (map nv_token ps) (map nv_token vs))).
Proof.
  induction vs as [|v vs IH]; intros ps out i Hi GP GV.
  - exists out, i, ps. repeat split; auto.
    + intros N. destruct ps as [|f ps]; [congruence|]. simpl. exists [], (nv_token f), (map nv_token (f :: ps)). auto.
    + intros (gs & t & ws & E) ->. simpl in E. destruct gs; discriminate.
  - inversion GV as [|? ? Gv GV']; subst. cbn [foldM map regroup].
    assert (REG : forall out i, 0 <= i ->
      exists st, regular_write_token (normal_columns cols) (mkWState out i None) v = Ok st /\
      (forall m, regular_write_token (normal_columns cols) (mkWState out i m) v = Ok st) /\
      exists out' i' ps', foldM (write_token (normal_columns cols)) st vs = Ok (mkWState out' i' (pend i' ps')) /\
      0 <= i' /\ Forall (good_view cols text) ps' /\
      out' ++ rendered (expected_rows cols text (i' + 1) (regroup (map nv_token ps') [])) =
      out ++ rendered (expected_rows cols text (i + 1) (if is_multiword (nv_token v) then regroup [nv_token v] (map nv_token vs) else GWord (nv_token v) :: regroup [] (map nv_token vs))) /\
      (ps' <> [] <-> ends_multiword (if is_multiword (nv_token v) then regroup [nv_token v] (map nv_token vs) else GWord (nv_token v) :: regroup [] (map nv_token vs)))).
    { intros out0 i0 Hi0. unfold regular_write_token. destruct (is_multiword (nv_token v)).
      - eexists. split; [reflexivity|]. split; [reflexivity|]. cbn [w_out w_index].
        apply (IH [v] out0 i0); auto.
      - unfold write_regular. cbn [w_out w_index w_multi]. destruct Gv as [V T]. rewrite (to_conll_row cols text) by auto.
        cbn [bind]. eexists. split; [reflexivity|]. split; [reflexivity|].
        destruct (IH [] (out0 ++ format_line (expected_row cols text (i0 + 1) (nv_token v) (spacing (space_after text (nv_token v))))) (i0 + 1)) as (o' & i' & ps' & E & P1 & P2 & P3 & P4);
          auto; try lia.
        exists o', i', ps'. split; [exact E|]. split; auto. split; auto. split.
        + rewrite P3. cbn [expected_rows]. rewrite rendered_cons, <- app_assoc. auto.
        + rewrite P4. cbn [map]. split.
          * intros (gs & t & ws & ->). exists (GWord (nv_token v) :: gs), t, ws. auto.
          * intros (gs & t & ws & E'). destruct gs as [|g gs]; [discriminate|]. injection E' as _ E'. exists gs, t, ws. auto. }
    destruct ps as [|f ps].
    + cbn [pend map]. unfold write_token at 1. cbn [w_multi].
      destruct (REG out i Hi) as (st & E & _ & o' & i' & ps' & E2 & P). rewrite E. cbn [bind]. exists o', i', ps'. auto.
    + cbn [pend map]. unfold write_token at 1. cbn [w_multi wm_first wm_tokens wm_start w_out w_index].
      destruct (coincides (nv_token f) (nv_token v)).
      * cbn [bind]. destruct (IH ((f :: ps) ++ [v]) out i) as (o' & i' & ps' & E & P1 & P2 & P3 & P4); auto.
        { apply Forall_app; split; auto. }
        exists o', i', ps'. rewrite map_app in P3, P4. auto.
      * destruct (good_view_split _ _ _ GP) as [GP1 GP2]. inversion GP1; subst.
        rewrite (write_multiword_ok cols text) by auto. cbn [bind].
        destruct (REG (out ++ rendered (expected_range text (i + 1) (nv_token f) (zlen (map nv_token (f :: ps))) ::
                        word_rows cols text (i + 1) (map nv_token (f :: ps)))) (i + zlen (f :: ps))) as (st & _ & E & o' & i' & ps' & E2 & P1 & P2 & P3 & P4).
        { pose proof (zlen_nonneg (f :: ps)). lia. }
        rewrite E. cbn [bind]. exists o', i', ps'. split; [exact E2|]. split; auto. split; auto. split.
        -- etransitivity; [exact P3|]. rewrite <- app_assoc. f_equal. change (nv_token f :: map nv_token ps) with (map nv_token (f :: ps)).
           cbn [expected_rows]. rewrite !rendered_cons, rendered_app, <- app_assoc. do 3 f_equal. rewrite zlen_map. f_equal. lia.
        -- rewrite P4. split.
           ++ intros (gs & t & ws & ->). exists (GRange (nv_token f) (nv_token f :: map nv_token ps) :: gs), t, ws. auto.
           ++ intros (gs & t & ws & E'). destruct gs as [|g gs].
              ** exfalso. injection E' as _ _ E'. destruct (is_multiword (nv_token v)); [|discriminate].
                 clear - E'. revert E'. generalize (nv_token v) as x. generalize (@nil token) as q.
                 assert (N : forall ts q x, regroup (x :: q) ts <> []).
                 { induction ts as [|t ts IHt]; intros q x; simpl; [congruence|]. destruct (coincides x t); [apply IHt|congruence]. }
                 intros q x. apply N.
              ** injection E' as _ E'. exists gs, t, ws. auto.
Qed.

Lemma regroup_grouped ts : grouped_tokens ts (regroup [] ts) /\
  forall f us, multiword f -> Forall (same_span f) us -> grouped_tokens (f :: us ++ ts) (regroup (f :: us) ts).
Proof.
  induction ts as [|t ts [IH1 IH2]]; split.
  - constructor.
  - intros f us M F. simpl. apply (gt_multi f us [] []); auto; [|constructor]. discriminate.
  - simpl. destruct (is_multiword t) eqn:E.
    + apply (IH2 t []); auto. unfold is_multiword in E. unfold multiword. destruct (trepl t); [congruence|discriminate].
    + constructor; auto. unfold is_multiword in E. unfold multiword. destruct (trepl t); [discriminate|congruence].
  - intros f us M F. simpl. destruct (coincides f t) eqn:E.
    + apply coincides_span in E. replace (us ++ t :: ts) with ((us ++ [t]) ++ ts) by (rewrite <- app_assoc; auto).
      apply IH2; auto. apply Forall_app; auto.
    + apply gt_multi; auto.
      * intros x X. simpl in X. injection X as <-. intros S. apply coincides_span in S. congruence.
      * destruct (is_multiword t) eqn:E'.
        -- apply (IH2 t []); auto. unfold is_multiword in E'. unfold multiword. destruct (trepl t); [congruence|discriminate].
        -- constructor; auto. unfold is_multiword in E'. unfold multiword. destruct (trepl t); [discriminate|congruence].
Qed.

(* the grouping is unique *)
Lemma grouped_tokens_fun ts gs : grouped_tokens ts gs -> gs = regroup [] ts.
Proof.
  induction 1 as [|t ts gs M G IH|t us ts gs M F X G IH]; simpl; auto.
  - assert (E : is_multiword t = false) by (unfold is_multiword, multiword in *; destruct (trepl t); auto; exfalso; apply M; congruence).
    rewrite E, IH. auto.
  - assert (E : is_multiword t = true) by (unfold is_multiword, multiword in *; destruct (trepl t); auto; congruence).
    rewrite E.
    assert (C : forall us1 us2, Forall (same_span t) us2 -> regroup (t :: us1) (us2 ++ ts) = regroup (t :: us1 ++ us2) ts).
    { intros us1 us2; revert us1. induction us2 as [|u us2 IHu]; intros us1 F2; [rewrite app_nil_r; auto|].
      inversion F2 as [|? ? S F3]; subst. simpl. apply coincides_span in S. rewrite S. rewrite (IHu (us1 ++ [u])) by auto.
      rewrite <- app_assoc. auto. }
    rewrite (C [] us F). simpl app. destruct ts as [|x ts].
    + inversion G; subst. reflexivity.
    + simpl. assert (NC : coincides t x = false).
      { destruct (coincides t x) eqn:E2; auto. apply coincides_span in E2. exfalso. apply (X x); auto. }
      rewrite NC. f_equal. rewrite IH. reflexivity.
Qed.

(* one sentence *)
Lemma nav_tokens_ok d k s v : doc_inv d -> nth_error (dsents d) k = Some s -> get_sentence d (Z.of_nat k) = Ok v ->
  exists vs, ns_nav_tokens v = Ok vs /\ map nv_token vs = tokens_of (dtokens d) s /\ Forall (view_of (dtext d)) vs.
Proof.
  intros I Hk Hg. destruct (sentence_views d k s I Hk) as (v' & f & l & Hv & Hts & _ & _ & _ & H).
  assert (v' = v) by congruence. subst v'. unfold ns_nav_tokens.
  pose proof (nth_error_In _ _ Hk) as Hs. destruct (doc_inv_sentences _ I _ Hs) as (Ws & He & Fi).
  pose proof (tokens_of_length (dtokens d) s) as L. unfold sent_wf in Ws. rewrite <- Hts in L. 
  specialize (L ltac:(lia) ltac:(lia)).
  assert (ZL : zlen (ns_tokens v) = send s - sstart s) by (unfold zlen in *; lia).
  assert (G : forall j, 0 <= j < send s - sstart s -> exists u, ns_get_token v j = Ok u /\ nv_text u = dtext d /\ nv_docview u = false /\
              nth_error (ns_tokens v) (Z.to_nat j) = Some (nv_token u)).
  { intros j Hj. destruct (H j Hj) as (u & w & Hu & Hw & E1 & E2 & E3 & E4). exists u. split; auto. split; auto.
    unfold ns_get_token, get_token in Hu. apply bind_ok_iff in Hu. destruct Hu as (t & Ht & Hu). apply bind_ok_iff in Hu. destruct Hu as (i & Hi & Hu).
    injection Hu as <-. cbn. split; auto. rewrite py_index_nonneg in Ht by lia. unfold of_option in Ht.
    destruct (nth_error (ns_tokens v) (Z.to_nat j)); congruence. }
  clear H Hv Hg. rewrite ZL. set (ts := ns_tokens v) in *.
  assert (M : forall n, (n <= length ts)%nat -> exists vs, mapM (ns_get_token v) (map Z.of_nat (seq 0 n)) = Ok vs /\
             map nv_token vs = firstn n ts /\ Forall (view_of (dtext d)) vs).
  { induction n as [|n IH]; intros Hn; [exists []; auto|].
    destruct IH as (vs & E & Em & Fv); [lia|]. rewrite seq_S, map_app, mapM_app, E. cbn [bind].
    destruct (G (Z.of_nat n)) as (u & Hu & T1 & T2 & T3); [unfold zlen in *; lia|].
    simpl. rewrite Hu. cbn [bind]. exists (vs ++ [u]). split; auto. split.
    - rewrite map_app, Em. rewrite Nat2Z.id in T3. symmetry. exact (firstn_S_nth _ _ _ T3).
    - apply Forall_app; split; auto. constructor; auto. split; auto. }
  destruct (M (length ts) ltac:(lia)) as (vs & E & Em & Fv). exists vs.
  replace (Z.to_nat (send s - sstart s)) with (length ts) by (unfold zlen in *; lia).
  unfold zrange. split; [replace (Z.to_nat (send s - sstart s)) with (length ts) by (unfold zlen in *; lia); exact E|].
  split; auto. rewrite Em, firstn_all. auto.
Qed.

Lemma nav_sentences_ok d : doc_inv d -> exists ss, doc_nav_sentences d = Ok ss /\
  Forall2 (fun s v => exists vs, ns_nav_tokens v = Ok vs /\ map nv_token vs = tokens_of (dtokens d) s /\ Forall (view_of (dtext d)) vs) (dsents d) ss.
Proof.
  intros I. unfold doc_nav_sentences, zrange. 
  assert (M : forall n, (n <= length (dsents d))%nat -> exists ss, mapM (get_sentence d) (map Z.of_nat (seq 0 n)) = Ok ss /\
    Forall2 (fun s v => exists vs, ns_nav_tokens v = Ok vs /\ map nv_token vs = tokens_of (dtokens d) s /\ Forall (view_of (dtext d)) vs)
      (firstn n (dsents d)) ss).
  { induction n as [|n IH]; intros Hn; [exists []; split; constructor|].
    destruct IH as (ss & E & F); [lia|]. rewrite seq_S, map_app, mapM_app, E. cbn [bind].
    destruct (nth_error (dsents d) n) as [s|] eqn:En; [|apply nth_error_None in En; lia].
    destruct (sentence_views d n s I En) as (v & f & l & Hv & _).
    destruct (nav_tokens_ok d n s v I En Hv) as (vs & V1 & V2 & V3).
    cbn [map mapM Nat.add]. rewrite Hv. cbn [bind]. exists (ss ++ [v]). split; auto.
    rewrite (firstn_S_nth _ _ _ En). apply Forall2_app; auto. constructor; [|constructor]. exists vs. auto. }
  destruct (M (length (dsents d)) ltac:(lia)) as (ss & E & F). rewrite firstn_all in F. exists ss. split; auto.
  unfold zlen. rewrite Nat2Z.id. auto.
Qed.

Lemma write_sentence_ok cols text v vs out : ns_nav_tokens v = Ok vs -> Forall (good_view cols text) vs ->
  exists m, write_sentence (normal_columns cols) (mkWState out 0 None) v =
    Ok (mkWState (out ++ rendered (expected_rows cols text 1 (regroup [] (map nv_token vs))) ++ [chNL]) 0 m) /\
    (~ ends_multiword (regroup [] (map nv_token vs)) -> m = None).
Proof.
  intros E G. unfold write_sentence. rewrite E. cbn [bind].
  destruct (write_tokens cols text vs [] out 0) as (o' & i' & ps' & F & P1 & P2 & P3 & P4); auto; try lia.
  cbn [pend] in F. rewrite F. cbn [bind]. unfold write_end_of_sentence. cbn [w_multi].
  exists (pend i' ps'). split.
  - change (map nv_token []) with (@nil token) in P3. change (0 + 1) with 1 in P3. rewrite app_assoc.
    assert (P3' : o' ++ rendered (expected_rows cols text (i' + 1) (regroup (map nv_token ps') [])) =
                  out ++ rendered (expected_rows cols text 1 (regroup [] (map nv_token vs)))) by exact P3.
    destruct ps' as [|f ps'].
    + cbn [pend bind w_out]. simpl in P3'. unfold rendered at 1 in P3'. simpl in P3'. rewrite app_nil_r in P3'.
      do 3 f_equal. exact P3'.
    + cbn [pend]. destruct (good_view_split _ _ _ P2) as [GP1 GP2]. inversion GP1; subst.
      rewrite (write_multiword_ok cols text) by auto. cbn [bind w_out]. do 3 f_equal.
      etransitivity; [|exact P3']. cbn [map regroup expected_rows]. rewrite app_nil_r. auto.
  - intros N. destruct ps'; auto. exfalso. apply N. apply P4. congruence.
Qed.

Definition sentence_text cols text (gs : list (group token)) : str := rendered (expected_rows cols text 1 gs) ++ [chNL].

Lemma write_sentences_ok cols text ss gss : forall out,
  Forall2 (fun v gs => exists vs, ns_nav_tokens v = Ok vs /\ Forall (good_view cols text) vs /\ grouped_tokens (map nv_token vs) gs) ss gss ->
  no_pending gss ->
  exists st, foldM (write_sentence (normal_columns cols)) (mkWState out 0 None) ss = Ok st /\
    w_out st = out ++ concat (map (sentence_text cols text) gss).
Proof.
  revert gss. induction ss as [|v ss IH]; intros gss out F N; inversion F as [|? gs ? gss' (vs & E & G & R) F']; subst.
  - eexists. split; [reflexivity|]. simpl. rewrite app_nil_r. auto.
  - cbn [foldM]. pose proof (grouped_tokens_fun _ _ R) as ->.
    destruct (write_sentence_ok cols text v vs out E G) as (m & W & M). rewrite W. cbn [bind].
    destruct gss' as [|g2 gss'].
    + inversion F'; subst. simpl. eexists. split; [reflexivity|]. cbn [w_out]. rewrite app_nil_r. auto.
    + unfold no_pending in N. change (removelast (regroup [] (map nv_token vs) :: g2 :: gss')) with (regroup [] (map nv_token vs) :: removelast (g2 :: gss')) in N.
      inversion N as [|? ? N1 N2]; subst. rewrite (M N1).
      destruct (IH (g2 :: gss') (out ++ rendered (expected_rows cols text 1 (regroup [] (map nv_token vs))) ++ [chNL]) F' N2) as (st & E1 & E2).
      exists st. split; auto. rewrite E2. cbn [map concat]. rewrite <- (app_assoc out). reflexivity.
Qed.

Lemma tags_writable_good cols text ts vs : tags_writable cols ts -> (forall t, In t (map nv_token vs) -> In t ts) ->
  Forall (view_of text) vs -> Forall (good_view cols text) vs.
Proof.
  intros T I V. rewrite Forall_forall in *. intros v Hv. split; auto. destruct T as [T|T]; auto. right.
  rewrite Forall_forall in T. apply T, I, in_map. auto.
Qed.

Lemma tokens_of_in ts s t : In t (tokens_of ts s) -> In t ts.
Proof. apply tokens_of_incl. Qed.

Lemma Forall2_trans3 {A B C} (R : A -> B -> Prop) (S : A -> C -> Prop) (T : B -> C -> Prop) la lb lc :
  (forall a b c, In a la -> R a b -> S a c -> T b c) -> Forall2 R la lb -> Forall2 S la lc -> Forall2 T lb lc.
Proof.
  intros H F1; revert lc. induction F1 as [|a b la lb r F1 IH]; intros lc F2; inversion F2; subst; constructor.
  - eapply H; eauto. left; auto.
  - apply IH; auto. intros; eapply H; eauto. right; auto.
Qed.

Lemma write_document_ok cols d gss : doc_inv d -> tags_writable cols (dtokens d) -> sentence_groups d gss -> no_pending gss ->
  write_document (normal_columns cols) d = Ok (concat (map (sentence_text cols (dtext d)) gss)).
Proof.
  intros I T G N. unfold write_document. destruct (nav_sentences_ok d I) as (ss & E & F). rewrite E. cbn [bind].
  destruct (write_sentences_ok cols (dtext d) ss gss []) as (st & W & O); auto.
  - eapply Forall2_trans3; [|exact F|exact G]. intros s v gs _ (vs & V1 & V2 & V3) Hg. exists vs. split; auto.
    rewrite V2. split; auto. eapply tags_writable_good; eauto. rewrite V2. intros t. apply tokens_of_in.
  - rewrite W. cbn [bind]. rewrite O. auto.
Qed.

Theorem writer_output cols ds gsss :
  Forall doc_inv ds -> Forall (fun d => tags_writable cols (dtokens d)) ds ->
  Forall2 sentence_groups ds gsss -> Forall no_pending gsss ->
  write_str cols ds =
  Ok (concat (map (fun p => concat (map (sentence_text cols (dtext (fst p))) (snd p))) (combine ds gsss))).
Proof.
  intros I T G N. unfold write_str.
  assert (E : mapM (write_document (normal_columns cols)) ds =
              Ok (map (fun p => concat (map (sentence_text cols (dtext (fst p))) (snd p))) (combine ds gsss))).
  { revert I T N. induction G as [|d gss ds gsss g G IH]; intros I T N; [reflexivity|].
    inversion I; inversion T; inversion N; subst. cbn [mapM]. rewrite (write_document_ok cols d gss) by auto. cbn [bind].
    rewrite IH by auto. cbn [bind]. reflexivity. }
  rewrite E. reflexivity.
Qed.

Lemma sentence_groups_exist d : exists gss, sentence_groups d gss.
Proof.
  unfold sentence_groups. induction (dsents d) as [|s ss [gss IH]]; [exists []; constructor|].
  exists (regroup [] (tokens_of (dtokens d) s) :: gss). constructor; auto. apply regroup_grouped.
Qed.

Lemma sentence_groups_fun d g1 g2 : sentence_groups d g1 -> sentence_groups d g2 -> g1 = g2.
Proof.
  unfold sentence_groups. intros F1; revert g2. induction F1 as [|s gs ss gss G1 F1 IH]; intros g2 F2; inversion F2 as [|? ? ? ? G2 F3]; subst; auto.
  f_equal; auto. apply grouped_tokens_fun in G1, G2. congruence.
Qed.

(* ---- when writing fails ---- *)

Definition can_write cols (v : navtoken) : Prop := chosen cols 5 = true \/ tpos (nv_token v) = None.

Lemma to_conll_total cols i v sp f : can_write cols v -> exists r, to_conll (normal_columns cols) i v sp f = Ok r.
Proof.
  unfold can_write. intros C. unfold to_conll. rewrite (chosen_normal cols cFEATS). unfold cFEATS.
  destruct (tpos (nv_token v)).
  - destruct C as [->|]; [|discriminate]. cbn [bind].
    destruct (if has_col (normal_columns cols) cHEAD then head_index v else None); eexists; reflexivity.
  - cbn [bind]. destruct (if has_col (normal_columns cols) cHEAD then head_index v else None); eexists; reflexivity.
Qed.

Lemma to_conll_only cols i v sp f r : to_conll (normal_columns cols) i v sp f = Ok r -> can_write cols v.
Proof.
  unfold to_conll, can_write. rewrite (chosen_normal cols cFEATS). unfold cFEATS.
  destruct (tpos (nv_token v)); auto. destruct (chosen cols 5); auto. discriminate.
Qed.

Lemma to_conll_err cols i v sp f e : to_conll (normal_columns cols) i v sp f = Err e -> e = EType.
Proof.
  unfold to_conll. rewrite (chosen_normal cols cFEATS). unfold cFEATS.
  destruct (tpos (nv_token v)); [destruct (chosen cols 5)|]; cbn [bind];
  try (destruct (if has_col (normal_columns cols) cHEAD then head_index v else None); discriminate). congruence.
Qed.

Definition pending (st : wstate) : list navtoken := match w_multi st with None => [] | Some m => wm_tokens m end.

(* outcome of a writing step: fine when all tokens can be written, TypeError otherwise *)
Definition outcome {A} (cols : columns) (vs : list navtoken) (r : result A) (post : A -> Prop) : Prop :=
  (exists a, r = Ok a /\ post a) \/ (r = Err EType /\ ~ Forall (can_write cols) vs).

Lemma write_regular_outcome cols st v sp :
  (exists st', write_regular (normal_columns cols) st v sp = Ok st' /\ can_write cols v /\ w_multi st' = w_multi st) \/
  (write_regular (normal_columns cols) st v sp = Err EType /\ ~ can_write cols v).
Proof.
  unfold write_regular. destruct (to_conll (normal_columns cols) (w_index st) v sp true) as [c|e] eqn:E; cbn [bind].
  - left. eexists. split; [reflexivity|]. split; auto. eapply to_conll_only; eauto.
  - right. split; [rewrite (to_conll_err _ _ _ _ _ _ E); auto|]. intros C. destruct (to_conll_total cols (w_index st) v sp true C) as (r & R). congruence.
Qed.

Lemma write_words_outcome cols vs : forall st,
  (exists st', foldM (fun st v => write_regular (normal_columns cols) st v false) st vs = Ok st' /\ Forall (can_write cols) vs /\ w_multi st' = w_multi st) \/
  (foldM (fun st v => write_regular (normal_columns cols) st v false) st vs = Err EType /\ ~ Forall (can_write cols) vs).
Proof.
  induction vs as [|v vs IH]; intros st; cbn [foldM]; [left; eauto|].
  destruct (write_regular_outcome cols st v false) as [(st' & E & C & M)|[E C]]; rewrite E; cbn [bind].
  - destruct (IH st') as [(st2 & E2 & C2 & M2)|[E2 C2]]; [left|right].
    + exists st2. split; auto. split; auto. congruence.
    + split; auto. intros F. inversion F; subst. auto.
  - right. split; auto. intros F. inversion F; subst; auto.
Qed.

Lemma write_multiword_outcome cols st m :
  (exists st', write_multiword (normal_columns cols) st m = Ok st' /\ Forall (can_write cols) (wm_tokens m) /\ w_multi st' = w_multi st) \/
  (write_multiword (normal_columns cols) st m = Err EType /\ ~ Forall (can_write cols) (wm_tokens m)).
Proof.
  unfold write_multiword. destruct (write_words_outcome cols (wm_tokens m) (mkWState (w_out st ++ format_line (range_line m)) (w_index st) (w_multi st)))
    as [(st' & E & C & M)|[E C]]; [left|right]; auto. exists st'. auto.
Qed.

Lemma regular_outcome cols st v :
  (exists st', regular_write_token (normal_columns cols) st v = Ok st' /\ (Forall (can_write cols) (pending st') <-> can_write cols v \/ pending st' = []) /\ (pending st' = [] -> can_write cols v)) \/
  (regular_write_token (normal_columns cols) st v = Err EType /\ ~ can_write cols v).
Proof.
  unfold regular_write_token. destruct (is_multiword (nv_token v)).
  - left. eexists. split; [reflexivity|]. unfold pending. cbn. split; [|discriminate]. split; [|intros [|]; [auto|discriminate]].
    intros F. inversion F; auto.
  - destruct (write_regular_outcome cols (mkWState (w_out st) (w_index st) None) v true) as [(st' & E & C & M)|[E C]]; [left|right]; auto.
    exists st'. split; auto. unfold pending. rewrite M. cbn. split; [|auto]. split; auto.
Qed.

Lemma write_token_outcome cols st v :
  (exists st', write_token (normal_columns cols) st v = Ok st' /\
     (Forall (can_write cols) (pending st') <-> Forall (can_write cols) (pending st ++ [v]))) \/
  (write_token (normal_columns cols) st v = Err EType /\ ~ Forall (can_write cols) (pending st ++ [v])).
Proof.
  unfold write_token. unfold pending at 2 3. destruct (w_multi st) as [m|].
  - destruct (coincides (nv_token (wm_first m)) (nv_token v)).
    + left. eexists. split; [reflexivity|]. unfold pending. cbn. tauto.
    + destruct (write_multiword_outcome cols st m) as [(st1 & E & C & M)|[E C]]; rewrite E; cbn [bind].
      * destruct (regular_outcome cols st1 v) as [(st' & E2 & C2 & C3)|[E2 C2]]; [left|right].
        -- exists st'. split; auto. rewrite Forall_app, C2. split; [|intros [_ F]; inversion F; auto].
           intros [H|H]; split; auto.
        -- split; auto. rewrite Forall_app. intros [_ F]. inversion F; auto.
      * right. split; auto. rewrite Forall_app. tauto.
  - destruct (regular_outcome cols st v) as [(st' & E2 & C2 & C3)|[E2 C2]]; [left|right].
    + exists st'. split; auto. simpl. rewrite C2. split; [intros [|]; auto|intros F; inversion F; auto].
    + split; auto. simpl. intros F. inversion F; auto.
Qed.

Lemma write_tokens_outcome cols vs : forall st,
  (exists st', foldM (write_token (normal_columns cols)) st vs = Ok st' /\
     (Forall (can_write cols) (pending st') <-> Forall (can_write cols) (pending st ++ vs))) \/
  (foldM (write_token (normal_columns cols)) st vs = Err EType /\ ~ Forall (can_write cols) (pending st ++ vs)).
Proof.
  induction vs as [|v vs IH]; intros st; cbn [foldM].
  - left. exists st. split; auto. rewrite app_nil_r. tauto.
  - assert (X : Forall (can_write cols) (pending st ++ v :: vs) <-> Forall (can_write cols) (pending st ++ [v]) /\ Forall (can_write cols) vs).
    { rewrite <- Forall_app, <- app_assoc. tauto. }
    destruct (write_token_outcome cols st v) as [(st1 & E & C)|[E C]]; rewrite E; cbn [bind].
    + destruct (IH st1) as [(st2 & E2 & C2)|[E2 C2]]; [left|right].
      * exists st2. split; auto. rewrite C2, X, Forall_app, C. tauto.
      * split; auto. rewrite X, <- C, <- Forall_app. auto.
    + right. split; auto. rewrite X. tauto.
Qed.

Lemma write_sentence_outcome cols v vs st : ns_nav_tokens v = Ok vs -> Forall (can_write cols) (pending st) ->
  (exists st', write_sentence (normal_columns cols) st v = Ok st' /\ Forall (can_write cols) vs /\ Forall (can_write cols) (pending st')) \/
  (write_sentence (normal_columns cols) st v = Err EType /\ ~ Forall (can_write cols) vs).
Proof.
  intros E P. unfold write_sentence. rewrite E. cbn [bind].
  destruct (write_tokens_outcome cols vs st) as [(st1 & E1 & C1)|[E1 C1]]; rewrite E1; cbn [bind].
  - unfold write_end_of_sentence. rewrite Forall_app in C1. destruct (w_multi st1) as [m|] eqn:M.
    + assert (PM : pending st1 = wm_tokens m) by (unfold pending; rewrite M; auto).
      destruct (write_multiword_outcome cols st1 m) as [(st2 & E2 & C2 & M2)|[E2 C2]]; rewrite E2; cbn [bind]; [left|right].
      * eexists. split; [reflexivity|]. rewrite PM in C1. split; [tauto|]. unfold pending. cbn. auto.
      * split; auto. rewrite PM in C1. tauto.
    + cbn [bind]. left. eexists. split; [reflexivity|]. assert (PM : pending st1 = []) by (unfold pending; rewrite M; auto).
      rewrite PM in C1. assert (F : Forall (can_write cols) []) by constructor. split; [tauto|]. unfold pending. cbn. auto.
  - right. split; auto. rewrite Forall_app in C1. tauto.
Qed.

Lemma write_document_outcome cols d : doc_inv d ->
  (exists out, write_document (normal_columns cols) d = Ok out /\ tags_writable cols (dtokens d)) \/
  (write_document (normal_columns cols) d = Err EType /\ ~ tags_writable cols (dtokens d)).
Proof.
  intros I. unfold write_document. destruct (nav_sentences_ok d I) as (ss & E & F). rewrite E. cbn [bind].
  assert (W : forall st, Forall (can_write cols) (pending st) ->
    (exists st', foldM (write_sentence (normal_columns cols)) st ss = Ok st' /\
       Forall (fun s => Forall (fun t => chosen cols 5 = true \/ tpos t = None) (tokens_of (dtokens d) s)) (dsents d)) \/
    (foldM (write_sentence (normal_columns cols)) st ss = Err EType /\
       ~ Forall (fun s => Forall (fun t => chosen cols 5 = true \/ tpos t = None) (tokens_of (dtokens d) s)) (dsents d))).
  { clear E I. induction F as [|s v sl ss (vs & V1 & V2 & V3) F IH]; intros st P; cbn [foldM]; [left; eauto|].
    assert (EQ : Forall (can_write cols) vs <-> Forall (fun t => chosen cols 5 = true \/ tpos t = None) (tokens_of (dtokens d) s)).
    { rewrite <- V2, Forall_map. reflexivity. }
    destruct (write_sentence_outcome cols v vs st V1 P) as [(st1 & E1 & C1 & P1)|[E1 C1]]; rewrite E1; cbn [bind].
    - destruct (IH st1 P1) as [(st2 & E2 & C2)|[E2 C2]]; [left|right].
      + exists st2. split; auto. constructor; auto. apply EQ; auto.
      + split; auto. intros X. inversion X; auto.
    - right. split; auto. intros X. inversion X; subst. apply C1, EQ. auto. }
  assert (EQ : Forall (fun s => Forall (fun t => chosen cols 5 = true \/ tpos t = None) (tokens_of (dtokens d) s)) (dsents d) <-> tags_writable cols (dtokens d)).
  { assert (X : Forall (fun t => chosen cols 5 = true \/ tpos t = None) (dtokens d) <-> tags_writable cols (dtokens d)).
    { unfold tags_writable. split.
      - intros A. destruct (chosen cols 5); auto. right. eapply Forall_impl; [|exact A]. intros a [|]; [discriminate|auto].
      - intros [->|A]; [|eapply Forall_impl; [|exact A]; auto]. apply Forall_forall; auto. }
    rewrite <- X. pose proof (tiles_concat (dtokens d) 0 (zlen (dtokens d)) (dsents d) ltac:(lia) ltac:(lia) (inv_tiles d I)) as TC.
    rewrite py_slice_all in TC. 
    assert (E2 : Forall (fun t => chosen cols 5 = true \/ tpos t = None) (dtokens d) <->
      Forall (fun t => chosen cols 5 = true \/ tpos t = None) (concat (map (tokens_of (dtokens d)) (dsents d)))) by (rewrite TC; tauto).
    rewrite E2, Forall_concat, Forall_map. reflexivity. }
  destruct (W (mkWState [] 0 None)) as [(st & -> & C)|[-> C]]; [constructor|left|right].
  - cbn [bind]. eexists. split; [reflexivity|]. apply EQ; auto.
  - cbn [bind]. split; auto. rewrite <- EQ. auto.
Qed.
