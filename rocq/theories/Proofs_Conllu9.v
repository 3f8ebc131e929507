(* Written documents read back equal. *)
From Coq Require Import String Ascii ZArith NArith Bool Lia Permutation Sorted List.
From Verif Require Import Base BaseFacts Model_Datamodel Model_Conllu Spec_Datamodel Spec_Conllu
  Proofs_Datamodel Proofs_Syntax Proofs_Datamodel2 Proofs_Datamodel4 Proofs_Conllu Proofs_Conllu2 Proofs_Conllu3
  Proofs_Conllu4 Proofs_Conllu5 Proofs_Conllu6 Proofs_Conllu7 Proofs_Conllu8.
Import ListNotations.
Open Scope Z_scope.

Lemma cell_shown o : o <> Some (of_string "_") ->
  (if str_eqb (shown o) (of_string "_") then None else Some (shown o)) = o.
Proof.
  destruct o as [s|]; simpl shown; intros N.
  - destruct (str_eqb s (of_string "_")) eqn:E; auto. apply str_eqb_eq in E. congruence.
  - reflexivity.
Qed.

Definition full_columns (cols : list Z) : Prop := Forall (wants cols) [2; 3; 4; 5; 7].

Lemma full_chosen cols c : full_columns cols -> In c [2; 3; 4; 5; 6; 7] -> chosen cols c = true.
Proof.
  intros F I. apply chosen_wants. unfold full_columns in F. rewrite Forall_forall in F.
  simpl in I. destruct I as [<-|[<-|[<-|[<-|[<-|[<-|[]]]]]]]; try (apply F; simpl; tauto).
  assert (W : wants cols 7) by (apply F; simpl; tauto). destruct W as [W|[W _]]; [right; auto|discriminate].
Qed.

Lemma normal_tok cols text st i t t' : full_columns cols ->
  reread_tok cols cols text (i, t) t' -> token_clean text t -> token_told t -> textras t = [] ->
  (exists h, thsent t = Some h /\ -1 <= h /\ thdoc t = Some (if h =? -1 then -1 else h + st)) ->
  same_token t (fill st t') /\ thsent t' = thsent t.
Proof.
  intros F R C T X (h & H1 & H2 & H3).
  pose proof (full_chosen cols 2 F ltac:(simpl; tauto)) as c2. pose proof (full_chosen cols 3 F ltac:(simpl; tauto)) as c3.
  pose proof (full_chosen cols 4 F ltac:(simpl; tauto)) as c4. pose proof (full_chosen cols 5 F ltac:(simpl; tauto)) as c5.
  pose proof (full_chosen cols 6 F ltac:(simpl; tauto)) as c6. pose proof (full_chosen cols 7 F ltac:(simpl; tauto)) as c7.
  destruct R as [(R1 & R2 & R3 & R4) [R5 R6] R7 (b & A)]. cbn [fst snd] in *.
  assert (HS : thsent t' = thsent t). { rewrite R7, c6, H1. unfold written_head. rewrite c6, H1. f_equal. lia. }
  split; auto. unfold same_token, fill, set_heads. simpl. rewrite R1, R2, R3, R4, R5, R6, HS, H1.
  repeat split; auto.
  - destruct (an_lemma _ _ _ A) as [L _]. rewrite L by (apply chosen_wants; auto). unfold cell_opt, cell. cbn [expected_row nth].
    rewrite c2. symmetry. apply cell_shown. apply T.
  - destruct (an_deprel _ _ _ A) as [L _]. rewrite L by (apply chosen_wants; auto). unfold cell_opt, cell. cbn [expected_row nth].
    rewrite c6, H1, c7. symmetry. apply cell_shown. apply T.
  - rewrite H3. simpl. destruct (h =? -1) eqn:E; simpl; auto.
  - simpl. destruct (h =? -1) eqn:E; simpl; auto. f_equal. lia.
  - destruct (an_tags _ _ _ A) as (p' & P & (U & _) & (V & _) & (W & _)); [left; apply chosen_wants; auto|]. rewrite P.
    destruct (tt_tags _ T) as (p & Pp & TU & TX & TN). rewrite Pp. simpl.
    unfold cell_opt, cell in U, V, W. cbn [expected_row nth] in U, V, W. rewrite c3 in U. rewrite c4 in V. rewrite c5 in W. rewrite Pp in *.
    split; [|split].
    + rewrite U by (apply chosen_wants; auto). symmetry. apply cell_shown; auto.
    + rewrite V by (apply chosen_wants; auto). symmetry. apply cell_shown; auto.
    + intros k. rewrite W by (apply chosen_wants; auto). symmetry. apply value_in_feats; auto. apply (tc_tags _ _ C p Pp).
Qed.

Lemma spaced_forms off gs body : spaced off gs body -> forall pre text, text = pre ++ body -> zlen pre = off ->
  Forall headed gs -> Forall (forms_ok text) gs.
Proof.
  induction 1 as [off|off g gs form gap rest NE SP NB GAP SD IH]; intros pre text ET EO HD; constructor; inversion HD as [|? ? HG HD']; subst.
  - assert (DT : forall t, tstart t = zlen pre /\ tend t = zlen pre + zlen form -> doc_text_of (pre ++ form ++ (if gap then [chSP] else []) ++ rest) t = form).
    { intros t [E1 E2]. unfold doc_text_of. rewrite E1, E2. apply py_slice_app. }
    destruct g as [t|t ws]; cbn in *.
    + inversion SP; subst. unfold text_of. destruct NB as [-> _]. rewrite DT by auto. auto.
    + rewrite Forall_forall in SP. rewrite DT by auto. auto.
  - apply (IH (pre ++ form ++ (if gap then [chSP] else []))); auto.
    + rewrite <- !app_assoc. auto.
    + rewrite !zlen_app. destruct gap; [change (zlen [chSP]) with 1|change (zlen (@nil char)) with 0]; lia.
Qed.

Lemma Forall_concat_in {A} (P : A -> Prop) ls l : Forall P (concat ls) -> In l ls -> Forall P l.
Proof. intros F I. rewrite Forall_concat in F. rewrite Forall_forall in F. auto. Qed.

Lemma doc_fit d gss : doc_inv d -> sentence_groups d gss -> spaced 0 (concat gss) (dtext d) -> Forall (token_clean (dtext d)) (dtokens d) ->
  Forall sentence_fit (map (fun gs => (dtext d, gs)) gss).
Proof.
  intros I G SP C.
  assert (HD : Forall headed (concat gss)).
  { apply Forall_concat. clear - G. induction G; constructor; auto. apply (grouped_members _ _ H). }
  pose proof (spaced_forms _ _ _ SP [] (dtext d) eq_refl eq_refl HD) as FO.
  apply Forall_forall. intros p Hp. apply in_map_iff in Hp. destruct Hp as (gs & <- & Hgs).
  assert (X : exists s, In s (dsents d) /\ grouped_tokens (tokens_of (dtokens d) s) gs).
  { clear - G Hgs. induction G as [|s g ss gss GT G IH]; [destruct Hgs|]. destruct Hgs as [<-|Hgs].
    - exists s. split; auto. left; auto.
    - destruct (IH Hgs) as (s' & ? & ?). exists s'. split; auto. right; auto. }
  destruct X as (s & Hs & GT). destruct (grouped_members _ _ GT) as [M HH]. split; [|split; [|split]]; cbn [fst snd]; auto.
  - intros ->. destruct (doc_inv_sentences _ I _ Hs) as (Ws & He & _). unfold sent_wf in Ws. simpl in M.
    pose proof (tokens_of_length (dtokens d) s ltac:(lia) ltac:(lia)) as L. rewrite <- M in L. change (zlen (@nil token)) with 0 in L. lia.
  - rewrite M. apply Forall_forall. intros t Ht. apply tokens_of_in in Ht. rewrite Forall_forall in C. auto.
  - eapply Forall_concat_in; eauto.
Qed.

Lemma Forall2_number {A} (R : Z * token -> A -> Prop) (Q : token -> A -> Prop) ts l : forall i,
  Forall2 R (number i ts) l -> (forall j t x, In t ts -> R (j, t) x -> Q t x) -> Forall2 Q ts l.
Proof.
  revert l. induction ts as [|t ts IH]; intros l i F H; inversion F; subst; constructor.
  - eapply H; eauto. left; auto.
  - eapply IH; eauto. intros. eapply H; eauto. right; auto.
Qed.

(* one reader-normal document and the blocks it is read back as *)
Lemma normal_doc cols d gss bs : full_columns cols -> doc_inv d -> reader_normal d -> sentence_groups d gss -> spaced 0 (concat gss) (dtext d) ->
  Forall2 (fun gs b => Forall2 (fun p h => reread_group cols cols (dtext d) (fst p) (snd p) h) (with_ids 1 gs) b) gss bs -> Forall block_ok bs ->
  same_document d (raw_doc bs) /\ Forall block_good bs /\ Forall (Forall group_nonneg) bs /\ surface (concat bs) = dtext d.
Proof.
  intros F I N G SP R O. destruct (doc_reread cols cols d gss bs I G SP R) as (S1 & B1 & F1).
  assert (F2 : Forall2 (fun s lay => Forall2 (fun t t' => same_token t (fill (sstart s) t') /\ thsent t' = thsent t) (tokens_of (dtokens d) s) lay) (dsents d) (layouts 0 bs)).
  { pose proof (rn_heads _ N) as NH. revert F1 NH. generalize (layouts 0 bs). generalize (dsents d) as ss.
    induction ss as [|s ss IH]; intros l F1 NH; inversion F1; subst; constructor.
    - eapply Forall2_number; [exact H1|]. intros j t x It Rt.
      assert (Id : In t (dtokens d)) by (eapply tokens_of_in; eauto).
      pose proof (rn_clean _ N) as N1. pose proof (rn_told _ N) as N2. pose proof (rn_extras _ N) as N3. rewrite Forall_forall in N1, N2, N3.
      destruct (NH s (or_introl eq_refl)) as [_ NH2]. rewrite Forall_forall in NH2.
      eapply normal_tok; eauto.
    - apply IH; auto. intros. apply NH. right; auto. }
  split; [|split; [|split]]; auto.
  - split; [cbn; auto|]. split; [cbn; auto|]. cbn [raw_doc dtokens]. rewrite fill_all_layouts, B1.
    pose proof (tiles_concat (dtokens d) 0 (zlen (dtokens d)) (dsents d) ltac:(lia) ltac:(lia) (inv_tiles d I)) as TC.
    rewrite py_slice_all in TC. rewrite <- TC at 1. apply Forall2_concat.
    clear - F2. induction F2 as [|s lay ss lays E F2 IH]; simpl; constructor; auto.
    clear - E. induction E as [|t t' l l' [E _] EE IH]; simpl; constructor; auto.
  - (* good *)
    assert (X : forall z, Forall2 (fun s lay => Forall2 (fun t t' => same_token t (fill (sstart s) t') /\ thsent t' = thsent t) (tokens_of (dtokens d) s) lay) (dsents d) (layouts z bs) -> Forall block_good bs).
    { clear - N. pose proof (rn_heads _ N) as NH. revert NH. generalize (dsents d) as ss. induction bs as [|b bs IH]; intros ss NH z F2; constructor; inversion F2 as [|s ? ss' ? E F3]; subst.
      - right. destruct (NH s (or_introl eq_refl)) as [D _]. unfold block_heads.
        replace (map thsent (layout 0 b)) with (map thsent (layout z b)) by (rewrite (layout_shift0 z), map_map; auto).
        replace (map thsent (layout z b)) with (map thsent (tokens_of (dtokens d) s)); auto.
        clear - E. induction E as [|t t' l l' [_ E] EE IH]; simpl; auto. congruence.
      - eapply IH; [|exact F3]. intros. apply NH. right; auto. }
    apply (X 0). auto.
  - (* heads *)
    assert (HN : forall gs, In gs gss -> Forall (fun t => exists h, thsent t = Some h /\ -1 <= h) (flat_map members gs)).
    { intros gs Hgs. clear - G Hgs N. pose proof (rn_heads _ N) as NH. unfold sentence_groups in G. revert NH G. generalize (dsents d) as ss.
      intros ss NH G. revert ss NH G. induction gss as [|g gss IH]; intros ss NH G; [destruct Hgs|]. 
      inversion G as [|s ? ss' ? GT G2]; subst. destruct Hgs as [<-|Hgs].
      - destruct (grouped_members _ _ GT) as [-> _]. destruct (NH s (or_introl eq_refl)) as [_ NH2].
        eapply Forall_impl; [|exact NH2]. simpl. intros a (h & ? & ? & ?). eauto.
      - eapply IH; [auto| |exact G2]. intros. apply NH. right; auto. }
    clear - R HN F. pose proof (full_chosen cols 6 F ltac:(simpl; tauto)) as c6.
    induction R as [|gs b gss bs R1 R IH]; constructor.
    + specialize (HN gs (or_introl eq_refl)). revert R1 HN. generalize 1. revert b. induction gs as [|g gs IHg]; intros b i R1 HN; inversion R1 as [|? h ? hs RG R2]; subst; constructor.
      * cbn [flat_map] in HN. apply Forall_app in HN. destruct HN as [HN _]. cbn [fst snd] in RG.
        assert (ROW : forall j t b0 r, (exists h, thsent t = Some h /\ -1 <= h) -> parse_line (normal_columns cols) (expected_row cols (dtext d) j t (spacing b0)) = Ok r -> row_nonneg r).
        { intros j t b0 r (h0 & E & L) P. apply reread_row in P. destruct P as (_ & _ & P). rewrite c6 in P. unfold written_head in P. rewrite c6, E in P.
          intros z Hz. rewrite P in Hz. injection Hz as <-. lia. }
        destruct g as [t|t ws], h as [r|r rs]; simpl in RG; try contradiction; cbn in HN |- *.
        -- inversion HN; subst. eapply ROW; eauto.
        -- destruct RG as [_ RG]. clear - RG HN ROW. revert rs i RG. induction ws as [|w ws IHw]; intros rs i RG; inversion RG; subst; constructor; inversion HN; subst.
           ++ apply (ROW i w true y); auto.
           ++ eapply IHw; eauto.
      * cbn [flat_map] in HN. apply Forall_app in HN. destruct HN as [_ HN]. eapply IHg; eauto.
    + apply IH. intros. apply HN. right; auto.
Qed.

Lemma full_writable cols ts : full_columns cols -> tags_writable cols ts.
Proof. intros F. left. apply full_chosen; auto. simpl; tauto. Qed.

Lemma roundtrip_single cols d k : full_columns cols -> doc_inv d -> reader_normal d -> zlen (dsents d) <= k ->
  exists out d', write_str cols [d] = Ok out /\ read_str k cols out = Ok ([d'], None) /\ same_document d d'.
Proof.
  intros F I N K. destruct (rn_spaced _ N) as (gss & G & SP & NP).
  exists (concat (map (sentence_text cols (dtext d)) gss)).
  pose proof (writer_output cols [d] [gss]) as W.
  destruct (reread_sentences cols cols (map (fun gs => (dtext d, gs)) gss) (doc_fit d gss I G SP (rn_clean _ N))) as (bs & P & R & O).
  assert (R' : Forall2 (fun gs b => Forall2 (fun p h => reread_group cols cols (dtext d) (fst p) (snd p) h) (with_ids 1 gs) b) gss bs).
  { clear - R. revert bs R. induction gss; intros bs R; inversion R; subst; constructor; auto. }
  destruct (normal_doc cols d gss bs F I N G SP R' O) as (SD & BG & BN & ST).
  assert (LB : length bs = length (dsents d)).
  { apply Forall2_length' in R'. apply Forall2_length' in G. congruence. }
  assert (NB : bs <> []).
  { intros ->. pose proof (rn_some _ N). destruct (dsents d); [congruence|discriminate]. }
  exists (raw_doc bs). split; [|split]; auto.
  - rewrite W; [|auto|constructor; auto; apply full_writable; auto|auto|auto]. cbn. rewrite app_nil_r. reflexivity.
  - apply read_str_blocks. split; [unfold zlen in *; pose proof (zlen_pos bs NB) as ZP; unfold zlen in ZP; lia|]. rewrite map_map in P. cbn [fst snd] in P.
    change (map (sentence_text cols (dtext d)) gss) with (map (fun x => sentence_text cols (dtext d) x) gss). rewrite P.
    destruct (proj2 (doc_of_good bs O NB BN) BG) as [d' D'].
    assert (E : d' = raw_doc bs) by (apply (proj1 (doc_of_ok bs d' O NB) D')). subst d'.
    assert (KB : zlen bs <= k) by (unfold zlen in *; lia).
    clear - D' KB NB.
    assert (A : forall b2 acc, acc ++ b2 = bs -> assemble k acc b2 (TEnd []) = ([raw_doc bs], None) \/ (b2 = [] /\ zlen acc < k /\ acc = bs) \/ zlen acc >= k).
    { induction b2 as [|b b2 IH]; intros acc E.
      - rewrite app_nil_r in E. subst acc. destruct (Z.lt_ge_cases (zlen bs) k); [right; left; auto|right; right; lia].
      - cbn [assemble]. destruct (Z.leb_spec k (zlen (acc ++ [b]))) as [L|L].
        + assert (b2 = []).
          { destruct b2 as [|b' b2]; auto. exfalso. subst bs. unfold zlen in *. rewrite !app_length in *. simpl in *. lia. }
          subst b2. rewrite E, D'. left. reflexivity.
        + destruct (IH (acc ++ [b])) as [H|[(H1 & H2 & H3)|H]]; [rewrite <- app_assoc; auto|auto| |lia].
          subst b2. left. cbn [assemble]. rewrite H3. destruct bs as [|b0 bs0] eqn:EB; [congruence|]. rewrite D'. reflexivity. }
    destruct (A bs [] eq_refl) as [H|[(H1 & H2 & H3)|H]]; [congruence|congruence|].
    change (zlen []) with 0 in H. pose proof (zlen_pos bs NB). lia.
Qed.

Lemma runs_text limit used ds : Forall block_ok used -> runs limit used ds -> concat (map dtext ds) = surface (concat used).
Proof.
  intros O R. induction R as [|acc bs d ds N Z D R IH|acc d N Z D]; auto.
  - apply Forall_app in O. destruct O as [O1 O2]. cbn [map concat]. rewrite IH by auto. rewrite concat_app, surface_app. f_equal.
    apply doc_of_ok in D; auto. destruct D as [-> _]. reflexivity.
  - cbn [map concat]. rewrite app_nil_r. apply doc_of_ok in D; auto. destruct D as [-> _]. reflexivity.
Qed.

Lemma roundtrip_many cols ds k : full_columns cols -> Forall doc_inv ds -> Forall reader_normal ds -> 0 < k ->
  exists out ds' ds'', write_str cols ds = Ok out /\ read_str k cols out = Ok (ds', None) /\
    Forall2 same_document ds ds'' /\ concat (map document_views ds') = concat (map document_views ds'') /\
    concat (map dtext ds') = concat (map dtext ds).
Proof.
  intros F I N K.
  assert (GX : exists gsss, Forall2 (fun d gss => sentence_groups d gss /\ spaced 0 (concat gss) (dtext d) /\ no_pending gss) ds gsss).
  { apply Forall2_of_exists. eapply Forall_impl; [|exact N]. intros d Nd. apply (rn_spaced _ Nd). }
  destruct GX as [gsss GX].
  exists (concat (map (fun p => concat (map (sentence_text cols (dtext (fst p))) (snd p))) (combine ds gsss))).
  assert (W : write_str cols ds = Ok (concat (map (fun p => concat (map (sentence_text cols (dtext (fst p))) (snd p))) (combine ds gsss)))).
  { apply writer_output; auto.
    - apply Forall_forall. intros. apply full_writable; auto.
    - eapply Forall2_impl; [|exact GX]. simpl. tauto.
    - clear - GX. induction GX as [|d gss ds gsss (? & ? & ?) GX IH]; constructor; auto. }
  set (sents := flat_map (fun p => map (fun gs => (dtext (fst p), gs)) (snd p)) (combine ds gsss)).
  assert (E : concat (map (fun p => concat (map (sentence_text cols (dtext (fst p))) (snd p))) (combine ds gsss)) =
              concat (map (fun p => sentence_text cols (fst p) (snd p)) sents)).
  { unfold sents. clear. induction (combine ds gsss) as [|p l IH]; auto. cbn [map concat flat_map]. rewrite IH, map_app, concat_app. f_equal.
    rewrite map_map. reflexivity. }
  assert (SF : Forall sentence_fit sents).
  { unfold sents. clear - GX I N. revert I N. induction GX as [|d gss ds gsss (G & SP & _) GX IH]; intros I N; [constructor|].
    inversion I; inversion N; subst. cbn. apply Forall_app. split; auto. apply doc_fit; auto. apply rn_clean; auto. }
  destruct (reread_sentences cols cols sents SF) as (bs & P & R & O).
  assert (SPLIT : exists bss, bs = concat bss /\ Forall2 (fun d b => same_document d (raw_doc b) /\ Forall block_good b /\ Forall (Forall group_nonneg) b /\ surface (concat b) = dtext d) ds bss).
  { unfold sents in R. clear - R GX I N O F. revert bs R O I N. induction GX as [|d gss ds gsss (G & SP & _) GX IH]; intros bs R O I N.
    - inversion R; subst. exists []. split; auto.
    - inversion I; inversion N; subst. cbn [combine flat_map] in R. apply Forall2_app_inv_l in R. destruct R as (b1 & b2 & R1 & R2 & ->).
      apply Forall_app in O. destruct O as [O1 O2]. destruct (IH b2) as (bss & -> & FF); auto.
      exists (b1 :: bss). split; auto. constructor; auto. apply (normal_doc cols d gss b1); auto.
      cbn [fst snd] in R1. clear - R1. revert b1 R1. induction gss; intros b1 R1; inversion R1; subst; constructor; auto. }
  destruct SPLIT as (bss & -> & FF).
  destruct (assemble_total k K (concat bss) []) as [ds' A]; auto.
  { cbn. apply Forall_concat. clear - FF. induction FF as [|? ? ? ? (? & ? & ? & ?)]; constructor; auto. }
  { cbn. apply Forall_concat. clear - FF. induction FF as [|? ? ? ? (? & ? & ? & ?)]; constructor; auto. }
  exists ds', (map raw_doc bss). split; auto. split; [|split; [|split]].
  - apply read_str_blocks. split; auto. rewrite E, P. auto.
  - clear - FF. induction FF as [|? ? ? ? (? & ? & ? & ?)]; constructor; auto.
  - destruct (assemble_runs k (TEnd []) K) with (bs := concat bss) (acc := @nil block) (ds := ds') (e := @None exn) as (used & rest & E1 & E2 & E3); auto.
    { intros lf Hl. injection Hl as <-. constructor. }
    destruct (E3 eq_refl) as [-> _]. rewrite app_nil_r in E1. cbn in E1. subst used.
    rewrite (runs_views k (concat bss) ds' O E2). rewrite concat_map, !map_map. f_equal.
    clear - O. induction bss as [|b bss IH]; auto. cbn [map concat] in *. apply Forall_app in O. destruct O as [O1 O2].
    rewrite IH by auto. f_equal. rewrite bounds_views by auto. auto.
  - destruct (assemble_runs k (TEnd []) K) with (bs := concat bss) (acc := @nil block) (ds := ds') (e := @None exn) as (used & rest & E1 & E2 & E3); auto.
    { intros lf Hl. injection Hl as <-. constructor. }
    destruct (E3 eq_refl) as [-> _]. rewrite app_nil_r in E1. cbn in E1. subst used.
    rewrite (runs_text k (concat bss) ds' O E2).
    clear - FF. induction FF as [|d b ds bss (_ & _ & _ & S0) FF IH]; auto. cbn [map concat]. rewrite concat_app, surface_app, S0, IH. auto.
Qed.
