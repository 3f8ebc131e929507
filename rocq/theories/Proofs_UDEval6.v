(* What loading an accepted file yields, and which files are accepted. *)
From Coq Require Import String Ascii ZArith NArith QArith Bool Sorted Lia List.
From Verif Require Import Base BaseFacts Model_Datamodel Model_Conllu Spec_Datamodel Spec_Conllu Model_UDEval Spec_UDEval Proofs_UDEval.
From Verif Require Import Proofs_Datamodel Proofs_Conllu Proofs_Conllu3 Proofs_Conllu10 Proofs_UDEval3 Proofs_UDEval4 Proofs_UDEval5.
Import ListNotations.
Open Scope Z_scope.

Lemma sentence_chars_app a b : sentence_chars (a ++ b) = sentence_chars a ++ sentence_chars b.
Proof. unfold sentence_chars. now rewrite map_app, concat_app. Qed.
Lemma sentence_chars_cons g gs : sentence_chars (g :: gs) = group_chars g ++ sentence_chars gs.
Proof. reflexivity. Qed.

Lemma expected_tokens_app a : forall at_ b, expected_tokens at_ (a ++ b) = expected_tokens at_ a ++ expected_tokens (at_ + zlen (sentence_chars a)) b.
Proof.
  induction a as [|g a IH]; intros at_ b; cbn [app expected_tokens].
  - change (zlen (sentence_chars [])) with 0. now rewrite Z.add_0_r.
  - rewrite IH, sentence_chars_cons, zlen_app, Z.add_assoc. reflexivity.
Qed.
Lemma expected_words_app a : forall at_ b, expected_words at_ (a ++ b) = expected_words at_ a ++ expected_words (at_ + zlen (sentence_chars a)) b.
Proof.
  induction a as [|g a IH]; intros at_ b; cbn [app expected_words].
  - change (zlen (sentence_chars [])) with 0. now rewrite Z.add_0_r.
  - rewrite IH, sentence_chars_cons, zlen_app, Z.add_assoc, app_assoc. reflexivity.
Qed.

Lemma row_words_facts sp ws : forall ix, map word_facts (row_words ix sp ws) = map (fun w => (sp, kept_columns (snd (fst w)) (snd w), snd w)) ws.
Proof. induction ws as [|w ws IH]; intro ix; cbn; auto. now rewrite IH. Qed.
Lemma new_words_facts gs : forall ix at_, map word_facts (new_words ix at_ gs) = expected_words at_ gs.
Proof. induction gs as [|g gs IH]; intros ix at_; cbn; auto. now rewrite map_app, row_words_facts, IH. Qed.

Definition positions (n : nat) : list Z := map Z.of_nat (seq 0 n).
Lemma row_words_ix sp ws : forall ix, map w_ix (row_words ix sp ws) = map (fun i => ix + Z.of_nat i) (seq 0 (length ws)).
Proof.
  induction ws as [|w ws IH]; intro ix; cbn [row_words map length seq w_ix]; auto.
  rewrite IH, <- seq_shift, map_map. f_equal; [lia|]. apply map_ext. intro i. lia.
Qed.
Lemma new_words_ix gs : forall ix at_, map w_ix (new_words ix at_ gs) = map (fun i => ix + Z.of_nat i) (seq 0 (length (flat_map words_of gs))).
Proof.
  induction gs as [|g gs IH]; intros ix at_; auto. cbn [new_words flat_map].
  rewrite map_app, row_words_ix, IH, app_length, seq_app, map_app. f_equal.
  cbn [Nat.add].
  assert (G : forall m k, map (fun i => ix + Z.of_nat i) (seq k m) = map (fun i => ix + Z.of_nat k + Z.of_nat i) (seq 0 m)).
  { induction m as [|m IHm]; intro k; auto. cbn [seq map]. f_equal; [lia|]. rewrite IHm. rewrite <- seq_shift, map_map. apply map_ext. intro i. lia. }
  rewrite G. apply map_ext. intro i. unfold zlen. lia.
Qed.

Lemma row_words_new sp ws : forall ix, Forall (fun w => w_parent w = PaNone) (row_words ix sp ws).
Proof. induction ws as [|w ws IH]; intro ix; cbn; constructor; auto. Qed.
Lemma new_words_new gs : forall ix at_, Forall (fun w => w_parent w = PaNone) (new_words ix at_ gs).
Proof. induction gs as [|g gs IH]; intros ix at_; cbn; [constructor|]. apply Forall_app. split; auto. apply row_words_new. Qed.

Lemma row_words_heads sp ws : forall ix, Forall2 (fun w c => forall h, head_of w h <-> parse_int (cell c 6) = Ok h) (row_words ix sp ws) (map (fun w => snd (fst w)) ws).
Proof.
  induction ws as [|w ws IH]; intro ix; cbn; constructor; auto. intro h. unfold head_of. cbn [w_columns]. split.
  - intros (c & [= <-] & P). exact P.
  - intro P. eexists. split; [reflexivity|exact P].
Qed.
Lemma new_words_heads gs : forall ix at_, Forall2 (fun w c => forall h, head_of w h <-> parse_int (cell c 6) = Ok h) (new_words ix at_ gs) (word_cells gs).
Proof.
  unfold word_cells. induction gs as [|g gs IH]; intros ix at_; cbn [new_words flat_map map]; [constructor|].
  rewrite map_app. apply Forall2_app; auto. apply row_words_heads.
Qed.

Lemma word_cells_zlen gs ix at_ : zlen (new_words ix at_ gs) = zlen (word_cells gs).
Proof. rewrite new_words_length. unfold word_cells. now rewrite map_zlen. Qed.

(* ---- invariants of loading ---- *)

Record loaded (u : ud) : Prop := {
  ld_ix : map w_ix (u_words u) = positions (length (u_words u));
  ld_parent : Forall (parent_valid (zlen (u_words u))) (u_words u)
}.

Lemma step_ok u gs u' : loaded u -> sentence_step u gs = Ok u' ->
  loaded u' /\ u_chars u' = u_chars u ++ sentence_chars gs /\
  u_tokens u' = u_tokens u ++ expected_tokens (zlen (u_chars u)) gs /\
  map word_facts (u_words u') = map word_facts (u_words u) ++ expected_words (zlen (u_chars u)) gs /\
  u_sents u' = u_sents u ++ [mkSpan (zlen (u_chars u)) (zlen (u_chars u) + zlen (sentence_chars gs))] /\
  gs <> [] /\ Forall (fun c => exists h, parse_int (cell c 6) = Ok h /\ h <= zlen (word_cells gs)) (word_cells gs).
Proof.
  intros [Hix Hp] E. unfold sentence_step in E. apply bind_ok_iff in E as (r & El & E). injection E as <-.
  destruct (link_general _ _ _ El Hp (new_words_new _ _ _)) as (Rix & Rf & Rp & Rl & Rh).
  cbn [u_chars u_tokens u_words u_sents]. split; [split|].
  - cbn [u_words]. rewrite Rix, map_app, Hix, new_words_ix, Rl, app_length. unfold positions. rewrite seq_app, map_app. f_equal.
    cbn [Nat.add]. replace (length (new_words (zlen (u_words u)) (zlen (u_chars u)) gs)) with (length (flat_map words_of gs)).
    2:{ apply Nat2Z.inj. symmetry. apply new_words_length. }
    generalize (length (flat_map words_of gs)). unfold zlen. generalize (length (u_words u)). intros k m. revert k.
    induction m as [|m IH]; intro k; auto. cbn [seq map]. f_equal; [lia|]. rewrite <- IH. rewrite <- seq_shift, map_map. apply map_ext. intro i. lia.
  - exact Rp.
  - split; auto. split; auto. split; [rewrite Rf, map_app, new_words_facts; auto|]. split; auto. split.
    + intros ->. unfold link_sentence in El. cbn [new_words] in El. rewrite app_nil_r in El.
      replace (length (u_words u) - Z.to_nat (zlen (u_words u)))%nat with 0%nat in El by (unfold zlen; lia).
      cbn [seq map foldM bind] in El. rewrite skipn_all2 in El by (rewrite map_length; unfold zlen; lia). discriminate El.
    + rewrite Forall_forall in Rh. apply Forall_forall. intros c Ic. apply In_nth_error in Ic as (i & Ei).
      destruct (Forall2_nth_r _ _ _ _ _ (new_words_heads gs (zlen (u_words u)) (zlen (u_chars u))) Ei) as (w & Ew & Hw).
      destruct (Rh w (nth_error_In _ _ Ew)) as (h & Hh & Lh). exists h. split; [now apply Hw|]. now rewrite word_cells_zlen in Lh.
Qed.

Lemma steps_ok : forall gss u u', loaded u -> foldM sentence_step u gss = Ok u' ->
  loaded u' /\ u_chars u' = u_chars u ++ sentence_chars (concat gss) /\
  u_tokens u' = u_tokens u ++ expected_tokens (zlen (u_chars u)) (concat gss) /\
  map word_facts (u_words u') = map word_facts (u_words u) ++ expected_words (zlen (u_chars u)) (concat gss) /\
  u_sents u' = u_sents u ++ expected_sentences (zlen (u_chars u)) gss /\
  Forall (fun gs => gs <> [] /\ Forall (fun c => exists h, parse_int (cell c 6) = Ok h /\ h <= zlen (word_cells gs)) (word_cells gs)) gss.
Proof.
  induction gss as [|gs gss IH]; intros u u' L E.
  - injection E as <-. cbn. rewrite !app_nil_r. auto 7.
  - cbn [foldM] in E. apply bind_ok_iff in E as (u1 & E1 & E).
    destruct (step_ok _ _ _ L E1) as (L1 & C1 & T1 & W1 & S1 & N1 & H1).
    destruct (IH _ _ L1 E) as (L2 & C2 & T2 & W2 & S2 & N2).
    split; auto. cbn [concat expected_sentences].
    rewrite C2, T2, W2, S2, C1, T1, W1, S1, sentence_chars_app, expected_tokens_app, expected_words_app, !zlen_app, <- !app_assoc.
    cbn [app]. auto 7.
Qed.

(* ---- the text theorem ---- *)

Lemma empty_loaded : loaded empty_ud.
Proof. split; constructor. Qed.

Definition tokens_nonempty (gs : list (group (list str))) : Prop := Forall (fun g => group_chars g <> []) gs.

Lemma body_nonempty k body gs : ud_body k body gs -> tokens_nonempty gs.
Proof. induction 1; auto; constructor; auto. Qed.
Lemma lines_nonempty ls gss : ud_lines ls gss -> tokens_nonempty (concat gss).
Proof. induction 1; auto; [constructor|]. cbn. apply Forall_app. split; auto. eapply body_nonempty; eauto. Qed.

Lemma tokens_consecutive gs : forall at_, tokens_nonempty gs -> consecutive at_ (at_ + zlen (sentence_chars gs)) (expected_tokens at_ gs).
Proof.
  induction gs as [|g gs IH]; intros at_ N; cbn [expected_tokens].
  - change (zlen (sentence_chars [])) with 0. rewrite Z.add_0_r. constructor.
  - inversion N as [|? ? N1 N2]; subst. rewrite sentence_chars_cons, zlen_app, Z.add_assoc. constructor; cbn [sp_start sp_end]; auto.
    destruct (group_chars g); [contradiction|]. rewrite zlen_cons. pose proof (zlen_nonneg s). lia.
Qed.

Lemma sentences_consecutive gss : forall at_, Forall (fun gs => gs <> []) gss -> tokens_nonempty (concat gss) ->
  consecutive at_ (at_ + zlen (sentence_chars (concat gss))) (expected_sentences at_ gss).
Proof.
  induction gss as [|gs gss IH]; intros at_ N T; cbn [expected_sentences].
  - change (zlen (sentence_chars (concat []))) with 0. rewrite Z.add_0_r. constructor.
  - inversion N as [|? ? N1 N2]; subst. cbn [concat] in *. apply Forall_app in T as [T1 T2].
    rewrite sentence_chars_app, zlen_app, Z.add_assoc. constructor; cbn [sp_start sp_end]; auto.
    destruct gs as [|g gs]; [contradiction|]. rewrite sentence_chars_cons, zlen_app.
    inversion T1 as [|? ? T3 _]; subst. destruct (group_chars g); [contradiction|]. rewrite zlen_cons.
    pose proof (zlen_nonneg s). pose proof (zlen_nonneg (sentence_chars gs)). lia.
Qed.

Lemma expected_words_spans gs : forall at_ w, In w (expected_words at_ gs) -> In (fst (fst w)) (expected_tokens at_ gs).
Proof.
  induction gs as [|g gs IH]; intros at_ w I0; cbn in *; auto. apply in_app_or in I0 as [I0|I0].
  - apply in_map_iff in I0 as (x & <- & _). left. reflexivity.
  - right. auto.
Qed.

Lemma load_text text u : load_conllu text = Ok u ->
  exists gss, ud_lines (file_lines text) gss /\
    u_chars u = sentence_chars (concat gss) /\
    u_tokens u = expected_tokens 0 (concat gss) /\
    u_sents u = expected_sentences 0 gss /\
    map word_facts (u_words u) = expected_words 0 (concat gss).
Proof.
  intro E. destruct (load_shape _ _ E) as (gss & UL). exists gss. split; auto.
  rewrite (load_is_steps _ _ UL) in E. destruct (steps_ok _ _ _ empty_loaded E) as (_ & C & T & W & S0 & _).
  cbn [empty_ud u_chars u_tokens u_words u_sents app map] in *. change (zlen (@nil char)) with 0 in *. auto.
Qed.

Lemma load_tiles text u : load_conllu text = Ok u ->
  consecutive 0 (zlen (u_chars u)) (u_tokens u) /\ consecutive 0 (zlen (u_chars u)) (u_sents u) /\
  Forall (fun w => In (w_span w) (u_tokens u)) (u_words u).
Proof.
  intro E. destruct (load_shape _ _ E) as (gss & UL). pose proof (lines_nonempty _ _ UL) as NE.
  rewrite (load_is_steps _ _ UL) in E. destruct (steps_ok _ _ _ empty_loaded E) as (_ & C & T & W & S0 & N).
  cbn [empty_ud u_chars u_tokens u_words u_sents app map] in *. change (zlen (@nil char)) with 0 in *.
  rewrite C, T, S0. split; [apply (tokens_consecutive _ 0); auto|]. split.
  - apply (sentences_consecutive _ 0); auto. eapply Forall_impl; [|exact N]. intros a []; auto.
  - apply Forall_forall. intros w I0. apply (in_map word_facts) in I0. rewrite W in I0. now apply expected_words_spans in I0.
Qed.

Lemma load_loaded text u : load_conllu text = Ok u -> loaded u.
Proof.
  intro E. destruct (load_shape _ _ E) as (gss & UL). rewrite (load_is_steps _ _ UL) in E.
  now destruct (steps_ok _ _ _ empty_loaded E) as (L & _).
Qed.

(* ---- accepted files ---- *)

Lemma heads_of_words gs hs ix at_ : heads_are gs hs ->
  Forall2 head_of (new_words ix at_ gs) hs /\ Forall (fun h => 0 <= h <= zlen (new_words ix at_ gs)) hs.
Proof.
  intro H. unfold heads_are in H. rewrite <- (word_cells_zlen gs ix at_) in H. revert H.
  generalize (zlen (new_words ix at_ gs)). intros n H. pose proof (new_words_heads gs ix at_) as W. revert W. generalize (new_words ix at_ gs). intros l W. revert l W.
  induction H as [|c h cs hs [P R] H IH]; intros l W; inversion W as [|w ? l' ? Hw Hl]; subst; [split; constructor|].
  destruct (IH _ Hl) as [I1 I2]. split; constructor; auto. now apply Hw.
Qed.

Lemma linked_parents st ws hs ws' : length ws = length hs ->
  Forall2 (fun w' wh => linked st (fst wh) (snd wh) w') ws' (combine ws hs) ->
  map w_parent ws' = map (fun h => if h =? 0 then PaNone else PaWord (st + (h - 1))) hs.
Proof.
  revert hs ws'. induction ws as [|w ws IH]; intros [|h hs] ws' L F; try discriminate; cbn in F; inversion F as [|w' ? l' ? Hw Hl]; subst; auto.
  cbn. f_equal; auto. now destruct Hw as (_ & _ & _ & _ & Hw).
Qed.

Lemma step_tree u gs u' hs : sentence_step u gs = Ok u' -> heads_are gs hs ->
  dependency_tree (map (fun h => Some (h - 1)) hs) /\
  map w_parent (u_words u') = map w_parent (u_words u) ++ map (fun h => if h =? 0 then PaNone else PaWord (zlen (u_words u) + (h - 1))) hs.
Proof.
  intros E H. unfold sentence_step in E. apply bind_ok_iff in E as (r & El & E). injection E as <-.
  destruct (heads_of_words gs hs (zlen (u_words u)) (zlen (u_chars u)) H) as [H1 H2].
  destruct (link_sound _ _ _ H1 H2 (new_words_new _ _ _) _ El) as (T & ws' & -> & F). split; auto.
  cbn [u_words]. rewrite map_app. f_equal. eapply linked_parents; eauto. eapply Forall2_length'; eauto.
Qed.

Lemma step_accepts u gs hs : tree_heads gs hs -> exists u', sentence_step u gs = Ok u'.
Proof.
  intros [H T]. unfold sentence_step.
  destruct (heads_of_words gs hs (zlen (u_words u)) (zlen (u_chars u)) H) as [H1 H2].
  destruct (link_complete (u_words u) _ _ H1 H2 (new_words_new _ _ _) T) as (r & ->). cbn [bind]. eauto.
Qed.

Lemma steps_accept gss : Forall (fun gs => exists hs, tree_heads gs hs) gss -> forall u, exists u', foldM sentence_step u gss = Ok u'.
Proof.
  induction 1 as [|gs gss (hs & H) F IH]; intro u; [eexists; reflexivity|].
  destruct (step_accepts u gs hs H) as (u1 & E1). destruct (IH u1) as (u' & E'). exists u'. cbn [foldM]. now rewrite E1.
Qed.

Lemma load_accepts text gss : ud_lines (file_lines text) gss -> Forall (fun gs => exists hs, tree_heads gs hs) gss ->
  exists u, load_conllu text = Ok u.
Proof. intros UL F. rewrite (load_is_steps _ _ UL). now apply steps_accept. Qed.

Lemma body_cells k body gs : ud_body k body gs -> forall c, In c (word_cells gs) -> exists l, In l body /\ ten_cells l c.
Proof.
  unfold word_cells. induction 1 as [k l B|k l c ls gs T D BD IH|k l c ls gs h T D1 D2 F P1 P2 H0 BD IH|k l c ls gs sa sb a b ws cs T E0 D1 Na Nb F Pa Pb W Lc BD IH];
    intros x I0.
  - destruct I0.
  - destruct (IH _ I0) as (l' & I1 & T'). exists l'. split; auto. right; auto.
  - cbn in I0. destruct I0 as [<-|I0]; [exists l; split; auto; left; auto|].
    destruct (IH _ I0) as (l' & I1 & T'). exists l'. split; auto. right; auto.
  - cbn [flat_map words_of] in I0. rewrite map_app, map_map in I0. cbn [fst snd] in I0. rewrite map_id in I0.
    apply in_app_or in I0 as [I0|I0].
    + apply In_nth_error in I0 as (i & Ei). destruct (Forall2_nth_r _ _ _ _ _ W Ei) as (l' & El & T'). exists l'. split; auto.
      right. apply in_or_app. left. eapply nth_error_In; eauto.
    + destruct (IH _ I0) as (l' & I1 & T'). exists l'. split; auto. right. apply in_or_app. auto.
Qed.

Lemma lines_cells ls gss : ud_lines ls gss -> forall gs c, In gs gss -> In c (word_cells gs) -> exists l, In l ls /\ ten_cells l c.
Proof.
  induction 1 as [|l ls gss C H IH|l ls gs rest gss C B H IH]; intros gs' c I0 Ic.
  - destruct I0.
  - destruct (IH _ _ I0 Ic) as (l' & I1 & T). exists l'. split; auto. right; auto.
  - destruct I0 as [<-|I0].
    + destruct (body_cells _ _ _ B _ Ic) as (l' & I1 & T). exists l'. split; auto. apply in_or_app; auto.
    + destruct (IH _ _ I0 Ic) as (l' & I1 & T). exists l'. split; auto. apply in_or_app; auto.
Qed.

Lemma known_heads gs : (forall c h, In c (word_cells gs) -> parse_int (cell c 6) = Ok h -> 0 <= h) ->
  Forall (fun c => exists h, parse_int (cell c 6) = Ok h /\ h <= zlen (word_cells gs)) (word_cells gs) -> exists hs, heads_are gs hs.
Proof.
  unfold heads_are. generalize (zlen (word_cells gs)). intros n. generalize (word_cells gs). intros cs N F.
  induction F as [|c cs (h & P & L) F IH]; [exists []; constructor|].
  destruct IH as (hs & H); [intros x y I0; apply N; right; auto|]. exists (h :: hs). constructor; auto.
  split; auto. split; auto. apply (N c); auto. left; auto.
Qed.

Lemma steps_trees : forall gss u u', loaded u -> foldM sentence_step u gss = Ok u' ->
  (forall gs c h, In gs gss -> In c (word_cells gs) -> parse_int (cell c 6) = Ok h -> 0 <= h) ->
  exists hss, Forall2 tree_heads gss hss /\ map w_parent (u_words u') = map w_parent (u_words u) ++ expected_parents (zlen (u_words u)) hss.
Proof.
  induction gss as [|gs gss IH]; intros u u' L E N.
  - injection E as <-. exists []. cbn. rewrite app_nil_r. split; auto; constructor.
  - cbn [foldM] in E. apply bind_ok_iff in E as (u1 & E1 & E).
    destruct (step_ok _ _ _ L E1) as (L1 & _ & _ & W1 & _ & _ & H1).
    destruct (known_heads gs) as (hs & Hh); auto.
    { intros c h Ic P. eapply N; eauto. left; auto. }
    destruct (step_tree _ _ _ _ E1 Hh) as (T & P1).
    destruct (IH u1 u' L1 E) as (hss & F & P2).
    { intros gs' c h I0. apply N. right; auto. }
    exists (hs :: hss). split; [constructor; auto; split; auto|].
    rewrite P2, P1, <- app_assoc. cbn [expected_parents]. do 2 f_equal. f_equal.
    apply (f_equal (@zlen _)) in P1. rewrite zlen_app, !map_zlen in P1. exact P1.
Qed.

Lemma load_trees text u : ud_heads_nonneg text -> load_conllu text = Ok u ->
  exists gss hss, ud_lines (file_lines text) gss /\ Forall2 tree_heads gss hss /\ map w_parent (u_words u) = expected_parents 0 hss.
Proof.
  intros N E. destruct (load_shape _ _ E) as (gss & UL). rewrite (load_is_steps _ _ UL) in E.
  destruct (steps_trees _ _ _ empty_loaded E) as (hss & F & P).
  - intros gs c h I0 Ic. destruct (lines_cells _ _ UL _ _ I0 Ic) as (l & Il & T). eapply N; eauto.
  - exists gss, hss. auto.
Qed.

Lemma load_iff text : ud_heads_nonneg text ->
  ((exists u, load_conllu text = Ok u) <->
   exists gss, ud_lines (file_lines text) gss /\ Forall (fun gs => exists hs, tree_heads gs hs) gss).
Proof.
  intro N. split.
  - intros (u & E). destruct (load_trees _ _ N E) as (gss & hss & UL & F & _). exists gss. split; auto.
    clear - F. induction F; constructor; eauto.
  - intros (gss & UL & F). eapply load_accepts; eauto.
Qed.
