(* Reading back what the CoNLL-U writer wrote: documents. *)
From Coq Require Import String Ascii ZArith NArith Bool Lia Permutation Sorted List.
From Verif Require Import Base BaseFacts Model_Datamodel Model_Conllu Spec_Datamodel Spec_Conllu
  Proofs_Datamodel Proofs_Syntax Proofs_Datamodel2 Proofs_Datamodel4 Proofs_Conllu Proofs_Conllu2 Proofs_Conllu3
  Proofs_Conllu4 Proofs_Conllu5 Proofs_Conllu6 Proofs_Conllu7.
Import ListNotations.
Open Scope Z_scope.

(* ---- what becomes of one row ---- *)

Definition written_head (cw : list Z) (i : Z) (t : token) : Z :=
  if chosen cw 6 then match thsent t with Some h => h + 1 | None => i - 1 end else i - 1.

Lemma reread_row cw cr text i t b r : parse_line (normal_columns cr) (expected_row cw text i t (spacing b)) = Ok r ->
  i_text r = text_of text t /\ i_space r = b /\
  i_head r = (if chosen cr 6 then Some (written_head cw i t) else None).
Proof.
  intros H. pose proof (parse_line_row _ _ _ H) as R. split; [|split].
  - rewrite (ro_text _ _ _ R). reflexivity.
  - pose proof (ro_space _ _ _ R) as S0. change (cell (expected_row cw text i t (spacing b)) 9) with (spacing b) in S0.
    rewrite spacing_value in S0. destruct (i_space r), b; auto; exfalso; intuition congruence.
  - pose proof (ro_head _ _ _ R) as HH. unfold sel, cHEAD in HH. rewrite chosen_normal in HH. destruct (chosen cr 6); auto.
    assert (C : cell (expected_row cw text i t (spacing b)) 6 = print_Z (written_head cw i t)).
    { unfold cell, written_head. cbn [expected_row nth]. destruct (chosen cw 6); auto. destruct (thsent t); auto. }
    unfold cell_opt in HH. rewrite C, print_not_underscore in HH. destruct HH as (h & P & E). rewrite parse_print_Z in P. congruence.
Qed.

Lemma reread_range cr text i t n r : parse_line (normal_columns cr) (expected_range text i t n) = Ok r ->
  i_text r = doc_text_of text t /\ i_space r = space_after text t.
Proof.
  intros H. pose proof (parse_line_row _ _ _ H) as R. split.
  - rewrite (ro_text _ _ _ R). reflexivity.
  - pose proof (ro_space _ _ _ R) as S0. change (cell (expected_range text i t n) 9) with (spacing (space_after text t)) in S0.
    rewrite spacing_value in S0. destruct (i_space r), (space_after text t); auto; exfalso; intuition congruence.
Qed.

(* ---- groups ---- *)

Definition reread_group (cw cr : list Z) (text : str) (i : Z) (g : group token) (h : group irow) : Prop :=
  match g, h with
  | GWord t, GWord r => parse_line (normal_columns cr) (expected_row cw text i t (spacing (space_after text t))) = Ok r
  | GRange t ws, GRange r rs =>
      parse_line (normal_columns cr) (expected_range text i t (zlen ws)) = Ok r /\
      Forall2 (fun c r => parse_line (normal_columns cr) c = Ok r) (word_rows cw text i ws) rs
  | _, _ => False
  end.

Definition group_size (g : group token) : Z := zlen (members g).

Fixpoint with_ids (i : Z) (gs : list (group token)) : list (Z * group token) :=
  match gs with [] => [] | g :: gs' => (i, g) :: with_ids (i + group_size g) gs' end.

Fixpoint number (i : Z) (ts : list token) : list (Z * token) :=
  match ts with [] => [] | t :: ts' => (i, t) :: number (i + 1) ts' end.

Lemma number_app i a b : number i (a ++ b) = number i a ++ number (i + zlen a) b.
Proof.
  revert i. induction a as [|x a IH]; intros i; simpl.
  - change (zlen (@nil token)) with 0. rewrite Z.add_0_r. auto.
  - rewrite IH, zlen_cons. do 3 f_equal. lia.
Qed.

Lemma number_length i a : length (number i a) = length a.
Proof. revert i. induction a; intros i; simpl; auto. Qed.

Lemma number_snd i a : map snd (number i a) = a.
Proof. revert i. induction a; intros i; simpl; auto. f_equal; auto. Qed.

Lemma with_ids_snd i gs : map snd (with_ids i gs) = gs.
Proof. revert i. induction gs; intros i; simpl; auto. f_equal; auto. Qed.

Lemma with_ids_number i gs : flat_map (fun p => number (fst p) (members (snd p))) (with_ids i gs) = number i (flat_map members gs).
Proof.
  revert i. induction gs as [|g gs IH]; intros i; simpl; auto. rewrite IH, number_app. auto.
Qed.

Lemma with_ids_pos i gs : 1 <= i -> Forall (fun p => 1 <= fst p) (with_ids i gs).
Proof.
  revert i. induction gs as [|g gs IH]; intros i Hi; simpl; constructor; auto. apply IH. unfold group_size. pose proof (zlen_nonneg (members g)). lia.
Qed.

Lemma reread_groups cw cr text gs : forall i bs, Forall2 (group_rel (prel (normal_columns cr))) (cell_groups cw text i gs) bs ->
  Forall2 (fun p h => reread_group cw cr text (fst p) (snd p) h) (with_ids i gs) bs.
Proof.
  induction gs as [|g gs IH]; intros i bs F; simpl in *; [inversion F; constructor|].
  destruct g as [t|t ws]; inversion F as [|? h ? hs G F2]; subst; destruct h as [r|r rs]; simpl in G; try contradiction; constructor; auto;
  apply IH; auto.
Qed.

Definition forms_ok (text : str) (g : group token) : Prop :=
  match g with GWord t => text_of text t <> [] | GRange t ws => doc_text_of text t <> [] end.

Lemma reread_group_ok cw cr text i g h : reread_group cw cr text i g h -> headed g -> forms_ok text g -> group_ok h.
Proof.
  destruct g as [t|t ws], h as [r|r rs]; simpl; try tauto.
  - intros P _ N. split; auto. apply reread_row in P. simpl. destruct P as (-> & _). auto.
  - intros [P F] I N. split.
    + simpl. apply reread_range in P. destruct P as (-> & _). auto.
    + intros ->. inversion F as [E|]. apply (f_equal zlen) in E. rewrite word_rows_length in E. apply headed_pos in I.
      change (zlen (@nil (list str))) with 0 in E. lia.
Qed.

(* ---- sentences ---- *)

Definition sentence_fit (p : str * list (group token)) : Prop :=
  snd p <> [] /\ Forall headed (snd p) /\ Forall (token_clean (fst p)) (flat_map members (snd p)) /\ Forall (forms_ok (fst p)) (snd p).

Lemma rows_wf cw text gs : forall i, Forall headed gs -> Forall (token_clean text) (flat_map members gs) ->
  Forall well_formed_row (expected_rows cw text i gs).
Proof.
  induction gs as [|g gs IH]; intros i H F; simpl; [constructor|]. inversion H; subst. simpl in F. apply Forall_app in F. destruct F as [F1 F2].
  destruct g as [t|t ws]; cbn in F1.
  - constructor; [apply wf_row; inversion F1; auto|]. apply IH; auto.
  - constructor; [apply wf_range|]. apply Forall_app. split; [|apply IH; auto].
    clear - F1. revert i. induction F1; intros i; simpl; constructor; auto. apply (wf_row cw text i x true); auto.
Qed.

Lemma Forall2_of_exists {A B} (R : A -> B -> Prop) l : Forall (fun a => exists b, R a b) l -> exists l', Forall2 R l l'.
Proof. induction 1 as [|a l [b Hb] F [l' IH]]; [exists []; constructor|exists (b :: l'); constructor; auto]. Qed.

Lemma group_rel_flip {A B} (P : A -> B -> Prop) g h : group_rel (fun b a => P a b) h g -> group_rel P g h.
Proof.
  destruct g, h; simpl; auto. intros [? F]. split; auto. clear - F. induction F; constructor; auto.
Qed.

Lemma Forall2_flip' {A B} (P : A -> B -> Prop) l l' : Forall2 (fun b a => P a b) l' l -> Forall2 P l l'.
Proof. induction 1; constructor; auto. Qed.

Lemma reread_sentence cw cr text gs : sentence_fit (text, gs) -> exists b,
  Forall2 (fun p h => reread_group cw cr text (fst p) (snd p) h) (with_ids 1 gs) b /\ block_ok b /\
  forall rest, parse [] None (events (normal_columns cr) (file_lines (sentence_text cw text gs ++ rest))) =
    (let (bs, t) := parse [] None (events (normal_columns cr) (file_lines rest)) in (b :: bs, t)).
Proof.
  intros (N & H & C & F). cbn in N, H, C, F.
  pose proof (rows_wf cw text gs 1 H C) as W.
  destruct (Forall2_of_exists (prel (normal_columns cr)) (expected_rows cw text 1 gs)) as [rows R].
  { eapply Forall_impl; [|exact W]. intros a. apply parse_line_total. }
  pose proof (cell_groups_grouped cw text gs 1 ltac:(lia) H) as G.
  destruct (grouped_transfer (fun r c => parse_line (normal_columns cr) c = Ok r) i_id row_id) with (rows := expected_rows cw text 1 gs)
    (gs := cell_groups cw text 1 gs) (crows := rows) as (b & G2 & RB); auto.
  { intros r c P. apply (ro_id _ _ _ (parse_line_row _ _ _ P)). }
  { apply Forall2_flip'. auto. }
  assert (RB' : Forall2 (group_rel (prel (normal_columns cr))) (cell_groups cw text 1 gs) b).
  { apply Forall2_flip'. eapply Forall2_impl; [|exact RB]. intros. apply group_rel_flip. auto. }
  pose proof (reread_groups cw cr text gs 1 b RB') as RG.
  assert (BO : Forall group_ok b).
  { assert (X : Forall (fun p => headed (snd p) /\ forms_ok text (snd p)) (with_ids 1 gs)).
    { apply Forall_forall. intros p Hp. apply (in_map snd) in Hp. rewrite with_ids_snd in Hp. rewrite Forall_forall in H, F. auto. }
    clear - RG X. induction RG as [|p h ps hs r RG IH]; constructor; inversion X as [|? ? [X1 X2] X3]; subst; auto.
    eapply reread_group_ok; eauto. }
  exists b. split; auto. split.
  { split; auto. intros ->. inversion RG as [E|]. destruct gs; [congruence|discriminate]. }
  intros rest. unfold sentence_text. rewrite <- app_assoc. rewrite rendered_lines by (apply fit_rows; auto; lia).
  assert (M : map (fun c => match parse_line (normal_columns cr) c with Ok r => EvRow r | Err e => EvErr e end) (expected_rows cw text 1 gs) = map EvRow rows).
  { clear - R. induction R as [|c r l l' P R IH]; simpl; auto. rewrite P, IH. auto. }
  rewrite M. rewrite (parse_grouped_ok rows b G2 BO). cbn [app parse].
  destruct b as [|g b]; auto. exfalso. inversion RG as [E|]. destruct gs; [congruence|discriminate].
Qed.

Lemma reread_sentences cw cr sents : Forall sentence_fit sents -> exists bs,
  parse [] None (events (normal_columns cr) (file_lines (concat (map (fun p => sentence_text cw (fst p) (snd p)) sents)))) = (bs, TEnd []) /\
  Forall2 (fun s b => Forall2 (fun p h => reread_group cw cr (fst s) (fst p) (snd p) h) (with_ids 1 (snd s)) b) sents bs /\ Forall block_ok bs.
Proof.
  induction 1 as [|[text gs] sents F Fs IH].
  - exists []. split; [reflexivity|]. split; constructor.
  - destruct IH as (bs & P & R & O). destruct (reread_sentence cw cr text gs F) as (b & R1 & O1 & P1).
    exists (b :: bs). split; [|split; constructor; auto]. cbn [map concat fst snd]. rewrite P1, P. auto.
Qed.

(* ---- text and tokens ---- *)

Record reread_tok (cw cr : list Z) (text : str) (p : Z * token) (t' : token) : Prop := {
  rt_span : tstart t' = tstart (snd p) /\ tend t' = tend (snd p) /\ tsub t' = tsub (snd p) /\ trepl t' = trepl (snd p);
  rt_fresh : thdoc t' = None /\ textras t' = [];
  rt_head : thsent t' = if chosen cr 6 then Some (written_head cw (fst p) (snd p) - 1) else None;
  rt_annot : exists b, annotated cr (expected_row cw text (fst p) (snd p) (spacing b)) t'
}.

Lemma space_after_gap pre form (gap : bool) rest t : tend t = zlen pre + zlen form ->
  (gap = false -> exists c rest', rest = c :: rest' /\ isspace_char c = false) ->
  space_after (pre ++ form ++ (if gap then [chSP] else []) ++ rest) t = gap.
Proof.
  intros E G. unfold space_after. rewrite E.
  assert (SL : forall c r, py_slice (pre ++ form ++ c :: r) (zlen pre + zlen form) (zlen pre + zlen form + 1) = [c]).
  { intros c r. replace (pre ++ form ++ c :: r) with ((pre ++ form) ++ [c] ++ r) by (rewrite <- app_assoc; auto).
    replace (zlen pre + zlen form) with (0 + zlen (pre ++ form)) by (rewrite zlen_app; lia).
    replace (0 + zlen (pre ++ form) + 1) with (1 + zlen (pre ++ form)) by lia.
    rewrite py_slice_mid by (simpl; unfold zlen; simpl; lia). reflexivity. }
  destruct gap.
  - cbn [app]. rewrite SL. cbn. apply orb_true_r.
  - destruct (G eq_refl) as (c & r & -> & Hc). cbn [app]. rewrite SL. cbn [isspace forallb]. rewrite Hc. cbn. rewrite orb_false_r.
    apply Z.eqb_neq. rewrite !zlen_app, zlen_cons. pose proof (zlen_nonneg r). lia.
Qed.

Lemma reread_words cw cr text off fin ws : forall i sub rs,
  Forall2 (fun c r => parse_line (normal_columns cr) c = Ok r) (word_rows cw text i ws) rs ->
  Forall (fun t => tstart t = off /\ tend t = fin) ws ->
  map tsub ws = map (fun k => sub + Z.of_nat k) (seq 0 (length ws)) -> Forall multiword ws ->
  Forall2 (reread_tok cw cr text) (number i ws) (range_tokens off fin sub rs).
Proof.
  induction ws as [|w ws IH]; intros i sub rs F SP NB MW; simpl in *; inversion F as [|? r ? rs' P F2]; subst; [constructor|].
  inversion SP as [|? ? [S1 S2] SP']; inversion MW as [|? ? M MW']; subst. injection NB as N1 N2.
  simpl. constructor.
  - pose proof (reread_row cw cr text i w true r P) as (T & _ & HD).
    constructor; simpl; auto.
    + split; auto. split; auto. split; [lia|]. rewrite T. unfold text_of. unfold multiword in M. destruct (trepl w); [auto|congruence].
    + rewrite HD. destruct (chosen cr 6); auto. rewrite compute_head_pred. auto.
    + exists true. apply (annotated_row cr _ r (tstart w) (tend w) sub (Some (i_text r)) _ P). unfold same_annot. auto.
  - apply IH; auto. rewrite N2. rewrite <- seq_shift, map_map. apply map_ext. intros k. lia.
Qed.

Lemma reread_layout cw cr text off gs body : spaced off gs body -> forall ps pre hs,
  map snd ps = gs -> text = pre ++ body -> zlen pre = off -> Forall headed gs ->
  Forall2 (fun p h => reread_group cw cr text (fst p) (snd p) h) ps hs ->
  surface hs = body /\ Forall2 (reread_tok cw cr text) (flat_map (fun p => number (fst p) (members (snd p))) ps) (layout off hs).
Proof.
  induction 1 as [off|off g gs form gap rest NE SP NB GAP SD IH]; intros ps pre hs E ET EO HD R.
  - destruct ps; [|discriminate]. inversion R; subst. split; [reflexivity|constructor].
  - destruct ps as [|[i g'] ps]; [discriminate|]. simpl in E. injection E as -> E. inversion R as [|? h ? hs' RG R2]; subst hs. subst. clear R.
    inversion HD as [|? ? HG HD']; subst. cbn [fst snd] in RG.
    set (text := pre ++ form ++ (if gap then [chSP] else []) ++ rest) in *.
    assert (DT : forall t, tstart t = zlen pre /\ tend t = zlen pre + zlen form -> doc_text_of text t = form /\ space_after text t = gap).
    { intros t [S1 S2]. split; [|apply space_after_gap; auto]. unfold doc_text_of. rewrite S1, S2. unfold text.
      apply py_slice_app. }
    assert (H1 : group_text h = form ++ (if gap then [chSP] else []) /\
                 Forall2 (reread_tok cw cr text) (number i (members g)) (group_tokens (zlen pre) h)).
    { destruct g as [t|t ws], h as [r|r rs]; simpl in RG; try contradiction; cbn [members] in *.
      - inversion SP as [|? ? ST _]; subst. destruct (DT t ST) as [D1 D2]. destruct NB as [NB1 NB2].
        pose proof (reread_row cw cr text i t _ r RG) as (T & S0 & HD0). 
        assert (T2 : i_text r = form). { rewrite T. unfold text_of. rewrite NB1. auto. }
        split; [unfold group_text; simpl; rewrite T2, S0, D2; auto|].
        simpl. constructor; [|constructor]. constructor; simpl; auto.
        + rewrite T2. destruct ST as [-> ->]. auto.
        + rewrite HD0. destruct (chosen cr 6); auto. rewrite compute_head_pred. auto.
        + exists (space_after text t). apply (annotated_row cr _ r (zlen pre) (zlen pre + zlen (i_text r)) 0 None _ RG). unfold same_annot. auto.
      - destruct RG as [P F]. pose proof (reread_range cr text i t _ r P) as (T & S0).
        cbn in HG. assert (ST := SP). rewrite Forall_forall in ST. destruct (DT t (ST t HG)) as [D1 D2]. destruct NB as [NB1 NB2].
        rewrite D1 in T. rewrite D2 in S0. split; [unfold group_text; simpl; rewrite T, S0; auto|].
        simpl. rewrite T. apply reread_words; auto. }
    destruct H1 as [GT GK].
    destruct (IH ps (pre ++ form ++ (if gap then [chSP] else [])) hs') as [S1 F1]; auto.
    + unfold text. rewrite <- !app_assoc. auto.
    + rewrite !zlen_app. destruct gap; [change (zlen [chSP]) with 1|change (zlen (@nil char)) with 0]; lia.
    + split.
      * unfold surface in *. cbn [map concat]. rewrite GT, S1, <- app_assoc. auto.
      * cbn [flat_map layout fst snd]. apply Forall2_app; auto.
        assert (ZG : zlen (group_text h) = zlen form + (if gap then 1 else 0)).
        { rewrite GT, zlen_app. destruct gap; auto. }
        rewrite ZG. rewrite Z.add_assoc. exact F1.
Qed.

(* ---- documents ---- *)

Fixpoint layouts (off : Z) (acc : list block) : list (list token) :=
  match acc with [] => [] | b :: acc' => layout off b :: layouts (off + zlen (surface b)) acc' end.

Lemma layouts_concat acc : forall off, concat (layouts off acc) = layout off (concat acc).
Proof. induction acc as [|b acc IH]; intros off; simpl; auto. rewrite IH, layout_app. auto. Qed.

Lemma layouts_app acc acc' : forall off, layouts off (acc ++ acc') = layouts off acc ++ layouts (off + zlen (surface (concat acc))) acc'.
Proof.
  induction acc as [|b acc IH]; intros off; simpl.
  - change (zlen (surface [])) with 0. rewrite Z.add_0_r. auto.
  - rewrite IH, surface_app, zlen_app. do 3 f_equal. lia.
Qed.

Lemma concat_snoc {A} (l : list (list A)) x : concat (l ++ [x]) = concat l ++ x.
Proof. rewrite concat_app. simpl. rewrite app_nil_r. auto. Qed.

Lemma bounds_layouts acc : forall acc1, Forall2 (fun s lay => tokens_of (layout 0 (concat (acc1 ++ acc))) s = lay)
  (bounds (count (concat acc1)) acc) (layouts (zlen (surface (concat acc1))) acc).
Proof.
  induction acc as [|b acc IH]; intros acc1; simpl; constructor.
  - apply tokens_of_block.
  - specialize (IH (acc1 ++ [b])). rewrite <- app_assoc in IH. rewrite (concat_snoc acc1 b) in IH.
    rewrite count_app, surface_app, zlen_app in IH. exact IH.
Qed.

Lemma fill_all_layouts acc : fill_all (layout 0 (concat acc)) (bounds 0 acc) =
  concat (map (fun p => map (fill (sstart (fst p))) (snd p)) (combine (bounds 0 acc) (layouts 0 acc))).
Proof.
  unfold fill_all. f_equal. pose proof (bounds_layouts acc []) as H. simpl in H. change (count []) with 0 in H. change (zlen (surface [])) with 0 in H.
  induction H as [|s lay ss lays E H IH]; simpl; auto. rewrite E, IH. auto.
Qed.

Lemma Forall2_nth2 {A B} (R : A -> B -> Prop) l l' a b l1 l2 l1' l2' :
  Forall2 R l l' -> l = l1 ++ a :: l2 -> l' = l1' ++ b :: l2' -> length l1 = length l1' -> R a b.
Proof.
  intros F -> ->. revert l1' F. induction l1 as [|x l1 IH]; intros [|y l1'] F L; simpl in *; try discriminate; inversion F; subst; auto.
  eapply IH; eauto.
Qed.

Lemma doc_of_ok' acc d : Forall block_ok acc -> acc <> [] ->
  (doc_of acc [] = Ok d <->
   d = raw_doc acc /\ Forall2 (fun s lay => well_parsed (map (fill (sstart s)) lay)) (bounds 0 acc) (layouts 0 acc)).
Proof.
  intros O N. rewrite doc_of_ok by auto. split; intros [-> H]; split; auto.
  - assert (X : forall acc1 acc2, acc = acc1 ++ acc2 ->
      Forall2 (fun s lay => well_parsed (map (fill (sstart s)) lay)) (bounds (count (concat acc1)) acc2) (layouts (zlen (surface (concat acc1))) acc2)).
    { intros acc1 acc2; revert acc1. induction acc2 as [|b acc2 IH]; intros acc1 E; simpl; constructor.
      - apply (H acc1 b acc2 E).
      - specialize (IH (acc1 ++ [b])). rewrite <- app_assoc in IH. rewrite (concat_snoc acc1 b) in IH.
        rewrite count_app, surface_app, zlen_app in IH. apply IH. auto. }
    apply (X [] acc eq_refl).
  - intros acc1 b acc2 E.
    refine (Forall2_nth2 _ _ _ (sent_at acc1 b) _ (bounds 0 acc1) _ (layouts 0 acc1) _ H _ _ _).
    + rewrite E. apply bounds_split.
    + rewrite E, layouts_app. cbn [layouts]. reflexivity.
    + rewrite bounds_length. clear. generalize 0. induction acc1; intros z; simpl; auto.
Qed.

Lemma grouped_members ts gs : grouped_tokens ts gs -> flat_map members gs = ts /\ Forall headed gs.
Proof.
  induction 1 as [|t ts gs M G [IH1 IH2]|t us ts gs M F X G [IH1 IH2]]; simpl; [auto| |].
  - rewrite IH1. split; auto. constructor; simpl; auto.
  - rewrite IH1. split; auto. constructor; simpl; auto.
Qed.

Lemma flat_map_concat_map {A B} (f : A -> list B) l : flat_map f l = concat (map f l).
Proof. induction l; simpl; auto. rewrite IHl. auto. Qed.

Lemma Forall2_concat_inv {A B} (R : A -> B -> Prop) xs : forall ys, Forall2 (fun x y => length x = length y) xs ys ->
  Forall2 R (concat xs) (concat ys) -> Forall2 (Forall2 R) xs ys.
Proof.
  intros ys L. induction L as [|x y xs ys E L IH]; intros F; constructor; simpl in F.
  - apply Forall2_app_inv_l in F. destruct F as (l1 & l2 & F1 & F2 & E2).
    assert (l1 = y). { apply Forall2_length' in F1. assert (length l1 = length y) by congruence. clear - E2 H.
      revert y E2 H. induction l1; intros [|z y] E H; simpl in *; try discriminate; auto. injection E as <- E. f_equal. apply IHl1; auto. }
    subst. auto.
  - apply Forall2_app_inv_l in F. destruct F as (l1 & l2 & F1 & F2 & E2).
    assert (l1 = y). { apply Forall2_length' in F1. assert (length l1 = length y) by congruence. clear - E2 H.
      revert y E2 H. induction l1; intros [|z y] E H; simpl in *; try discriminate; auto. injection E as <- E. f_equal. apply IHl1; auto. }
    subst. apply app_inv_head in E2. subst. auto.
Qed.

Lemma tiles_bounds acc : forall a e ss, tiles a e ss ->
  Forall2 (fun s b => send s - sstart s = count b) ss acc -> bounds a acc = ss.
Proof.
  induction acc as [|b acc IH]; intros a e ss T F; inversion F as [|s ? ss' ? E F2]; subst; auto.
  inversion T as [|? ? ? ? T1 T2 T3]; subst. simpl. f_equal.
  - destruct s as [x y]; simpl in *. f_equal; lia.
  - rewrite <- E. replace (sstart s + (send s - sstart s)) with (send s) by lia. eapply IH; eauto.
Qed.

Lemma doc_reread cw cr d gss bs : doc_inv d -> sentence_groups d gss -> spaced 0 (concat gss) (dtext d) ->
  Forall2 (fun gs b => Forall2 (fun p h => reread_group cw cr (dtext d) (fst p) (snd p) h) (with_ids 1 gs) b) gss bs ->
  surface (concat bs) = dtext d /\ bounds 0 bs = dsents d /\
  Forall2 (fun s lay => Forall2 (reread_tok cw cr (dtext d)) (number 1 (tokens_of (dtokens d) s)) lay) (dsents d) (layouts 0 bs).
Proof.
  intros I G SP R.
  assert (HD : Forall headed (concat gss)).
  { apply Forall_concat. clear - G. induction G; constructor; auto. apply (grouped_members _ _ H). }
  destruct (reread_layout cw cr (dtext d) 0 _ _ SP (concat (map (with_ids 1) gss)) [] (concat bs)) as [S1 F]; auto.
  { clear. induction gss as [|gs gss IH]; simpl; auto. rewrite map_app, IH, with_ids_snd. auto. }
  { apply Forall2_concat. clear - R. induction R; simpl; constructor; auto. }
  split; auto.
  rewrite flat_map_concat_map, concat_map, map_map in F. rewrite <- layouts_concat in F.
  assert (CC : concat (concat (map (fun x => map (fun p => number (fst p) (members (snd p))) (with_ids 1 x)) gss)) =
               concat (map (fun s => number 1 (tokens_of (dtokens d) s)) (dsents d))).
  { clear - G. induction G as [|s gs ss gss g G IH]; auto. cbn [map concat]. rewrite concat_app, IH. f_equal.
    rewrite <- flat_map_concat_map, with_ids_number. f_equal. apply grouped_members. auto. }
  rewrite CC in F.
  assert (CNT : Forall2 (fun s b => send s - sstart s = count b) (dsents d) bs).
  { assert (X : forall s, In s (dsents d) -> zlen (tokens_of (dtokens d) s) = send s - sstart s).
    { intros s Hs. destruct (doc_inv_sentences _ I _ Hs) as (Ws & He & _). unfold sent_wf in Ws. apply tokens_of_length; lia. }
    clear - G R X. revert bs R. induction G as [|s gs ss gss g G IH]; intros bs R; inversion R as [|? b ? bs' R1 R2]; subst; constructor.
    - rewrite <- X by (left; auto). destruct (grouped_members _ _ g) as [<- _].
      unfold count. clear - R1. revert R1. generalize 1 at 1. generalize 0 at 1. revert b. induction gs as [|x gs IH]; intros b z o R1; inversion R1 as [|? h ? hs RG R2]; subst; auto.
      cbn [flat_map layout]. rewrite !zlen_app. erewrite IH by exact R2. f_equal.
      destruct x as [t|t ws], h as [r|r rs]; simpl in RG; try contradiction; cbn; auto.
      destruct RG as [_ RG]. apply Forall2_length' in RG. pose proof (word_rows_length cw (dtext d) ws o) as L.
      unfold zlen in *. rewrite range_tokens_length. lia.
    - apply IH; auto. intros. apply X. right; auto. }
  split.
  - eapply tiles_bounds; [apply (inv_tiles d I)|exact CNT].
  - apply Forall2_concat_inv in F.
    + clear - F. revert F. generalize (layouts 0 bs). induction (dsents d) as [|s ss IH]; intros l F; inversion F; subst; constructor; auto.
    + assert (X : forall s, In s (dsents d) -> zlen (tokens_of (dtokens d) s) = send s - sstart s).
      { intros s Hs. destruct (doc_inv_sentences _ I _ Hs) as (Ws & He & _). unfold sent_wf in Ws. apply tokens_of_length; lia. }
      clear - CNT X. revert CNT. generalize 0. revert bs. induction (dsents d) as [|s ss IH]; intros bs z CNT; inversion CNT as [|? b ? bs' C1 C2]; subst; simpl; constructor.
      * rewrite number_length. specialize (X s (or_introl eq_refl)). pose proof (count_layout z b). unfold zlen in *. lia.
      * apply IH; auto. intros. apply X. right; auto.
Qed.
