(* The documents read from a gold file, written and loaded again. *)
From Coq Require Import String Ascii ZArith NArith QArith Bool Sorted Permutation Lia List.
From Verif Require Import Base BaseFacts Model_Datamodel Model_Conllu Spec_Datamodel Spec_Conllu Proofs_Datamodel Proofs_Conllu Proofs_Conllu2 Proofs_Conllu3 Proofs_Conllu4 Proofs_Conllu5 Proofs_Conllu6 Proofs_Conllu7 Proofs_Conllu8 Proofs_Conllu9 Proofs_Conllu10
  Model_UDEval Spec_UDEval Proofs_UDEval Proofs_UDEval4 Proofs_UDEval5 Proofs_UDEval6 Proofs_UDEval9 Spec_Processors Proofs_Processors Model_Tester Spec_Tester Proofs_Tester3 Proofs_Tester4 Proofs_Tester5
  Spec_Goldfile Proofs_Goldfile Proofs_Goldfile2 Proofs_Goldfile3 Proofs_Goldfile4.
Import ListNotations.
Open Scope Z_scope.

Definition sentence_of (lines : list str) (gs : list (group (list str))) : Prop :=
  exists rows, sentence_lines lines rows /\ grouped row_id rows gs.

(* a document with the one sentence of the groups gs *)
Definition read_one (gs : list (group (list str))) (d : document) : Prop :=
  exists ps, laid_out 0 gs ps (dtokens d) /\ dtext d = concat ps /\
    (exists s, dsents d = [s]) /\
    Forall2 (fun w t => annotated default_columns (snd (fst w)) t) (flat_map words_of gs) (dtokens d).

Lemma read_ones lss ds : Forall2 (reads default_columns) lss ds -> Forall (fun d => 1 <= zlen (dsents d) <= 1 /\ dtokens d <> []) ds ->
  exists ls gss, lss = map (fun l => [l]) ls /\ Forall2 sentence_of ls gss /\ Forall2 read_one gss ds.
Proof.
  induction 1 as [|lines d lss ds (gss & ps & G & L & Tx & Z & A) F IH]; intros O.
  - exists [], []. split; [reflexivity|]. split; constructor.
  - inversion O as [|? ? [O1 _] O2]; subst. destruct (IH O2) as (ls & gss' & -> & S & R).
    destruct (dsents d) as [|s [|s' ss]] eqn:Es; unfold zlen in O1; cbn [length] in O1; try lia.
    inversion Z as [|gs ? ? ? Z1 Z2]; subst. inversion Z2; subst. inversion G as [|l ? ? ? G1 G2]; subst. inversion G2; subst.
    exists (l :: ls), (gs :: gss'). split; [reflexivity|]. split; constructor; auto.
    cbn [concat] in L, A. rewrite app_nil_r in L, A. exists ps. split; auto. split; auto. split; eauto.
Qed.

Lemma tokens_of_one d s : doc_inv d -> dsents d = [s] -> tokens_of (dtokens d) s = dtokens d.
Proof.
  intros V E. pose proof (inv_tiles _ V) as T. rewrite E in T. inversion T as [|? ? ? ? A B C]; subst. inversion C; subst.
  unfold tokens_of. rewrite A, Z.sub_0_r. change (Z.to_nat 0) with 0%nat. cbn [skipn].
  match goal with H : send s = _ |- _ => rewrite H | H : _ = send s |- _ => rewrite <- H end. unfold zlen. rewrite Nat2Z.id. apply firstn_all.
Qed.

Lemma Forall2_and {A B} (P Q : A -> B -> Prop) l l' : Forall2 P l l' -> Forall2 Q l l' -> Forall2 (fun a b => P a b /\ Q a b) l l'.
Proof. induction 1; intros H1; inversion H1; subst; constructor; auto. Qed.
Lemma Forall2_left {A B} (P : A -> Prop) (Q : A -> B -> Prop) l l' : Forall P l -> Forall2 Q l l' -> Forall2 (fun a b => P a /\ Q a b) l l'.
Proof. intros F. induction 1; inversion F; subst; constructor; auto. Qed.
Lemma Forall2_right {A B} (P : B -> Prop) (Q : A -> B -> Prop) l l' : Forall P l' -> Forall2 Q l l' -> Forall2 (fun a b => P b /\ Q a b) l l'.
Proof. intros F. induction 1; inversion F; subst; constructor; auto. Qed.
Lemma Forall2_to_r {A B} (P : B -> Prop) (Q : A -> B -> Prop) l l' : (forall a b, Q a b -> P b) -> Forall2 Q l l' -> Forall P l'.
Proof. intros H. induction 1; constructor; eauto. Qed.

(* ---- no carriage returns ---- *)

Record token_plain (text : str) (t : token) : Prop := {
  tp_text : ~ In chCR (text_of text t);
  tp_surface : ~ In chCR (doc_text_of text t);
  tp_lemma : forall s, tlemma t = Some s -> ~ In chCR s;
  tp_deprel : forall s, tdeprel t = Some s -> ~ In chCR s;
  tp_tags : forall p, tpos t = Some p -> (forall s, upos p = Some s -> ~ In chCR s) /\ (forall s, xpos p = Some s -> ~ In chCR s) /\
              Forall (fun kv => ~ In chCR (fst kv) /\ ~ In chCR (snd kv)) (feats p)
}.

Lemma opt_plain c n s : ~ In chCR (cell c n) -> cell_opt c n = Some s -> ~ In chCR s.
Proof. unfold cell_opt. destruct (str_eqb _ _); congruence. Qed.

Lemma read_word_plain text w t : read_word text w t -> (forall n, ~ In chCR (cell (fst (fst w)) n)) -> (forall n, ~ In chCR (cell (snd (fst w)) n)) -> token_plain text t.
Proof.
  intros (D & T & [L R H G _] & (_ & _ & FF) & _) C1 C2.
  assert (W : forall n, In n [2; 3; 4; 5; 6; 7] -> wants default_columns n) by exact default_wants.
  destruct L as [L _]. destruct R as [R _]. destruct G as (p & Ep & G1 & G2 & G3); [left; apply W; cbn; auto|].
  split.
  - now rewrite T.
  - now rewrite D.
  - intros s Es. rewrite L in Es by (apply W; cbn; auto 10). exact (opt_plain _ _ _ (C2 _) Es).
  - intros s Es. rewrite R in Es by (apply W; cbn; auto 10). exact (opt_plain _ _ _ (C2 _) Es).
  - intros q Eq. assert (q = p) by congruence. subst q. destruct G1 as [G1 _], G2 as [G2 _], G3 as [G3 _].
    split; [intros s Es; rewrite G1 in Es by (apply W; cbn; auto 10); exact (opt_plain _ _ _ (C2 _) Es)|].
    split; [intros s Es; rewrite G2 in Es by (apply W; cbn; auto 10); exact (opt_plain _ _ _ (C2 _) Es)|].
    apply Forall_forall. intros [k v] Hkv. cbn [fst snd]. destruct (FF p Ep) as (_ & _ & _ & N).
    apply In_dict_get in Hkv; [|exact N]. rewrite G3 in Hkv by (apply W; cbn; auto 10).
    unfold cell_opt in Hkv. destruct (str_eqb (cell (snd (fst w)) 5) (of_string "_")); [discriminate|]. cbn [value_in] in Hkv.
    destruct (find _ _) as [e|] eqn:Fe; [|discriminate]. injection Hkv as Ev. apply find_some in Fe as [Ie Ke]. apply str_eqb_eq in Ke. apply in_rev in Ie.
    assert (X : ~ In chCR e) by (intros X; apply (C2 5%nat); eapply in_split_in; eauto).
    split; intros Y; apply X; subst k v; unfold entry_key, entry_value in Y.
    + destruct (split 61%N e) as [|a l] eqn:E; [destruct Y|]. eapply (in_split_in 61%N e a); [rewrite E; now left|exact Y].
    + destruct (nth_in_or_default 1 (split 61%N e) []) as [I|I]; [|rewrite I in Y; destruct Y]. eapply in_split_in; eauto.
Qed.

Lemma print_plain z : ~ In chCR (print_Z z).
Proof. intros I. pose proof (print_Z_chars z) as H. rewrite Forall_forall in H. apply H in I. unfold is_digit in I. destruct I; [vm_compute in H0; intuition congruence|discriminate]. Qed.

Lemma underscore_plain : ~ In chCR (of_string "_").
Proof. intros [X|[]]. discriminate. Qed.
Lemma spacing_plain b : ~ In chCR (spacing b).
Proof. destruct b; [apply underscore_plain|]. intros X. cbn in X. repeat (destruct X as [X|X]; [discriminate|]). destruct X. Qed.
Lemma shown_plain o : (forall s, o = Some s -> ~ In chCR s) -> ~ In chCR (shown o).
Proof. destruct o; cbn [shown]; auto using underscore_plain. Qed.

Lemma feats_plain fs : Forall (fun kv => ~ In chCR (fst kv) /\ ~ In chCR (snd kv)) fs -> ~ In chCR (feats_cell fs).
Proof.
  intros F. destruct fs as [|a fs]; [apply underscore_plain|]. rewrite feats_cell_eq by discriminate. intros X. apply join_in in X as [X|(e & Ie & X)]; [discriminate|].
  apply (Permutation_in _ (Permutation_sym (isort_perm str_leb _))) in Ie. apply in_map_iff in Ie as (kv & <- & Ikv). rewrite Forall_forall in F. destruct (F kv Ikv) as [F1 F2].
  unfold entry_text in X. apply in_app_or in X as [X|[X|X]]; auto. discriminate.
Qed.

Lemma row_plain text i t misc : token_plain text t -> ~ In chCR misc -> Forall (fun c => ~ In chCR c) (expected_row default_columns text i t misc).
Proof.
  intros [T S L D G] M. rewrite row_eq. repeat (apply Forall_cons); auto using print_plain, underscore_plain.
  - now apply shown_plain.
  - apply shown_plain. unfold upos_of. destruct (tpos t) as [p|]; [apply (G p eq_refl)|discriminate].
  - apply shown_plain. unfold xpos_of. destruct (tpos t) as [p|]; [apply (G p eq_refl)|discriminate].
  - apply feats_plain. unfold feats_of. destruct (tpos t) as [p|]; [apply (G p eq_refl)|constructor].
  - destruct (thsent t); apply print_plain.
  - destruct (thsent t); [now apply shown_plain|apply underscore_plain].
Qed.

Lemma rows_plain text ts gs : grouped_tokens ts gs -> Forall (token_plain text) ts -> forall i,
  Forall (Forall (fun c => ~ In chCR c)) (expected_rows default_columns text i gs).
Proof.
  induction 1 as [|t ts gs M G IH|t us ts gs M F X G IH]; intros P i; cbn [expected_rows]; [constructor| |].
  - inversion P; subst. constructor; auto. apply row_plain; auto using spacing_plain.
  - change (t :: us ++ ts) with ((t :: us) ++ ts) in P. apply Forall_app in P as [P1 P2]. constructor.
    + inversion P1 as [|? ? [_ S _ _ _] _]; subst. unfold expected_range. repeat (apply Forall_cons); auto using underscore_plain, spacing_plain.
      intros Y. apply in_app_or in Y as [Y|[Y|Y]]; [now apply print_plain in Y|discriminate|now apply print_plain in Y].
    + apply Forall_app. split; auto. clear -P1. revert i. induction P1 as [|w ws W P IH]; intros i; cbn [word_rows]; constructor; auto.
      apply row_plain; auto using underscore_plain.
Qed.

Lemma doc_out_plain d gss : sentence_groups d gss -> Forall (token_plain (dtext d)) (dtokens d) -> ~ In chCR (doc_out default_columns d gss).
Proof.
  unfold sentence_groups, doc_out. intros G P X. apply in_concat in X as (s & Is & X). apply in_map_iff in Is as (gs & <- & Ig).
  apply in_app_or in X as [X|[X|[]]]; [|discriminate]. unfold rendered in X. apply in_concat in X as (l & Il & X). apply in_map_iff in Il as (cells & <- & Ic).
  apply in_app_or in X as [X|[X|[]]]; [|discriminate]. apply join_in in X as [X|(c & Jc & X)]; [discriminate|].
  assert (Y : exists ts, grouped_tokens ts gs /\ incl ts (dtokens d)).
  { clear -G Ig. induction G as [|s gs0 ss gss G0 G IH]; [destruct Ig|]. destruct Ig as [->|Ig]; auto. eexists. split; [exact G0|]. intros t. apply tokens_of_in. }
  destruct Y as (ts & Gt & In_). rewrite Forall_forall in P. assert (Pt : Forall (token_plain (dtext d)) ts) by (apply Forall_forall; auto).
  pose proof (rows_plain _ _ _ Gt Pt 1) as Q. rewrite Forall_forall in Q. specialize (Q cells Ic). rewrite Forall_forall in Q. exact (Q c Jc X).
Qed.

Lemma one_document text ds d lines gs hs : read_str 1 default_columns text = Ok (ds, None) -> In d ds ->
  Forall (fun l => In l (file_lines text)) lines -> sentence_of lines gs -> read_one gs d -> tokens_nonempty gs -> tree_heads gs hs -> ~ In chCR text ->
  loadable d /\ Forall (token_plain (dtext d)) (dtokens d) /\ exists tgs, sentence_groups d [tgs] /\ Forall2 group_like gs (cell_groups default_columns (dtext d) 1 tgs).
Proof.
  intros R I HL (rows & SL & GR) (ps & L & Tx & (s & Es) & A) NE [HA DT] CR0.
  assert (V : doc_inv d) by (apply built_inv; exact (reader_constructed _ _ _ _ _ _ R I)).
  pose proof (tokens_of_one d s V Es) as To. pose proof (read_fields _ _ _ _ _ R I) as FF.
  pose proof (grouped_in _ _ _ GR) as GI.
  (* the cells are clean *)
  assert (CR : Forall (Forall clean) rows).
  { eapply Forall_impl; [|exact (sentence_rows _ _ SL)]. intros r (l & Il & <-). rewrite Forall_forall in HL. eapply cells_clean; eauto. }
  assert (CW : Forall (fun w : list str * list str * bool => squeeze (cell (fst (fst w)) 1) <> [] /\ clean (cell (fst (fst w)) 1) /\ clean (cell (snd (fst w)) 1)) (flat_map words_of gs)).
  { clear -NE GI CR. rewrite Forall_forall in CR. induction GI as [|g gs (N & Sg & Wg) GI IH]; [constructor|]. inversion NE as [|? ? N1 N2]; subst.
    cbn [flat_map]. apply Forall_app. split; auto. rewrite Forall_forall in Wg |- *. intros w Hw.
    assert (X : fst (fst w) = surface_row g).
    { destruct g as [c|c cs]; cbn [words_of surface_row] in *; [destruct Hw as [<-|[]]; reflexivity|]. apply in_map_iff in Hw as (x & <- & _). reflexivity. }
    rewrite X. split; [exact N1|]. split; apply cell_clean; apply CR; auto. }
  assert (PR : Forall (fun r => forall n, ~ In chCR (cell r n)) rows).
  { eapply Forall_impl; [|exact (sentence_rows _ _ SL)]. intros r (l & Il & <-) n X. apply CR0. rewrite Forall_forall in HL. eapply file_lines_chars; [exact (HL l Il)|].
    apply strip_crlf_in. unfold cell, cells_of in X. destruct (nth_in_or_default n (split chTAB (strip_crlf l)) []) as [Y|Y]; [|rewrite Y in X; destruct X].
    eapply in_split_in; eauto. }
  assert (PW : Forall (fun w : list str * list str * bool => (forall n, ~ In chCR (cell (fst (fst w)) n)) /\ (forall n, ~ In chCR (cell (snd (fst w)) n))) (flat_map words_of gs)).
  { clear -GI PR. rewrite Forall_forall in PR. induction GI as [|g gs (N & Sg & Wg) GI IH]; [constructor|].
    cbn [flat_map]. apply Forall_app. split; auto. rewrite Forall_forall in Wg |- *. intros w Hw.
    assert (X : fst (fst w) = surface_row g).
    { destruct g as [c|c cs]; cbn [words_of surface_row] in *; [destruct Hw as [<-|[]]; reflexivity|]. apply in_map_iff in Hw as (x & <- & _). reflexivity. }
    rewrite X. split; apply PR; auto. }
  (* what the tokens show *)
  assert (SLC : Forall2 (fun (w : list str * list str * bool) t => doc_text_of (dtext d) t = cell (fst (fst w)) 1 /\ text_of (dtext d) t = cell (snd (fst w)) 1) (flat_map words_of gs) (dtokens d)).
  { destruct (reads_slices default_columns [lines] d) as (gss & G & S).
    - exists [gs], ps. split; [constructor; [exists rows; auto|constructor]|]. cbn [concat]. rewrite app_nil_r. split; auto. split; auto. split; auto.
      rewrite Es. constructor; [|constructor]. pose proof (inv_tiles _ V) as T. rewrite Es in T. inversion T as [|? ? ? ? A1 B1 C1]; subst. inversion C1; subst.
      rewrite A1. unfold zlen. rewrite (Forall2_length' _ _ _ A). match goal with H : send s = _ |- _ => rewrite H | H : _ = send s |- _ => rewrite <- H end. unfold zlen. lia.
    - inversion G as [|? gs' ? ? (rows' & SL' & GR') G2]; subst. inversion G2; subst. cbn [concat] in S. rewrite app_nil_r in S.
      assert (rows' = rows).
      { clear -SL SL'. revert rows SL. induction SL' as [l B|l ls r C S IH|l ls r C S IH]; intros rows SL; inversion SL as [? B'|? ? ? C' S'|? ? ? C' S']; subst; auto.
        - inversion S'. 
        - inversion S'.
        - inversion S.
        - destruct C' as [X _]. contradiction.
        - inversion S.
        - destruct C as [X _]. contradiction.
        - f_equal. auto. }
      subst rows'. assert (gs' = gs).
      { clear -GR GR'. revert gs GR. induction GR' as [|r rs gs' i I1 J G IH|r rs gs' i I1 J K G IH|r ws rs gs' sa sb a b I1 J Na Nb Pa Pb Nw Lw G IH]; intros gs GR.
        - inversion GR; auto.
        - inversion GR as [|? ? ? i' I2 J2 G2|? ? ? i' I2 J2 K2 G2|? ws2 rs2 ? sa2 sb2 a2 b2 I2 J2]; subst; auto; rewrite I1 in I2; injection I2 as E2; rewrite E2 in J; contradiction.
        - inversion GR as [|? ? ? i' I2 J2 G2|? ? ? i' I2 J2 K2 G2|? ws2 rs2 ? sa2 sb2 a2 b2 I2 J2]; subst.
          + rewrite I1 in I2; injection I2 as E2; rewrite E2 in *; contradiction.
          + f_equal; auto.
          + rewrite I1 in I2; injection I2 as E2. exfalso. apply K. rewrite E2. apply in_or_app. right. now left.
        - inversion GR as [|? ? ? i' I2 J2 G2|? ? ? i' I2 J2 K2 G2|? ws2 rs2 ? sa2 sb2 a2 b2 I2 J2 Na2 Nb2 Pa2 Pb2 Nw2 Lw2 G2]; subst.
          + rewrite I1 in I2; injection I2 as E2; rewrite E2 in *; contradiction.
          + rewrite I1 in I2. injection I2 as E2. exfalso. apply K2. rewrite <- E2. apply in_or_app. right. now left.
          + rewrite I1 in I2. injection I2 as E2. destruct (split_at_dash _ _ _ _ E2 Na Na2) as [-> ->].
            assert (a2 = a) by congruence. assert (b2 = b) by congruence. subst a2 b2.
            match goal with H : ws2 ++ rs2 = ws ++ rs |- _ => destruct (app_same_length ws ws2 rs rs2 (eq_sym H)) as [-> ->] end; [unfold zlen in *; lia|].
            f_equal; auto. }
      subst gs'. eapply Forall2_impl; [|exact S]. intros [[a b] c] t. cbn [fst snd]. intros (X & _ & Y). split; auto. }
  assert (HH : Forall2 (fun (w : list str * list str * bool) h => parse_int (cell (snd (fst w)) 6) = Ok h) (flat_map words_of gs) hs).
  { unfold heads_are in HA. revert HA. generalize (zlen (word_cells gs)). unfold word_cells. generalize (flat_map words_of gs). clear. intros ws n HA.
    revert hs HA. induction ws as [|w ws IH]; intros hs HA; cbn [map] in HA; inversion HA as [|? ? ? ? [X _] ?]; subst; constructor; auto. }
  assert (RW : Forall2 (read_word (dtext d)) (flat_map words_of gs) (dtokens d)).
  { assert (HE : Forall (fun w : list str * list str * bool => exists h, parse_int (cell (snd (fst w)) 6) = Ok h) (flat_map words_of gs)).
    { clear -HH. induction HH; constructor; eauto. }
    pose proof (Forall2_left _ _ _ _ HE (Forall2_right _ _ _ _ FF (Forall2_and _ _ _ _ A SLC))) as X. eapply Forall2_impl; [|exact X].
    cbn beta. intros w t (H1 & H2 & H3 & H4 & H5). repeat (split; auto). }
  split; [|split].
  - split.
    + eapply Forall2_to_r; [|exact (Forall2_left _ _ _ _ CW RW)]. cbn beta. intros w t ((C1 & C2 & C3) & (T1 & T2 & _ & (F1 & F2 & F3) & _)).
      split; auto; [now rewrite T2|now rewrite T1|]. intros p Ep. destruct (F3 p Ep) as (X1 & X2 & X3 & _). auto.
    + eapply Forall2_to_r; [|exact (Forall2_left _ _ _ _ CW RW)]. cbn beta. intros w t ((C1 & C2 & C3) & (T1 & _)). now rewrite T1.
    + intros s' Hs. rewrite Es in Hs. destruct Hs as [<-|[]]. right. rewrite To.
      replace (map thsent (dtokens d)) with (map (fun h => Some (h - 1)) hs); [exact DT|].
      clear -HH A. revert hs HH. induction A as [|w t ws ts [_ _ H _ _] A IH]; intros hs HH; inversion HH as [|? h ? ? P HH']; subst; [reflexivity|].
      cbn [map]. f_equal; auto. destruct H as [H _]. destruct H as [[X _]|[_ (h' & X & Y)]]; [apply default_wants; cbn; auto 10| |congruence].
      unfold cell_opt in X. destruct (str_eqb (cell (snd (fst w)) 6) (of_string "_")) eqn:E; [|discriminate]. apply str_eqb_eq in E. rewrite E in P. discriminate P.
  - eapply Forall2_to_r; [|exact (Forall2_left _ _ _ _ PW RW)]. cbn beta. intros w t ((C1 & C2) & X). eapply read_word_plain; eauto.
  - destruct (groups_match (read_word (dtext d)) 0 gs ps (dtokens d) L) as (tgs & G & M); auto.
    + clear -GI NE. induction GI as [|g gs (N & _) GI IH]; inversion NE as [|? ? N1 N2]; subst; constructor; auto. split; auto.
      unfold group_chars in N1. intros X. rewrite X in N1. now apply N1.
    + exists tgs. split; [unfold sentence_groups; rewrite Es; constructor; [rewrite To; exact G|constructor]|]. now apply written_groups_like.
Qed.

Theorem gold_written contents gold u :
  read_file 1 default_columns contents = Ok (gold, None) -> load_conllu_file contents = Ok u ->
  ud_heads_nonneg (universal_newlines contents) -> rows_uncommented (universal_newlines contents) ->
  Forall built gold /\ Forall loadable gold /\ Forall distinct_features gold /\
  (exists gsss, Forall2 sentence_groups gold gsss /\ Forall no_pending gsss) /\
  exists out u', write_str default_columns gold = Ok out /\ ~ In chCR out /\ load_conllu out = Ok u' /\
    ud_alike [1; 2; 3; 4; 7]%nat u u' /\
    (all_feats_ordered (universal_newlines contents) -> ud_alike [1; 2; 3; 4; 7; 5]%nat u u').
Proof.
  unfold read_file, load_conllu_file. pose proof (newlines_no_cr contents) as CR. revert CR. generalize (universal_newlines contents). intros text CR R E NN UC.
  destruct (reader_faithful _ _ _ _ _ R) as (lss & rest & EL & RD & IG). specialize (IG eq_refl).
  destruct (read_ones lss gold RD (proj2 (reader_chunks _ _ _ _ _ R))) as (ls & gss & -> & SO & RO).
  destruct (load_trees _ _ NN E) as (gss0 & hss & UL & TR & _).
  assert (C1 : concat (map (fun l : list str => [l]) ls) = ls) by (clear; induction ls as [|l ls IH]; [reflexivity|]; cbn [map concat app]; now rewrite IH).
  rewrite C1 in EL.
  assert (Here : Forall (fun l => In l (file_lines text)) (file_lines text)) by (apply Forall_forall; auto).
  assert (gss = gss0) by (eapply (file_grouped text CR UC (file_lines text)); eauto). subst gss0.
  pose proof (lines_nonempty _ _ UL) as NE.
  assert (BU : Forall built gold) by (apply Forall_forall; intros d Hd; exact (reader_constructed _ _ _ _ _ _ R Hd)).
  assert (DF : Forall distinct_features gold).
  { apply Forall_forall. intros d Hd t p Ht Ep. pose proof (read_fields _ _ _ _ _ R Hd) as FF. rewrite Forall_forall in FF. destruct (FF t Ht) as (_ & _ & X). apply (X p Ep). }
  assert (HL : Forall (Forall (fun l => In l (file_lines text))) ls).
  { apply Forall_forall. intros lines Il. apply Forall_forall. intros l Hl. rewrite EL. apply in_or_app. left. apply in_concat. eauto. }
  assert (M : forall gss ds, Forall2 read_one gss ds -> incl ds gold -> tokens_nonempty (concat gss) ->
    forall hss, Forall2 tree_heads gss hss -> forall ls, Forall2 sentence_of ls gss -> Forall (Forall (fun l => In l (file_lines text))) ls ->
    Forall loadable ds /\ Forall (fun d => Forall (token_plain (dtext d)) (dtokens d)) ds /\ exists gsss, Forall2 sentence_groups ds gsss /\ Forall no_pending gsss /\
    Forall2 (Forall2 group_like) gss (concat (map (fun p => map (cell_groups default_columns (dtext (fst p)) 1) (snd p)) (combine ds gsss)))).
  { clear -R CR. intros gss ds RO. induction RO as [|gs d gss ds RO0 RO IH]; intros IN NE hss TR ls SO HL.
    - split; [constructor|]. split; [constructor|]. exists []. split; [constructor|]. split; constructor.
    - inversion TR as [|? hs ? hss' T0 T1]; subst. inversion SO as [|lines ? ls' ? S0 S1]; subst. inversion HL as [|? ? H0 H1]; subst.
      cbn [concat] in NE. apply Forall_app in NE as [NE0 NE1].
      destruct (IH (fun x Hx => IN x (or_intror Hx)) NE1 _ T1 _ S1 H1) as (LB & PL & gsss & G & P & L).
      destruct (one_document text gold d lines gs hs R (IN d (or_introl eq_refl)) H0 S0 RO0 NE0 T0 CR) as (LB0 & PL0 & tgs & G0 & L0).
      split; [constructor; auto|]. split; [constructor; auto|]. exists ([tgs] :: gsss). split; [constructor; auto|]. split; [constructor; auto; constructor|].
      cbn [combine map concat fst snd app]. constructor; auto. }
  destruct (M gss gold RO (incl_refl _) NE hss TR ls SO HL) as (LB & PL & gsss & G & P & GL).
  split; [exact BU|]. split; [exact LB|]. split; [exact DF|]. split; [eauto|].
  pose proof (built_all _ BU) as V.
  assert (RY : Forall doc_ready gold). { apply Forall_forall. intros d Hd. rewrite Forall_forall in V, LB. split; auto. }
  pose proof (documents_lines default_columns gold gsss RY G) as UL'. pose proof (documents_trees default_columns gold gsss RY G) as TR'.
  destruct (load_accepts _ _ UL') as (u' & E'). { clear - TR'. induction TR'; constructor; eauto. }
  exists (concat (map (fun p => doc_out default_columns (fst p) (snd p)) (combine gold gsss))), u'.
  split; [exact (writer_output default_columns gold gsss V (all_written gold) G P)|]. split.
  { intros X. apply in_concat in X as (s & Is & X). apply in_map_iff in Is as ([d gs] & <- & Ip). cbn [fst snd] in X. revert X. apply doc_out_plain.
    - clear -G Ip. induction G; [destruct Ip|]. destruct Ip as [[= -> ->]|Ip]; auto.
    - rewrite Forall_forall in PL. apply PL. eapply in_combine_l; eauto. }
  split; [exact E'|].
  destruct (loaded_alike _ _ _ _ _ _ _ _ E UL TR E' UL' TR' GL) as [A1 A2]. split; [exact A1|].
  intros O. apply A2. apply Forall_forall. intros gs Ig. apply Forall_forall. intros c Ic.
  destruct (lines_cells _ _ UL _ _ Ig Ic) as (l & Il & T). exact (O l c Il T).
Qed.

