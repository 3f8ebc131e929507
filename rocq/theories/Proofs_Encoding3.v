(* Where the characters of what is written and of what is read come from. *)
From Coq Require Import String Ascii ZArith NArith Bool Permutation Lia List.
From Verif Require Import Base BaseFacts Model_Datamodel Model_Conllu Spec_Datamodel Spec_Conllu Proofs_Datamodel Proofs_Conllu Proofs_Conllu2 Proofs_Conllu3 Proofs_Conllu4 Proofs_Conllu5 Proofs_Conllu6 Proofs_Conllu7 Proofs_Conllu8 Proofs_Conllu9 Proofs_Conllu10
  Proofs_Goldfile2 Model_Encoding Spec_Encoding Proofs_Encoding Proofs_Encoding2.
Import ListNotations.
Open Scope Z_scope.

Section Written.
Variable P : char -> Prop.
(* the characters the writer itself writes *)
Definition fixed_chars : str := [9; 10; 45; 61; 95; 124]%N ++ of_string "0123456789" ++ of_string "SpaceAfter=No".
Hypothesis PF : Forall P fixed_chars.

Lemma fixed c : In c fixed_chars -> P c.
Proof. intros H. rewrite Forall_forall in PF. auto. Qed.

Lemma all_fixed s : forallb (fun c => existsb (N.eqb c) fixed_chars) s = true -> Forall P s.
Proof.
  intros H. rewrite forallb_forall in H. apply Forall_forall. intros c Hc. apply H in Hc. apply existsb_exists in Hc as (x & Hx & E).
  apply N.eqb_eq in E. subst. apply fixed; auto.
Qed.

Lemma print_fixed z : Forall P (print_Z z).
Proof.
  eapply Forall_impl; [|apply print_Z_chars]. cbn beta. intros c [D| ->]; apply fixed; [|cbn; auto 10]. unfold is_digit in D.
  assert (X : (c = 48 \/ c = 49 \/ c = 50 \/ c = 51 \/ c = 52 \/ c = 53 \/ c = 54 \/ c = 55 \/ c = 56 \/ c = 57)%N) by lia.
  repeat (destruct X as [-> |X]; [vm_compute; auto 30|]). subst c. vm_compute; auto 30.
Qed.

Lemma underscore_fixed : Forall P underscore.
Proof. apply all_fixed. reflexivity. Qed.

Lemma shield_chars o : (forall s, o = Some s -> Forall P s) -> Forall P (shield_none o).
Proof. destruct o; cbn; auto using underscore_fixed. Qed.

Lemma join_chars (c : char) l : P c -> Forall (Forall P) l -> Forall P (join [c] l).
Proof.
  intros H F. apply Forall_forall. intros x Hx. apply join_in in Hx as [-> |(s & Hs & Hx)]; auto.
  rewrite Forall_forall in F. specialize (F s Hs). rewrite Forall_forall in F. auto.
Qed.

Lemma feats_chars fs : (forall k v, In (k, v) fs -> Forall P k /\ Forall P v) -> Forall P (feats_to_string fs).
Proof.
  intros H. unfold feats_to_string. destruct fs as [|e fs]; [apply underscore_fixed|]. apply join_chars; [apply fixed; vm_compute; auto 20|].
  apply Forall_forall. intros s Hs. apply (Permutation_in _ (Permutation_sym (isort_perm str_leb _))) in Hs.
  apply in_map_iff in Hs as ([k v] & <- & I). destruct (H k v I) as [H1 H2]. cbn [fst snd]. apply Forall_app. split; auto.
  constructor; auto. apply fixed. vm_compute; auto 20.
Qed.

(* the characters of a view *)
Record view_chars (v : navtoken) : Prop := {
  vc_text : Forall P (wtext v);
  vc_doc : Forall P (wdoc_text v);
  vc_lemma : forall s, tlemma (nv_token v) = Some s -> Forall P s;
  vc_deprel : forall s, tdeprel (nv_token v) = Some s -> Forall P s;
  vc_pos : forall p, tpos (nv_token v) = Some p -> (forall s, upos p = Some s -> Forall P s) /\ (forall s, xpos p = Some s -> Forall P s) /\
             (forall k w, In (k, w) (feats p) -> Forall P k /\ Forall P w)
}.

Lemma normalize_fixed i : Forall P (normalize_index i).
Proof. unfold normalize_index. destruct (i =? -1); [apply all_fixed; reflexivity|apply print_fixed]. Qed.

Lemma to_conll_chars cols i v sp fh cells : view_chars v -> to_conll cols i v sp fh = Ok cells -> Forall (Forall P) cells.
Proof.
  intros [T D L R G] H. unfold to_conll in H. apply bind_ok_iff in H as ([[u x] f] & H1 & H2).
  assert (U : Forall P u /\ Forall P x /\ Forall P f).
  { destruct (tpos (nv_token v)) as [p|].
    - apply bind_ok_iff in H1 as (f' & Hf & H1). injection H1 as <- <- <-. destruct (G p eq_refl) as (G1 & G2 & G3).
      split; [destruct (has_col cols cUPOS); apply shield_chars; [auto|discriminate]|]. split; [destruct (has_col cols cXPOS); apply shield_chars; [auto|discriminate]|].
      destruct (has_col cols cFEATS); [|discriminate]. injection Hf as <-. apply feats_chars, G3.
    - injection H1 as <- <- <-. auto using underscore_fixed. }
  destruct U as (U & X & F).
  set (hr := match (if has_col cols cHEAD then head_index v else None) with
                  | Some hv => (normalize_index hv, shield_none (if has_col cols cDEPREL then tdeprel (nv_token v) else None))
                  | None => (if fh then print_Z i else underscore, underscore)
                  end) in H2.
  assert (HR : Forall P (fst hr) /\ Forall P (snd hr)).
  { unfold hr. destruct (if has_col cols cHEAD then head_index v else None); cbn [fst snd].
    - split; [apply normalize_fixed|]. destruct (has_col cols cDEPREL); apply shield_chars; [auto|discriminate].
    - split; [destruct fh; auto using print_fixed, underscore_fixed|apply underscore_fixed]. }
  destruct hr as [h r]. cbn [fst snd] in HR. destruct HR as [HH HR]. injection H2 as <-.
  repeat match goal with |- Forall (Forall P) _ => constructor end; auto using normalize_fixed, underscore_fixed.
  - destruct (has_col cols cLEMMA); apply shield_chars; [auto|discriminate].
  - destruct (sp && negb (wspace_after v)); [apply all_fixed; reflexivity|apply underscore_fixed].
Qed.

Lemma format_chars cells : Forall (Forall P) cells -> Forall P (format_line cells).
Proof.
  intros F. unfold format_line. apply Forall_app. split; [apply join_chars; auto; apply fixed; vm_compute; auto|].
  constructor; [apply fixed; vm_compute; auto|constructor].
Qed.

Definition state_chars (st : wstate) : Prop :=
  Forall P (w_out st) /\ match w_multi st with Some m => view_chars (wm_first m) /\ Forall view_chars (wm_tokens m) | None => True end.

Lemma regular_chars cols st v sp st' : state_chars st -> view_chars v -> write_regular cols st v sp = Ok st' -> state_chars st'.
Proof.
  intros [S M] V H. unfold write_regular in H. apply bind_ok_iff in H as (cells & H1 & H2). injection H2 as <-. split; [|exact M]. cbn.
  apply Forall_app. split; auto. apply format_chars. eapply to_conll_chars; eauto.
Qed.

Lemma foldM_keeps {A} (I : wstate -> Prop) (f : wstate -> A -> result wstate) l : (forall st a st', In a l -> I st -> f st a = Ok st' -> I st') ->
  forall st st', I st -> foldM f st l = Ok st' -> I st'.
Proof.
  induction l as [|a l IH]; intros H st st' HI E; cbn [foldM] in E; [injection E as <-; auto|].
  apply bind_ok_iff in E as (st1 & E1 & E2). eapply IH; [|eapply H; [now left|exact HI|exact E1]|exact E2]. intros. eapply H; eauto. now right.
Qed.

Lemma multiword_chars cols st m st' : state_chars st -> view_chars (wm_first m) -> Forall view_chars (wm_tokens m) ->
  write_multiword cols st m = Ok st' -> state_chars st'.
Proof.
  intros [S M] V F H. unfold write_multiword in H. refine (foldM_keeps state_chars _ _ _ _ _ _ H).
  - intros st0 v st1 Hv S0 E. rewrite Forall_forall in F. exact (regular_chars cols st0 v false st1 S0 (F v Hv) E).
  - split; [|exact M]. cbn [w_out]. apply Forall_app. split; auto. apply format_chars. unfold range_line. repeat match goal with |- Forall (Forall P) _ => constructor end; auto using underscore_fixed.
    + apply Forall_app. split; [apply print_fixed|]. constructor; [apply fixed; vm_compute; auto 20|apply print_fixed].
    + apply V.
    + destruct (wspace_after _); [apply underscore_fixed|apply all_fixed; reflexivity].
Qed.

Lemma regular_token_chars cols st v st' : state_chars st -> view_chars v -> regular_write_token cols st v = Ok st' -> state_chars st'.
Proof.
  intros [S M] V H. unfold regular_write_token in H. destruct (is_multiword (nv_token v)).
  - injection H as <-. split; cbn; auto.
  - eapply regular_chars; [|exact V|exact H]. split; cbn; auto.
Qed.

Lemma token_chars cols st v st' : state_chars st -> view_chars v -> write_token cols st v = Ok st' -> state_chars st'.
Proof.
  intros SS V H. pose proof SS as [S M]. unfold write_token in H. destruct (w_multi st) as [m|] eqn:E; [|eapply regular_token_chars; eauto].
  destruct M as [M1 M2]. destruct (coincides _ _).
  - injection H as <-. split; cbn; auto. split; auto. apply Forall_app; auto.
  - apply bind_ok_iff in H as (st1 & H1 & H2). eapply regular_token_chars; [eapply multiword_chars; eauto|exact V|exact H2].
Qed.

Lemma end_chars cols st st' : state_chars st -> write_end_of_sentence cols st = Ok st' -> state_chars st'.
Proof.
  intros SS H. pose proof SS as [S M]. unfold write_end_of_sentence in H. apply bind_ok_iff in H as (st1 & H1 & H2). injection H2 as <-.
  assert (X : Forall P (w_out st1)). { destruct (w_multi st) as [m|] eqn:E; [eapply multiword_chars; eauto; tauto|injection H1 as <-; auto]. }
  split; [|exact M]. cbn. apply Forall_app. split; auto. constructor; [apply fixed; vm_compute; auto|constructor].
Qed.

Lemma slice_chars {A} (Q : A -> Prop) (l : list A) a b : Forall Q l -> Forall Q (py_slice l a b).
Proof.
  intros F. apply Forall_forall. intros x Hx. rewrite Forall_forall in F. apply F. unfold py_slice in Hx.
  assert (Y1 : forall n (l0 : list A), In x (firstn n l0) -> In x l0) by (intros n0 l0 I0; rewrite <- (firstn_skipn n0 l0); apply in_or_app; auto).
  assert (Y2 : forall n (l0 : list A), In x (skipn n l0) -> In x l0) by (intros n0 l0 I0; rewrite <- (firstn_skipn n0 l0); apply in_or_app; auto).
  cbv zeta in Hx. eauto.
Qed.

Lemma document_chars cols d out : doc_inv d -> chars_of P d -> write_document cols d = Ok out -> Forall P out.
Proof.
  intros I [T W L R U X F] H. unfold write_document in H. destruct (nav_sentences_ok d I) as (ss & E & SS). rewrite E in H. cbn [bind] in H.
  apply bind_ok_iff in H as (st & H & H2). injection H2 as <-. enough (state_chars st) as [S _] by exact S.
  refine (foldM_keeps state_chars _ _ _ _ _ _ H); [|split; cbn; auto]. intros st0 s st1 Hs S0 E1.
  unfold write_sentence in E1. apply bind_ok_iff in E1 as (vs & Hv & E1). apply bind_ok_iff in E1 as (st2 & E2 & E3).
  eapply end_chars; [|exact E3]. refine (foldM_keeps state_chars _ _ _ _ _ S0 E2). intros st3 v st4 Iv S3 E4. eapply token_chars; eauto.
  assert (Y : nv_text v = dtext d /\ In (nv_token v) (dtokens d)).
  { clear -SS Hs Hv Iv. induction SS as [|s0 v0 l l' H SS IH]; [destruct Hs|]. destruct Hs as [-> |Hs]; auto.
    destruct H as (vs' & E & M & F). assert (vs' = vs) by congruence. subst vs'. rewrite Forall_forall in F. split; [apply F; auto|].
    apply (tokens_of_in _ s0). rewrite <- M. apply in_map. exact Iv. }
  destruct Y as [Y1 Y2]. constructor.
  - unfold wtext, text_of. rewrite Y1. destruct (trepl (nv_token v)) eqn:ER; [eapply W; eauto|apply slice_chars, T].
  - unfold wdoc_text, doc_text_of. rewrite Y1. apply slice_chars, T.
  - intros s' Es. eapply L; eauto.
  - intros s' Es. eapply R; eauto.
  - intros p Ep. split; [intros s' Es; eapply U; eauto|]. split; [intros s' Es; eapply X; eauto|]. intros k w. eapply F; eauto.
Qed.

Lemma written_chars cols ds out : Forall doc_inv ds -> Forall (chars_of P) ds -> write_str cols ds = Ok out -> Forall P out.
Proof.
  intros I C H. unfold write_str in H. destruct (mapM _ ds) as [outs|] eqn:E; [|discriminate]. injection H as <-. apply Forall_concat.
  apply mapM_ok in E. induction E as [|d o ds outs Ho E IH]; constructor; inversion I; inversion C; subst; auto.
  eapply document_chars; eauto.
Qed.

End Written.

(* ---- reading ---- *)

Section Read.
Variable P : char -> Prop.
Hypothesis PS : P chSP.

Definition opt_chars (o : option str) : Prop := forall s, o = Some s -> Forall P s.

Record row_chars (r : irow) : Prop := {
  rw_text : Forall P (i_text r);
  rw_lemma : opt_chars (i_lemma r);
  rw_deprel : opt_chars (i_deprel r);
  rw_pos : forall p, i_pos r = Some p -> opt_chars (upos p) /\ opt_chars (xpos p) /\ Forall (fun kv => Forall P (fst kv) /\ Forall P (snd kv)) (feats p)
}.

Lemma cell_chars cells n : Forall (Forall P) cells -> Forall P (cell cells n).
Proof. intros F. unfold cell. revert n. induction F; intros [|n]; cbn [nth]; auto. Qed.

Lemma cell_opt_chars cells n : Forall (Forall P) cells -> opt_chars (cell_opt cells n).
Proof. intros F s. unfold cell_opt. destruct (str_eqb _ _); [discriminate|]. intros [= <-]. apply cell_chars; auto. Qed.

Lemma sel_chars nc c o : opt_chars o -> opt_chars (sel nc c o).
Proof. unfold sel. destruct (has_col nc c); auto. intros _ s. discriminate. Qed.

Lemma split_chars c s : Forall P s -> Forall (Forall P) (split c s).
Proof.
  intros F. apply Forall_forall. intros p Hp. apply Forall_forall. intros x Hx. rewrite Forall_forall in F. apply F. eapply in_split_in; eauto.
Qed.

Lemma parse_to_dict_chars o d : parse_to_dict o = Ok d -> opt_chars o -> Forall (fun kv => Forall P (fst kv) /\ Forall P (snd kv)) d.
Proof.
  destruct o as [s|]; cbn [parse_to_dict]; [|intros [= <-] _; constructor]. intros H C. specialize (C s eq_refl).
  pose proof (split_chars (ch "|"%char) s C) as E. revert H E.
  assert (F0 : Forall (fun kv : str * str => Forall P (fst kv) /\ Forall P (snd kv)) []) by constructor. revert F0.
  generalize (@nil (str * str)) as d0. generalize (split (ch "|"%char) s) as es. clear.
  induction es as [|e es IH]; intros d0 F0 H E; cbn [foldM] in H; [injection H as <-; auto|].
  apply bind_ok_iff in H. destruct H as (d1 & H1 & H2). inversion E as [|? ? E1 E2]; subst. apply (IH d1); auto.
  apply dict_entry_ok in H1. destruct H1 as [_ ->]. apply dict_set_all; auto. cbn [fst snd].
  pose proof (split_chars 61%N e E1) as X. split.
  - unfold entry_key. destruct (split 61%N e) as [|a l]; [constructor|]. inversion X; auto.
  - exact (cell_chars _ 1 X).
Qed.

Lemma row_has_chars nc text raw r : Forall P text -> In raw (file_lines text) -> parse_line nc (cells_of raw) = Ok r -> row_chars r.
Proof.
  intros F H Q. assert (C : Forall (Forall P) (cells_of raw)).
  { apply split_chars. apply Forall_forall. intros x Hx. apply strip_crlf_in in Hx. rewrite Forall_forall in F. apply F. eapply file_lines_chars; eauto. }
  apply parse_line_row in Q. constructor.
  - rewrite (ro_text _ _ _ Q). apply cell_chars; auto.
  - rewrite (ro_lemma _ _ _ Q). apply sel_chars, cell_opt_chars; auto.
  - rewrite (ro_deprel _ _ _ Q). apply sel_chars, cell_opt_chars; auto.
  - intros p Hp. pose proof (ro_pos _ _ _ Q) as RP. destruct (has_col nc cUPOS || has_col nc cXPOS || has_col nc cFEATS); [|congruence].
    destruct RP as (fs & E & D). rewrite E in Hp. injection Hp as <-. cbn [upos xpos feats].
    split; [apply sel_chars, cell_opt_chars; auto|]. split; [apply sel_chars, cell_opt_chars; auto|].
    eapply parse_to_dict_chars; [exact D|]. apply sel_chars, cell_opt_chars; auto.
Qed.

Lemma layout_texts hs : forall off, Forall (group_all row_chars) hs ->
  Forall (fun t => exists a b sub repl r, row_chars r /\ (repl = None \/ repl = Some (i_text r)) /\ t = row_token a b sub repl r) (layout off hs).
Proof.
  induction hs as [|h hs IH]; intros off F; simpl; [constructor|]. inversion F as [|? ? H F2]; subst. apply Forall_app. split; auto.
  destruct h as [r|r ws]; simpl in *.
  - constructor; [|constructor]. exists off, (off + zlen (i_text r)), 0, None, r. auto.
  - destruct H as [_ H]. clear F F2 IH. revert H. generalize (off + zlen (i_text r)) as b. generalize 0 as sub.
    induction ws as [|w ws IHw]; intros sub b H; simpl; constructor; inversion H; subst; [|auto].
    exists off, b, sub, (Some (i_text w)), w. auto.
Qed.

Lemma surface_chars hs : Forall (group_all row_chars) hs -> Forall P (surface hs).
Proof.
  intros F. unfold surface. apply Forall_concat, Forall_map. eapply Forall_impl; [|exact F]. intros g G. unfold group_text.
  assert (R : row_chars (surface_row g)) by (destruct g; cbn in *; tauto).
  apply Forall_app. split; [apply R|]. destruct (i_space _); auto.
Qed.

Lemma read_chars_of k cols text ds e d : Forall P text -> read_str k cols text = Ok (ds, e) -> In d ds -> chars_of P d.
Proof.
  intros FT R I.
  destruct (reader_doc_all row_chars _ _ _ _ _ _ R I) as (acc & NA & O & C & D).
  { intros raw r H1 H2. eapply row_has_chars; eauto. }
  apply doc_of_ok' in D; auto. destruct D as [-> WP].
  assert (C2 : Forall (group_all row_chars) (concat acc)) by (apply Forall_concat; exact C).
  pose proof (layout_texts _ 0 C2) as LR. rewrite Forall_forall in LR.
  assert (X : forall t, In t (dtokens (raw_doc acc)) -> exists a b sub repl r, row_chars r /\ (repl = None \/ repl = Some (i_text r)) /\
              trepl t = repl /\ tlemma t = i_lemma r /\ tdeprel t = i_deprel r /\ tpos t = i_pos r /\ tstart t = a /\ tend t = b /\ tsub t = sub).
  { cbn [raw_doc dtokens]. rewrite fill_all_layouts. intros t Ht. apply in_concat in Ht as (l & Hl & Ht). apply in_map_iff in Hl as ([s lay] & <- & Hp).
    cbn [fst snd] in Ht. apply in_combine_r in Hp. apply in_map_iff in Ht as (t0 & <- & Ht).
    destruct (LR t0) as (a & b & sub & repl & r & H1 & H2 & ->). { rewrite <- layouts_concat. apply in_concat. eauto. }
    exists a, b, sub, repl, r. split; [exact H1|]. split; [exact H2|]. repeat split; reflexivity. }
  constructor.
  - cbn [raw_doc dtext]. apply surface_chars, C2.
  - intros t s Ht Es. destruct (X t Ht) as (a & b & sub & repl & r & [R1 R2 R3 R4] & [-> | ->] & E1 & _); [congruence|]. rewrite E1 in Es. injection Es as <-. exact R1.
  - intros t s Ht Es. destruct (X t Ht) as (a & b & sub & repl & r & [R1 R2 R3 R4] & _ & _ & E2 & _). apply R2. congruence.
  - intros t s Ht Es. destruct (X t Ht) as (a & b & sub & repl & r & [R1 R2 R3 R4] & _ & _ & _ & E3 & _). apply R3. congruence.
  - intros t p s Ht Ep Es. destruct (X t Ht) as (a & b & sub & repl & r & [R1 R2 R3 R4] & _ & _ & _ & _ & E4 & _). rewrite E4 in Ep. destruct (R4 p Ep) as (A1 & A2 & _). exact (A1 s Es).
  - intros t p s Ht Ep Es. destruct (X t Ht) as (a & b & sub & repl & r & [R1 R2 R3 R4] & _ & _ & _ & _ & E4 & _). rewrite E4 in Ep. destruct (R4 p Ep) as (A1 & A2 & _). exact (A2 s Es).
  - intros t p k' v Ht Ep Es. destruct (X t Ht) as (a & b & sub & repl & r & [R1 R2 R3 R4] & _ & _ & _ & _ & E4 & _). rewrite E4 in Ep.
    destruct (R4 p Ep) as (_ & _ & R5). rewrite Forall_forall in R5. apply (R5 (k', v) Es).
Qed.

End Read.

Lemma newlines_chars (P : char -> Prop) s : P chNL -> Forall P s -> Forall P (universal_newlines s).
Proof.
  intros N. remember (length s) as n eqn:E. assert (L : (length s <= n)%nat) by lia. clear E. revert s L.
  induction n as [|n IH]; intros s L F; destruct s as [|c s]; cbn [universal_newlines length] in *; auto; try lia.
  inversion F as [|? ? F1 F2]; subst. destruct (c =? chCR)%N.
  - destruct s as [|c2 s]; auto. cbn [length] in L. inversion F2; subst. destruct (c2 =? chNL)%N; constructor; auto; apply IH; auto; cbn; lia.
  - constructor; auto. apply IH; auto. lia.
Qed.
