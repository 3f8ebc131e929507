(* What the writer writes for the documents read from a file. *)
From Coq Require Import String Ascii ZArith NArith QArith Bool Sorted Permutation Lia List.
From Verif Require Import Base BaseFacts Model_Datamodel Model_Conllu Spec_Datamodel Spec_Conllu Proofs_Datamodel Proofs_Conllu Proofs_Conllu2 Proofs_Conllu3 Proofs_Conllu4 Proofs_Conllu5 Proofs_Conllu6 Proofs_Conllu7 Proofs_Conllu8 Proofs_Conllu9 Proofs_Conllu10
  Model_UDEval Spec_UDEval Proofs_UDEval Proofs_UDEval4 Spec_Processors Proofs_Processors Spec_Tester Proofs_Tester3 Proofs_Tester5 Spec_Goldfile Proofs_Goldfile2.
Import ListNotations.
Open Scope Z_scope.

(* ---- FEATS in the writer's order ---- *)

Lemma ordered_feats_cell c5 fs : ordered_feats c5 -> NoDup (map fst fs) ->
  (forall k, dict_get fs k = value_in (if str_eqb c5 (of_string "_") then None else Some c5) k) -> feats_cell fs = c5.
Proof.
  intros O N H. destruct (str_eqb c5 (of_string "_")) eqn:E.
  - apply str_eqb_eq in E. subst c5. destruct fs as [|[k v] fs]; [reflexivity|]. specialize (H k). cbn [dict_get value_in] in H. rewrite str_eqb_refl in H. discriminate.
  - destruct O as [->|(S & K & F)]; [rewrite str_eqb_refl in E; discriminate|].
    set (fs0 := map (fun e => (entry_key e, entry_value e)) (split 124%N c5)).
    assert (N0 : NoDup (map fst fs0)) by (unfold fs0; rewrite map_map; exact K).
    assert (X : forall k, dict_get fs0 k = dict_get fs k).
    { intros k. rewrite H. cbn [value_in].
      destruct (find (fun e => str_eqb (entry_key e) k) (rev (split 124%N c5))) as [e|] eqn:Fe; cbn [option_map].
      - apply find_some in Fe as [I X]. apply in_rev in I. apply str_eqb_eq in X. subst k. apply In_dict_get; [exact N0|].
        apply in_map_iff. exists e. auto.
      - destruct (dict_get fs0 k) as [v|] eqn:D; auto. apply dict_get_In in D. apply in_map_iff in D as (e & [= X _] & I).
        apply in_rev in I. apply (find_none _ _ Fe) in I. cbn beta in I. rewrite X, str_eqb_refl in I. discriminate. }
    rewrite <- (feats_cell_same fs fs0 N N0 X).
    assert (Ne : split 124%N c5 <> []) by (destruct c5 as [|c c5]; cbn [split]; [discriminate|]; destruct (c =? 124)%N; [discriminate|]; destruct (split 124%N c5); discriminate).
    rewrite feats_cell_eq by (unfold fs0; destruct (split 124%N c5); [congruence|discriminate]).
    assert (M : map entry_text fs0 = split 124%N c5).
    { unfold fs0. rewrite map_map. rewrite <- (map_id (split 124%N c5)) at 2. apply map_ext_in. intros e I. rewrite Forall_forall in F. symmetry. exact (F e I). }
    rewrite M, isort_id; [apply join_split|].
    apply Sorted_StronglySorted; [|exact S]. intros x y z. exact (leb_trans _ (leb_of_ok _ str_cmp_ok) x y z).
Qed.

(* ---- what is known about the fields of the tokens that were read ---- *)

Definition fields_fine (t : token) : Prop :=
  clean_opt (tlemma t) /\ clean_opt (tdeprel t) /\
  forall p, tpos t = Some p -> clean_opt (upos p) /\ clean_opt (xpos p) /\
    Forall (fun kv => clean_entry (fst kv) /\ clean_entry (snd kv)) (feats p) /\ NoDup (map fst (feats p)).

Lemma default_full : full_columns default_columns.
Proof. repeat (constructor; [unfold wants, default_columns; cbn; auto 10|]). constructor. Qed.

Lemma read_fields k text ds e d : read_str k default_columns text = Ok (ds, e) -> In d ds -> Forall fields_fine (dtokens d).
Proof.
  intros R I.
  destruct (reader_doc_all (fun r => row_clean r /\ row_told r) _ _ _ _ _ _ R I) as (acc & NA & O & C & D).
  { intros raw r H1 H2. split; [eapply row_is_clean; eauto|eapply row_is_told; eauto using default_full]. }
  apply doc_of_ok' in D; auto. destruct D as [-> WP].
  assert (C2 : Forall (group_all (fun r => row_clean r /\ row_told r)) (concat acc)) by (apply Forall_concat; exact C).
  pose proof (layout_rows _ _ 0 C2) as LR. rewrite Forall_forall in LR.
  cbn [raw_doc dtokens]. rewrite fill_all_layouts. apply Forall_concat. rewrite Forall_map. apply Forall_forall. intros [s lay] Hp.
  cbn [fst snd]. apply in_combine_r in Hp. apply Forall_map, Forall_forall. intros t0 Ht.
  destruct (LR t0) as (a & b & sub & repl & r & [[R1 R2 R3 R4] [T1 T2 T3]] & ->). { rewrite <- layouts_concat. apply in_concat. eauto. }
  split; [exact R2|]. split; [exact R3|]. intros p Ep. destruct T3 as (q & Eq & _ & _ & N). change (i_pos r = Some p) in Ep.
  destruct (R4 p Ep) as (X1 & X2 & X3). assert (q = p) by congruence. subst q. auto.
Qed.

(* ---- groups of tokens ---- *)

Definition gmatch (R : list str * list str * bool -> token -> Prop) (g : group (list str)) (tg : group token) : Prop :=
  match g, tg with
  | GWord c, GWord t => R (c, c, false) t
  | GRange c cs, GRange t ws => hd_error ws = Some t /\ Forall2 (fun c' t' => R (c, c', true) t') cs ws
  | _, _ => False
  end.

Lemma laid_out_from off gs ps ts : laid_out off gs ps ts -> Forall (fun t => off <= tstart t) ts.
Proof.
  induction 1 as [|off g gs p ps ts1 ts2 P F S L IH]; [constructor|]. apply Forall_app. split.
  - clear -F. revert F. generalize (words_of g). intros ws F. induction F as [|[[a b] c] t ws ts (X & _) F IH]; constructor; auto. lia.
  - eapply Forall_impl; [|exact IH]. cbn beta. intros t. pose proof (zlen_nonneg p). lia.
Qed.

Lemma groups_match R off gs ps ts : laid_out off gs ps ts -> Forall (fun g => cell (surface_row g) 1 <> [] /\ words_of g <> []) gs ->
  Forall2 R (flat_map words_of gs) ts -> exists tgs, grouped_tokens ts tgs /\ Forall2 (gmatch R) gs tgs.
Proof.
  induction 1 as [|off g gs p ps ts1 ts2 P F S L IH]; intros V Q.
  - exists []. split; constructor.
  - inversion V as [|? ? [V1 V2] V3]; subst. cbn [flat_map] in Q.
    assert (LE : length (words_of g) = length ts1) by (eapply Forall2_length'; exact F).
    apply Forall2_app_inv_l in Q as (q1 & q2 & Q1 & Q2 & E).
    assert (LE2 : length (words_of g) = length q1) by (eapply Forall2_length'; exact Q1).
    destruct (app_same_length ts1 q1 ts2 q2 E ltac:(lia)) as [-> ->].
    destruct (IH V3 Q2) as (tgs & G & M).
    assert (Pn : 0 < zlen p).
    { assert (X : 0 < zlen (cell (surface_row g) 1)) by (destruct (cell (surface_row g) 1); [congruence|rewrite zlen_cons; pose proof (zlen_nonneg s); lia]).
      destruct P as [[_ ->]|[_ ->]]; [exact X|rewrite zlen_app; change (zlen [chSP]) with 1; lia]. }
    pose proof (laid_out_from _ _ _ _ L) as From.
    destruct g as [c|c cs]; cbn [words_of surface_row] in *.
    + inversion F as [|? t ? l A F']; subst. cbn beta iota in A. destruct A as (A & B & C). inversion F'; subst. inversion Q1; subst.
      exists (GWord t :: tgs). split; constructor; auto.
    + destruct cs as [|c0 cs]; [exfalso; apply V2; reflexivity|]. cbn [map] in *.
      inversion F as [|? t ? us A F']; subst. cbn beta iota in A. destruct A as (A & B & C). cbn [app].
      exists (GRange t (t :: us) :: tgs). split.
      * apply gt_multi; auto.
        -- unfold multiword. rewrite C. discriminate.
        -- clear -F' A B. revert us F'. induction cs as [|x cs IHc]; intros us F'; cbn [map] in F'; inversion F' as [|? u ? l X F2]; subst; constructor; auto.
           cbn beta iota in X. destruct X as (X & Y & _). split; congruence.
        -- intros x Hx [X _]. destruct ts2 as [|y ts2]; [discriminate|]. injection Hx as ->. inversion From; subst. lia.
      * constructor; auto. split; [reflexivity|]. inversion Q1 as [|? ? ? ? X Y]; subst. constructor; auto.
        clear -Y. revert us Y. induction cs as [|x cs IHc]; intros us Y; cbn [map] in Y; inversion Y; subst; constructor; auto.
Qed.

Lemma grouped_in {A} (id : A -> option str) rows gs : grouped id rows gs ->
  Forall (fun g => words_of g <> [] /\ In (surface_row g) rows /\ Forall (fun w => In (snd (fst w)) rows) (words_of g)) gs.
Proof.
  induction 1 as [|r rs gs i I J G IH|r rs gs i I J K G IH|r ws rs gs sa sb a b I J Na Nb Pa Pb Nw Lw G IH].
  - constructor.
  - eapply Forall_impl; [|exact IH]. intros g (X & Y & Z). split; auto. split; [now right|]. eapply Forall_impl; [|exact Z]. cbn beta. intros w H. now right.
  - constructor.
    + cbn. split; [discriminate|]. split; [now left|]. repeat constructor.
    + eapply Forall_impl; [|exact IH]. intros g (X & Y & Z). split; auto. split; [now right|]. eapply Forall_impl; [|exact Z]. cbn beta. intros w H. now right.
  - constructor.
    + cbn [words_of surface_row]. split; [destruct ws; [congruence|discriminate]|]. split; [now left|]. apply Forall_map, Forall_forall. intros w H. cbn [fst snd]. right. apply in_or_app. auto.
    + eapply Forall_impl; [|exact IH]. intros g (X & Y & Z). split; auto. split; [right; apply in_or_app; auto|].
      eapply Forall_impl; [|exact Z]. cbn beta. intros w H. right. apply in_or_app. auto.
Qed.

Lemma sentence_rows lines rows : sentence_lines lines rows -> Forall (fun r => exists l, In l lines /\ cells_of l = r) rows.
Proof.
  induction 1 as [l B|l ls rows C S IH|l ls rows C S IH]; [constructor| |].
  - eapply Forall_impl; [|exact IH]. intros r (x & X & Y). exists x. split; auto. now right.
  - constructor; [exists l; split; auto; now left|]. eapply Forall_impl; [|exact IH]. intros r (x & X & Y). exists x. split; auto. now right.
Qed.

(* ---- rows written for what was read ---- *)

Record row_like (c c' : list str) : Prop := {
  rl_cells : forall n, In n [1; 2; 3; 4; 7]%nat -> cell c' n = cell c n;
  rl_head : exists h, parse_int (cell c 6) = Ok h /\ parse_int (cell c' 6) = Ok h;
  rl_feats : ordered_feats (cell c 5) -> cell c' 5 = cell c 5
}.

Definition group_like (g g' : group (list str)) : Prop :=
  match g, g' with
  | GWord c, GWord c' => row_like c c'
  | GRange c cs, GRange c' cs' => cell c' 1 = cell c 1 /\ Forall2 row_like cs cs'
  | _, _ => False
  end.

Definition read_word (text : str) (w : list str * list str * bool) (t : token) : Prop :=
  doc_text_of text t = cell (fst (fst w)) 1 /\ text_of text t = cell (snd (fst w)) 1 /\
  annotated default_columns (snd (fst w)) t /\ fields_fine t /\ exists h, parse_int (cell (snd (fst w)) 6) = Ok h.

Lemma shown_cell c n : shown (cell_opt c n) = cell c n.
Proof. unfold cell_opt. destruct (str_eqb (cell c n) (of_string "_")) eqn:E; [|reflexivity]. apply str_eqb_eq in E. now rewrite E. Qed.

Lemma default_wants n : In n [2; 3; 4; 5; 6; 7] -> wants default_columns n.
Proof.
  intros H. destruct (Z.eq_dec n 6) as [->|N]; [right; split; [reflexivity|unfold default_columns; cbn; auto 10]|].
  pose proof default_full as F. unfold full_columns in F. rewrite Forall_forall in F. apply F. cbn in *. intuition.
Qed.

Lemma written_row text i w t misc : read_word text w t -> row_like (snd (fst w)) (expected_row default_columns text i t misc).
Proof.
  intros (_ & T & [L D H G _] & (_ & _ & FF) & h & Ph). rewrite row_eq.
  assert (W : forall n, In n [2; 3; 4; 5; 6; 7] -> wants default_columns n) by exact default_wants.
  destruct G as (p & Ep & G1 & G2 & G3); [left; apply W; cbn; auto|].
  assert (E3 : upos p = cell_opt (snd (fst w)) 3) by (apply G1, W; cbn; auto 10).
  assert (E4 : xpos p = cell_opt (snd (fst w)) 4) by (apply G2, W; cbn; auto 10).
  assert (E5 : forall k, dict_get (feats p) k = value_in (cell_opt (snd (fst w)) 5) k) by (apply G3, W; cbn; auto 10).
  assert (Hh : thsent t = Some (h - 1)).
  { destruct H as [H _]. destruct H as [[X _]|[_ (h' & X & Y)]]; [apply W; cbn; auto 10| |congruence].
    unfold cell_opt in X. destruct (str_eqb (cell (snd (fst w)) 6) (of_string "_")) eqn:E; [|discriminate]. apply str_eqb_eq in E. rewrite E in Ph. discriminate Ph. }
  rewrite Hh. destruct L as [L _]. rewrite L by (apply W; cbn; auto 10). destruct D as [D _]. rewrite D by (apply W; cbn; auto 10).
  unfold upos_of, xpos_of, feats_of. rewrite Ep, E3, E4, !shown_cell. split.
  - intros n. cbn [In]. intros [<-|[<-|[<-|[<-|[<-|[]]]]]]; cbn [cell nth]; auto.
  - exists h. split; auto. cbn [cell nth]. rewrite parse_print_Z. f_equal. lia.
  - intros O. cbn [cell nth]. apply ordered_feats_cell; auto. apply (FF p Ep).
Qed.

Lemma written_groups_like text gs tgs : Forall2 (gmatch (read_word text)) gs tgs -> forall i,
  Forall2 group_like gs (cell_groups default_columns text i tgs).
Proof.
  induction 1 as [|g tg gs tgs M F IH]; intros i; [constructor|]. destruct g as [c|c cs], tg as [t|t ws]; try (destruct M; fail); cbn [cell_groups]; constructor; auto.
  - cbn [group_like gmatch] in *. apply (written_row text i (c, c, false)). exact M.
  - cbn [group_like gmatch] in *. destruct M as [Hd M]. split.
    + cbn [expected_range cell nth]. destruct M as [|c' t' cs ws X M]; [discriminate|]. injection Hd as ->. apply X.
    + clear -M. revert i. induction M as [|c' t' cs ws X M IH]; intros i; cbn [word_rows]; constructor; auto. apply (written_row text i (c, c', true)). exact X.
Qed.
