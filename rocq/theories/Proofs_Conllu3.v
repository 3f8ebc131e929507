(* The reader against the lines of its input. *)
From Coq Require Import String Ascii ZArith NArith Bool Lia Permutation Sorted List.
From Verif Require Import Base BaseFacts Model_Datamodel Model_Conllu Spec_Datamodel Spec_Conllu
  Proofs_Datamodel Proofs_Syntax Proofs_Datamodel2 Proofs_Datamodel4 Proofs_Conllu Proofs_Conllu2.
Import ListNotations.
Open Scope Z_scope.

(* ------------------------------------------------------------------ *)
(* Splitting                                                            *)

Lemma split_nonempty c s : split c s <> [].
Proof. destruct s as [|x s]; simpl; [congruence|]. destruct (x =? c)%N; [congruence|]. destruct (split c s); congruence. Qed.

Lemma split_no c s : ~ In c s -> split c s = [s].
Proof.
  induction s as [|x s IH]; simpl; auto. intros H. destruct (N.eqb_spec x c); [tauto|].
  rewrite IH by tauto. auto.
Qed.

Lemma split_app c s1 s2 : ~ In c s1 -> split c (s1 ++ c :: s2) = s1 :: split c s2.
Proof.
  induction s1 as [|x s IH]; simpl; intros H; [rewrite N.eqb_refl; auto|].
  destruct (N.eqb_spec x c); [tauto|]. rewrite IH by tauto. auto.
Qed.

Lemma join_split c s : join [c] (split c s) = s.
Proof.
  induction s as [|x s IH]; simpl; auto. pose proof (split_nonempty c s) as NE.
  destruct (N.eqb_spec x c).
  - subst. simpl. destruct (split c s) eqn:E; [congruence|]. simpl in *. rewrite IH. auto.
  - destruct (split c s) as [|p [|q ps]]; [congruence| |]; simpl in *; rewrite IH; auto.
Qed.

Lemma split_length_sep c s : length (split c s) = 1%nat <-> ~ In c s.
Proof.
  split.
  - intros H I. apply in_split in I. destruct I as (l1 & l2 & ->).
    assert (G : forall l1, (1 < length (split c (l1 ++ c :: l2)))%nat).
    { clear. induction l1 as [|x l1 IH]; simpl.
      - rewrite N.eqb_refl. simpl. pose proof (split_nonempty c l2). destruct (split c l2); [congruence|simpl; lia].
      - destruct (x =? c)%N; [simpl; lia|]. destruct (split c (l1 ++ c :: l2)); simpl in *; lia. }
    specialize (G l1). lia.
  - intros H. rewrite split_no; auto.
Qed.

Lemma split_pieces c s : Forall (fun p => ~ In c p) (split c s).
Proof.
  induction s as [|x s IH]; simpl; [repeat constructor; auto|].
  destruct (N.eqb_spec x c); [constructor; auto|].
  destruct (split c s); [repeat constructor; simpl; intuition|]. inversion IH; subst. constructor; auto. simpl. intuition.
Qed.

Lemma split_join c l : l <> [] -> Forall (fun s => ~ In c s) l -> split c (join [c] l) = l.
Proof.
  intros NE F. induction F as [|x l X F IH]; [congruence|]. destruct l as [|y l].
  - simpl. apply split_no; auto.
  - change (join [c] (x :: y :: l)) with (x ++ c :: join [c] (y :: l)). rewrite split_app by auto.
    rewrite IH by congruence. auto.
Qed.

(* ------------------------------------------------------------------ *)
(* key=value cells                                                      *)

Lemma dict_entry_ok d e d' : dict_entry d e = Ok d' <-> In 61%N e /\ d' = dict_set d (entry_key e) (entry_value e).
Proof.
  unfold dict_entry, entry_key, entry_value. change (ch "="%char) with 61%N. pose proof (split_nonempty 61%N e) as NE.
  pose proof (split_length_sep 61%N e) as SL.
  destruct (split 61%N e) as [|k [|v r]]; [congruence| |]; simpl.
  - split; [discriminate|]. intros [H _]. simpl in SL. tauto.
  - simpl in SL. assert (In 61%N e) by (destruct (in_dec N.eq_dec 61%N e) as [|NI]; auto; apply SL in NI; lia).
    split; [intros H'; inversion H'; auto|intros [_ ->]; auto].
Qed.

Lemma find_app {A} (f : A -> bool) l1 l2 :
  find f (l1 ++ l2) = match find f l1 with Some x => Some x | None => find f l2 end.
Proof. induction l1 as [|x l1 IH]; simpl; auto. destruct (f x); auto. Qed.

Lemma dict_get_set {V} (d : dict V) k v k2 : dict_get (dict_set d k v) k2 = if str_eqb k2 k then Some v else dict_get d k2.
Proof.
  destruct (str_eqb_spec k2 k) as [->|N]; [apply dict_get_set_same|apply dict_get_set_other; congruence].
Qed.

Lemma foldM_dict es : forall d d', foldM dict_entry d es = Ok d' ->
  forall k, dict_get d' k = match find (fun e => str_eqb (entry_key e) k) (rev es) with
                            | Some e => Some (entry_value e) | None => dict_get d k end.
Proof.
  induction es as [|e es IH]; simpl; intros d d' H k; [inversion H; auto|].
  apply bind_ok_iff in H. destruct H as (d1 & H1 & H2). apply dict_entry_ok in H1. destruct H1 as [_ ->].
  rewrite (IH _ _ H2 k). rewrite find_app. destruct (find _ (rev es)); auto. simpl.
  rewrite dict_get_set. rewrite (str_eqb_sym (entry_key e) k). destruct (str_eqb k (entry_key e)); auto.
Qed.

Lemma foldM_dict_total es : forall d, Forall (fun e => In 61%N e) es -> exists d', foldM dict_entry d es = Ok d'.
Proof.
  induction es as [|e es IH]; intros d F; simpl; [eauto|]. inversion F; subst.
  rewrite (proj2 (dict_entry_ok d e _) (conj H1 eq_refl)). cbn [bind]. auto.
Qed.

Lemma parse_to_dict_get o d : parse_to_dict o = Ok d -> forall k, dict_get d k = value_in o k.
Proof.
  destruct o as [s|]; simpl; intros H k; [|inversion H; auto].
  change (ch "|"%char) with 124%N in H. rewrite (foldM_dict _ _ _ H k). simpl.
  destruct (find _ _); auto.
Qed.

Lemma parse_to_dict_total o : (forall s e, o = Some s -> In e (split 124%N s) -> In 61%N e) -> exists d, parse_to_dict o = Ok d.
Proof.
  destruct o as [s|]; simpl; intros H; [|eauto]. apply foldM_dict_total. apply Forall_forall. intros e He. eapply H; eauto.
Qed.

Lemma value_in_none o k : value_in o k = None <-> ~ exists s e, o = Some s /\ In e (split 124%N s) /\ entry_key e = k.
Proof.
  destruct o as [s|]; simpl; [|split; auto; intros _ (s & e & H & _); discriminate].
  destruct (find _ (rev (split 124%N s))) as [e|] eqn:E; simpl.
  - apply find_some in E. destruct E as [I E]. apply in_rev in I. apply str_eqb_eq in E.
    split; [discriminate|]. intros H. exfalso. apply H. eauto.
  - split; auto. intros _ (s' & e & H & I & K). inversion H; subst s'.
    pose proof (find_none _ _ E e ltac:(apply in_rev; rewrite rev_involutive; auto)) as X. simpl in X.
    apply str_eqb_neq in X. auto.
Qed.

Lemma no_space_after_value m : no_space_after m <-> value_in (if str_eqb m (of_string "_") then None else Some m) space_after_key <> None.
Proof.
  unfold no_space_after. destruct (str_eqb_spec m (of_string "_")) as [->|N].
  - simpl. split; [intros [H _]; congruence|congruence].
  - split.
    + intros (_ & e & I & K) X. apply value_in_none in X. apply X. exists m, e. auto.
    + intros X. split; auto. destruct (value_in (Some m) space_after_key) eqn:E; [|congruence].
      simpl in E. destruct (find _ _) as [e|] eqn:F; [|discriminate]. apply find_some in F. destruct F as [I K].
      apply in_rev in I. apply str_eqb_eq in K. eauto.
Qed.

(* ------------------------------------------------------------------ *)
(* One row                                                              *)

Lemma has_col_in cols c : has_col cols c = true <-> In c cols.
Proof.
  unfold has_col. rewrite existsb_exists. split.
  - intros (x & I & E). apply Z.eqb_eq in E. subst; auto.
  - intros I. exists c. rewrite Z.eqb_refl. auto.
Qed.

Lemma has_col_wants cols c : has_col (normal_columns cols) c = true <-> wants cols c.
Proof.
  unfold normal_columns, wants. destruct (has_col cols cDEPREL) eqn:E; rewrite has_col_in.
  - apply has_col_in in E. unfold cDEPREL, cHEAD in *. simpl. split; [intros [<-|H]; auto|intros [H|[-> _]]; auto].
  - assert (~ In 7 cols) by (intros H; apply has_col_in in H; unfold cDEPREL in E; congruence). tauto.
Qed.

Definition sel {A} (cols : columns) (c : Z) (x : option A) : option A := if has_col cols c then x else None.

Record row_of (cols : columns) (c : list str) (r : irow) : Prop := {
  ro_len : (9 < length c)%nat;
  ro_id : i_id r = row_id c;
  ro_text : i_text r = cell c 1;
  ro_lemma : i_lemma r = sel cols cLEMMA (cell_opt c 2);
  ro_deprel : i_deprel r = sel cols cDEPREL (cell_opt c 7);
  ro_space : i_space r = true <-> ~ no_space_after (cell c 9);
  ro_head : match sel cols cHEAD (cell_opt c 6) with
            | None => i_head r = None
            | Some s => exists h, parse_int s = Ok h /\ i_head r = Some h
            end;
  ro_pos : if has_col cols cUPOS || has_col cols cXPOS || has_col cols cFEATS
           then exists fs, i_pos r = Some (mkPos (sel cols cUPOS (cell_opt c 3)) (sel cols cXPOS (cell_opt c 4)) fs) /\
                           parse_to_dict (sel cols cFEATS (cell_opt c 5)) = Ok fs
           else i_pos r = None
}.

Lemma column_of_sel cols c cells x : 0 <= c -> column_of cols c (token_repr cells) = Ok x ->
  x = sel cols c (cell_opt cells (Z.to_nat c)).
Proof. intros H E. apply column_of_ok in E; auto. Qed.

Lemma column_of_total cols c cells : 0 <= c -> (Z.to_nat c < length cells)%nat ->
  column_of cols c (token_repr cells) = Ok (sel cols c (cell_opt cells (Z.to_nat c))).
Proof.
  intros H L. unfold column_of, sel. destruct (has_col cols c); auto. rewrite py_index_nonneg by auto.
  unfold token_repr, cell_opt, cell. fold underscore.
  destruct (nth_error cells (Z.to_nat c)) as [v|] eqn:E; [|apply nth_error_None in E; lia].
  rewrite (map_nth_error _ _ _ E). simpl. erewrite nth_error_nth by eauto. auto.
Qed.

Lemma token_repr_index_total cells c : 0 <= c -> (Z.to_nat c < length cells)%nat ->
  py_index (token_repr cells) c = Ok (cell_opt cells (Z.to_nat c)).
Proof.
  intros H L. pose proof (column_of_total [c] c cells H L) as E. unfold column_of, sel, has_col in E. simpl in E.
  rewrite Z.eqb_refl in E. simpl in E. auto.
Qed.

Lemma parse_line_row cols c r : parse_line cols c = Ok r -> row_of cols c r.
Proof.
  unfold parse_line. intros H.
  apply bind_ok_iff in H. destruct H as (i & Hi & H). apply bind_ok_iff in H. destruct H as (form & Hf & H).
  apply bind_ok_iff in H. destruct H as (p & Hp & H). apply bind_ok_iff in H. destruct H as (lemma & Hl & H).
  apply bind_ok_iff in H. destruct H as (head & Hh & H). apply bind_ok_iff in H. destruct H as (deprel & Hd & H).
  apply bind_ok_iff in H. destruct H as (misc & Hm & H). apply bind_ok_iff in H. destruct H as (md & Hmd & H).
  apply bind_ok_iff in H. destruct H as (h & Hho & H). injection H as <-.
  apply token_repr_index in Hi; [|unfold cID; lia]. apply token_repr_index in Hf; [|unfold cFORM; lia].
  apply token_repr_index in Hm; [|unfold cMISC; lia].
  apply column_of_sel in Hl; [|unfold cLEMMA; lia]. apply column_of_sel in Hh; [|unfold cHEAD; lia].
  apply column_of_sel in Hd; [|unfold cDEPREL; lia].
  constructor; simpl.
  - apply Hm.
  - apply Hi.
  - destruct Hf as [-> _]. change (Z.to_nat cFORM) with 1%nat. unfold cell_opt.
    destruct (str_eqb_spec (cell c 1) (of_string "_")) as [E|]; auto.
  - exact Hl.
  - exact Hd.
  - rewrite no_space_after_value. rewrite (parse_to_dict_get _ _ Hmd). destruct Hm as [-> _].
    change (Z.to_nat cMISC) with 9%nat. unfold cell_opt. destruct (value_in _ _); simpl; split; try congruence; intros X; exfalso; apply X; congruence.
  - subst head. change (Z.to_nat cHEAD) with 6%nat in Hho. destruct (sel cols cHEAD (cell_opt c 6)); [|congruence].
    unfold rmap in Hho. apply bind_ok_iff in Hho. destruct Hho as (z & Hz & E). exists z. split; congruence.
  - unfold pos_of in Hp. destruct (has_col cols cUPOS || has_col cols cXPOS || has_col cols cFEATS); [|congruence].
    apply bind_ok_iff in Hp. destruct Hp as (u & Hu & Hp). apply bind_ok_iff in Hp. destruct Hp as (x & Hx & Hp).
    apply bind_ok_iff in Hp. destruct Hp as (f & Hff & Hp). apply bind_ok_iff in Hp. destruct Hp as (fs & Hfs & Hp).
    apply column_of_sel in Hu; [|unfold cUPOS; lia]. apply column_of_sel in Hx; [|unfold cXPOS; lia].
    apply column_of_sel in Hff; [|unfold cFEATS; lia]. subst u x f. exists fs. split; auto. injection Hp as <-. reflexivity.
Qed.

(* a defect-free row is read, whatever the columns *)
Lemma parse_line_total cols c : well_formed_row c -> exists r, parse_line cols c = Ok r.
Proof.
  intros (L & F5 & F9 & F6). unfold parse_line.
  rewrite !token_repr_index_total by (unfold cID, cFORM, cMISC; simpl; lia).
  rewrite !column_of_total by (unfold cLEMMA, cHEAD, cDEPREL; simpl; lia). cbn [bind].
  assert (P : exists p, pos_of cols (token_repr c) = Ok p).
  { unfold pos_of. destruct (has_col cols cUPOS || has_col cols cXPOS || has_col cols cFEATS); [|eauto].
    rewrite !column_of_total by (unfold cUPOS, cXPOS, cFEATS; simpl; lia). cbn [bind].
    change (Z.to_nat cFEATS) with 5%nat.
    destruct (parse_to_dict_total (sel cols cFEATS (cell_opt c 5))) as [d E].
    { intros s e H. unfold sel in H. destruct (has_col cols cFEATS); [|discriminate]. apply F5; auto. }
    rewrite E. cbn [bind]. eauto. }
  destruct P as [p ->]. cbn [bind]. change (Z.to_nat cMISC) with 9%nat. change (Z.to_nat cHEAD) with 6%nat.
  destruct (parse_to_dict_total (cell_opt c 9)) as [d E]; [intros s e H; apply F9; auto|]. rewrite E. cbn [bind].
  unfold sel at 1. destruct (has_col cols cHEAD); [|cbn [bind]; eauto].
  destruct (cell_opt c 6) as [s|] eqn:E6; [|cbn [bind]; eauto].
  destruct (F6 s) as [h Eh]; auto. rewrite Eh. cbn [rmap bind]. eauto.
Qed.

(* ------------------------------------------------------------------ *)
(* Lines                                                                *)

Lemma startswith_iff s p : startswith s p = true <-> exists r, s = p ++ r.
Proof.
  unfold startswith. revert s; induction p as [|x p IH]; intros s; simpl.
  - split; eauto.
  - destruct s as [|y s]; [split; [discriminate|intros [r E]; discriminate]|].
    rewrite andb_true_iff, N.eqb_eq, IH. split.
    + intros [-> [r ->]]. eauto.
    + intros [r E]. inversion E; subst. eauto.
Qed.

Lemma line_event_spec cols l :
  (comment_line l /\ line_event cols l = None) \/
  (blank_line l /\ line_event cols l = Some EvBlank) \/
  (row_line l /\ line_event cols l = Some (match parse_line cols (cells_of l) with Ok r => EvRow r | Err e => EvErr e end)).
Proof.
  unfold line_event, row_line, comment_line, blank_line, cells_of.
  destruct (startswith (strip_crlf l) (of_string "#")) eqn:E.
  - left. split; auto. apply startswith_iff in E. auto.
  - assert (NC : ~ exists s, strip_crlf l = of_string "#" ++ s).
    { intros H. apply startswith_iff in H. congruence. }
    right. destruct (strip_crlf l) as [|c s] eqn:El; [auto|]. right. split; auto. split; auto. congruence.
Qed.

(* ------------------------------------------------------------------ *)
(* The first sentence of a parse                                        *)

Definition completes (op : opened) (rows : list irow) (gs : list (group irow)) : Prop :=
  match op with
  | None => grouped i_id rows gs
  | Some (g, ws, n) =>
      exists ws2 rows2 gs2, rows = ws2 ++ rows2 /\ ws ++ ws2 <> [] /\ ws2 <> [] /\ zlen (ws ++ ws2) = n /\
        gs = GRange g (ws ++ ws2) :: gs2 /\ grouped i_id rows2 gs2
  end.

Lemma range_count_ok i n : range_count i = Ok n -> mem_char 45%N i = true ->
  exists sa sb a b, i = sa ++ 45%N :: sb /\ ~ In 45%N sa /\ ~ In 45%N sb /\ parse_int sa = Ok a /\ parse_int sb = Ok b /\ n = b - a + 1.
Proof.
  unfold range_count. change (ch "-"%char) with 45%N. intros H M. apply bind_ok_iff in H. destruct H as (u & HA & H).
  apply assert_ok in HA. apply Z.eqb_eq in HA.
  pose proof (join_split 45%N i) as J. pose proof (split_pieces 45%N i) as SP. destruct (split 45%N i) as [|sa [|sb [|x l]]]; try discriminate HA.
  2:{ rewrite !zlen_cons in HA. pose proof (zlen_nonneg l). lia. }
  cbn in J. unfold py_index in H. cbn in H.
  apply bind_ok_iff in H. destruct H as (b & Hb & H). apply bind_ok_iff in H. destruct H as (a & Ha & H).
  exists sa, sb, a, b. injection H as <-. subst i. inversion SP as [|? ? SP1 SP2]; subst. inversion SP2; subst. auto 8.
Qed.

Lemma first_block cols lines : forall cur op b bs t,
  parse cur op (events cols lines) = (b :: bs, t) ->
  exists l1 l2 crows rows gs, lines = l1 ++ l2 /\ sentence_lines l1 crows /\
    Forall2 (fun c r => parse_line cols c = Ok r) crows rows /\
    b = cur ++ gs /\ completes op rows gs /\ parse [] None (events cols l2) = (bs, t).
Proof.
  induction lines as [|l lines IH]; intros cur op b bs t H; [discriminate|]. cbn [events] in H.
  destruct (line_event_spec cols l) as [[C E]|[[C E]|[C E]]]; rewrite E in H.
  - destruct (IH _ _ _ _ _ H) as (l1 & l2 & crows & rows & gs & -> & SL & F & Eb & CO & P).
    exists (l :: l1), l2, crows, rows, gs. repeat (split; auto). apply sl_comment; auto.
  - cbn [parse] in H. destruct op; [discriminate|]. destruct cur as [|g cur]; [discriminate|].
    destruct (parse [] None (events cols lines)) as [bs' t'] eqn:P. injection H as <- <- <-.
    exists [l], lines, [], [], []. rewrite app_nil_r. repeat (split; auto); constructor; auto.
  - destruct (parse_line cols (cells_of l)) as [r|e] eqn:PL; cbn [parse] in H; [|discriminate].
    destruct (row_step cur op r) as [[cur' op']|e] eqn:RS; [|discriminate].
    destruct (IH _ _ _ _ _ H) as (l1 & l2 & crows & rows & gs & -> & SL & F & Eb & CO & P).
    exists (l :: l1), l2, (cells_of l :: crows), (r :: rows).
    unfold row_step in RS. destruct op as [[[g ws] n]|].
    + destruct (i_text g); [discriminate|]. destruct (n =? zlen (ws ++ [r])) eqn:En; injection RS as <- <-.
      * exists (GRange g (ws ++ [r]) :: gs). rewrite <- app_assoc in Eb. simpl in Eb.
        repeat (split; auto); try (constructor; auto; fail).
        exists [r], rows, gs. apply Z.eqb_eq in En. repeat split; auto; try congruence. destruct ws; simpl; congruence.
      * exists gs. repeat (split; auto); try (constructor; auto; fail). simpl in CO.
        destruct CO as (ws2 & rows2 & gs2 & -> & N1 & N2 & Z & -> & G). rewrite <- app_assoc in *. simpl in *.
        exists (r :: ws2), rows2, gs2. repeat split; auto; congruence.
    + destruct (i_id r) as [i|] eqn:Ei; [|discriminate]. destruct (mem_char 46%N i) eqn:M46.
      * injection RS as <- <-. exists gs. repeat (split; auto); try (constructor; auto; fail).
        simpl. apply (grouped_empty _ _ _ _ i); auto. apply mem_char_spec; auto.
      * destruct (mem_char 45%N i) eqn:M45.
        -- destruct (range_count i) as [n|] eqn:RC; [|discriminate]. injection RS as <- <-.
           simpl in CO. destruct CO as (ws2 & rows2 & gs2 & -> & N1 & N2 & Z & -> & G).
           exists (GRange r ws2 :: gs2). repeat (split; auto); try (constructor; auto; fail). simpl.
           destruct (range_count_ok _ _ RC M45) as (sa & sb & a & b' & -> & Na & Nb & Ha & Hb & ->).
           eapply grouped_range; eauto. intros X. apply mem_char_spec in X. congruence.
        -- destruct (i_text r); [discriminate|]. injection RS as <- <-. exists (GWord r :: gs).
           rewrite <- app_assoc in Eb. repeat (split; auto); try (constructor; auto; fail). simpl.
           apply (grouped_word _ _ _ _ i); auto; intros X; apply mem_char_spec in X; congruence.
Qed.

Lemma parse_not_empty evs : forall cur op, (cur <> [] \/ op <> None) -> parse cur op evs <> ([], TEnd []).
Proof.
induction evs as [|e evs IH]; intros cur op NE X; cbn [parse] in X.
      - destruct op; [discriminate|]. injection X as ->. tauto.
      - destruct e as [|r|e]; [| |discriminate].
        + destruct op; [discriminate|]. destruct cur; [discriminate|]. destruct (parse [] None evs); discriminate.
        + destruct (row_step cur op r) as [[cur' op']|] eqn:RS; [|discriminate]. revert X. apply IH.
          unfold row_step in RS. destruct op as [[[g ws] n]|].
          * destruct (i_text g); [discriminate|]. destruct (n =? zlen (ws ++ [r])); injection RS as <- <-.
            -- left. destruct cur; simpl; congruence.
            -- right. congruence.
          * destruct NE as [NE|NE]; [|congruence]. destruct (i_id r) as [i|]; [|discriminate]. destruct (mem_char 46%N i); [injection RS as <- <-; auto|].
            destruct (mem_char 45%N i).
            -- destruct (range_count i); [|discriminate]. injection RS as <- <-. auto.
            -- destruct (i_text r); [discriminate|]. injection RS as <- <-. left. destruct cur; simpl; congruence.
Qed.

(* lines that leave no sentence open *)
Lemma parse_trailing cols lines : parse [] None (events cols lines) = ([], TEnd []) -> Forall ignorable lines.
Proof.
  induction lines as [|l lines IH]; intros H; constructor; cbn [events] in H;
  destruct (line_event_spec cols l) as [[C E]|[[C E]|[C E]]]; rewrite E in H; auto.
  - left; auto.
  - cbn in H. discriminate.
  - right. split; auto. destruct (parse_line cols (cells_of l)) as [r|e] eqn:PL; cbn [parse] in H; [|discriminate].
    pose proof (ro_id _ _ _ (parse_line_row _ _ _ PL)) as I.
    destruct (row_step [] None r) as [[cur' op']|] eqn:RS; [|discriminate].
    unfold row_step in RS. destruct (i_id r) as [i|]; [|discriminate].
    destruct (mem_char 46%N i) eqn:M; [exists i; split; auto; apply mem_char_spec; auto|]. exfalso.
    revert H. apply parse_not_empty. destruct (mem_char 45%N i).
    + destruct (range_count i); [|discriminate]. injection RS as <- <-. right; congruence.
    + destruct (i_text r); [discriminate|]. injection RS as <- <-. left. simpl. congruence.
  - cbn in H. discriminate.
  - apply IH. destruct (parse_line cols (cells_of l)) as [r|e] eqn:PL; cbn [parse] in H; [|discriminate].
    destruct (row_step [] None r) as [[cur' op']|] eqn:RS; [|discriminate].
    unfold row_step in RS. destruct (i_id r) as [i|]; [|discriminate].
    destruct (mem_char 46%N i) eqn:M; [injection RS as <- <-; auto|]. exfalso.
    revert H. apply parse_not_empty. destruct (mem_char 45%N i).
    + destruct (range_count i); [|discriminate]. injection RS as <- <-. right; congruence.
    + destruct (i_text r); [discriminate|]. injection RS as <- <-. left. simpl. congruence.
Qed.

(* groups of rows and groups of cells *)
Definition group_rel {A B} (P : A -> B -> Prop) (g : group A) (h : group B) : Prop :=
  match g, h with
  | GWord a, GWord b => P a b
  | GRange a ws, GRange b vs => P a b /\ Forall2 P ws vs
  | _, _ => False
  end.

Lemma grouped_transfer {A B} (P : A -> B -> Prop) ia ib :
  (forall a b, P a b -> ia a = ib b) ->
  forall rows gs, grouped ib rows gs -> forall crows, Forall2 P crows rows ->
  exists cgs, grouped ia crows cgs /\ Forall2 (group_rel P) cgs gs.
Proof.
  intros HI rows gs G. induction G as [|r rs gs i E I G IH|r rs gs i E I1 I2 G IH|r ws rs gs sa sb a b E I NA NB PA PB NE Z G IH];
    intros crows F.
  - inversion F; subst. exists []. split; constructor.
  - inversion F as [|c ? cs ? X F']; subst. destruct (IH _ F') as (cgs & G' & R). exists cgs. split; auto.
    eapply grouped_empty; eauto. rewrite (HI _ _ X); eauto.
  - inversion F as [|c ? cs ? X F']; subst. destruct (IH _ F') as (cgs & G' & R). exists (GWord c :: cgs). split.
    + eapply grouped_word; eauto. rewrite (HI _ _ X); eauto.
    + constructor; auto.
  - inversion F as [|c ? cs ? X F']; subst. apply Forall2_app_inv_r in F'. destruct F' as (c1 & c2 & F1 & F2 & ->).
    destruct (IH _ F2) as (cgs & G' & R). exists (GRange c c1 :: cgs). split.
    + eapply grouped_range; eauto.
      * rewrite (HI _ _ X); eauto.
      * inversion F1; subst; congruence.
      * unfold zlen in *. rewrite (Forall2_length' _ _ _ F1). auto.
    + constructor; auto. split; auto.
Qed.

Lemma parse_lines cols bs : forall lines t, parse [] None (events cols lines) = (bs, t) ->
  exists lss rest cgss,
    lines = concat lss ++ rest /\
    Forall2 (fun ls cgs => exists crows, sentence_lines ls crows /\ grouped row_id crows cgs) lss cgss /\
    Forall2 (Forall2 (group_rel (fun c r => parse_line cols c = Ok r))) cgss bs /\
    parse [] None (events cols rest) = ([], t).
Proof.
  induction bs as [|b bs IH]; intros lines t H.
  - exists [], lines, []. repeat split; auto; constructor.
  - apply first_block in H. destruct H as (l1 & l2 & crows & rows & gs & -> & SL & F & -> & CO & P).
    simpl in CO. destruct (IH _ _ P) as (lss & rest & cgss & -> & F1 & F2 & P').
    assert (HI : forall c r, parse_line cols c = Ok r -> row_id c = i_id r).
    { intros c r H. symmetry. apply (ro_id _ _ _ (parse_line_row _ _ _ H)). }
    destruct (grouped_transfer _ _ _ HI _ _ CO _ F) as (cgs & G & R).
    exists (l1 :: lss), rest, (cgs :: cgss). simpl. rewrite app_assoc. repeat split; auto; constructor; auto. eauto.
Qed.
