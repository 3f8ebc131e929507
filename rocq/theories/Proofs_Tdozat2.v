(* Proofs about the tdozat wrapper: single tokens. *)
From Coq Require Import String Ascii ZArith NArith Bool Lia Permutation Sorted List.
From Verif Require Import Base BaseFacts Model_Datamodel Spec_Datamodel Proofs_Datamodel Proofs_Syntax Proofs_Datamodel2
  Proofs_Datamodel4 Model_Conllu Proofs_Conllu6 Model_Processors Spec_Processors Proofs_Processors Proofs_Processors2
  Model_Tdozat Spec_Tdozat Proofs_Tdozat.
Import ListNotations.
Open Scope Z_scope.

(* ------------------------------------------------------------------ *)
(* key=value columns *)

Lemma dict_entry_piece d e : dict_entry d e = do kv <- read_piece e; Ok (dict_set d (fst kv) (snd kv)).
Proof. unfold dict_entry, read_piece. destruct (split (ch "=") e) as [|k [|v r]]; reflexivity. Qed.

Lemma entries_pieces es : forall d, foldM dict_entry d es = do kvs <- mapM read_piece es; Ok (dict_update d kvs).
Proof.
  induction es as [|e es IH]; intros d; [reflexivity|]. cbn [foldM mapM]. rewrite dict_entry_piece. destruct (read_piece e) as [kv|x]; cbn [bind]; auto.
  rewrite IH. destruct (mapM read_piece es); reflexivity.
Qed.

Lemma pairs_read o :
  (pairs o /\ exists fs, parse_to_dict o = Ok fs /\ column_features o fs) \/ (~ pairs o /\ parse_to_dict o = Err EIndex).
Proof.
  destruct o as [s|]; cbn [parse_to_dict]; [|left; split; [exact Logic.I|exists []; split; reflexivity]].
  rewrite entries_pieces. destruct (read_pieces (split (ch "|"%char) s)) as [(es & M & F)|(M & N)]; rewrite M; cbn [bind]; [left|right; split; auto].
  split.
  - cbn [pairs]. clear -F. induction F as [|p e l l' (_ & _ & r & -> & _) F IH]; constructor; auto. apply in_app_iff. right. left. auto.
  - eexists. split; [reflexivity|]. cbn [column_features]. exists (split (ch "|"%char) s), es. split; [symmetry; apply join_split|].
    split; [apply split_nonempty|]. split; [apply split_pieces_no_sep|]. split; auto. apply dict_update_get.
Qed.

Lemma parse_int_cases s : (exists h, parse_int s = Ok h) \/ parse_int s = Err EValue.
Proof.
  unfold parse_int. destruct (strip s) as [|c s']; auto. destruct (c =? 45)%N; [|destruct (c =? 43)%N];
    (destruct (parse_nat_str _); cbn; [left; eauto|right; auto]).
Qed.

Lemma update_in {V} (es : dict V) k v : dict_get (dict_update [] es) k = Some v -> In (k, v) es.
Proof.
  unfold dict_update. induction es as [|[k' v'] es IH] using rev_ind; [discriminate|]. rewrite fold_left_app. cbn [fold_left fst snd].
  intros H. apply in_app_iff. destruct (str_eqb k k') eqn:E.
  - apply str_eqb_eq in E. subst. rewrite dict_get_set_same in H. right. left. congruence.
  - rewrite dict_get_set_other in H by (intros X; subst; rewrite str_eqb_refl in E; discriminate). auto.
Qed.
Lemma update_out {V} (es : dict V) k : dict_get (dict_update [] es) k = None -> ~ In k (map fst es).
Proof.
  unfold dict_update. induction es as [|[k' v'] es IH] using rev_ind; [intros _ []|]. rewrite fold_left_app. cbn [fold_left fst snd].
  intros H. rewrite map_app, in_app_iff. destruct (str_eqb k k') eqn:E.
  - apply str_eqb_eq in E. subst. rewrite dict_get_set_same in H. discriminate.
  - assert (k <> k') by (intros X; subst; rewrite str_eqb_refl in E; discriminate).
    rewrite dict_get_set_other in H by auto. intros [X|[X|[]]]; [exact (IH H X)|cbn in X; congruence].
Qed.

(* ------------------------------------------------------------------ *)
(* cells *)

Section Cells.
Variable bs : list batch.
Hypothesis REG : regular bs.
Hypothesis ND : NoDup (concat (map fst bs)).
Notation p := (fold_left cache bs empty_store).

Lemma gives_provided f n row : gives bs f n row -> provided bs f.
Proof.
  intros (ns & vs & rs & m & I & _ & E & _). exists (ns, vs). split; auto. cbn [snd]. apply dict_get_In in E. apply (in_map fst) in E. exact E.
Qed.

Lemma get_cell_iff f n r j v : nth_error (concat (map fst bs)) r = Some (Z.of_nat n) ->
  get_cell p f (Z.of_nat r) (Z.of_nat j) = Ok v <-> cell bs f n j v.
Proof.
  intros E. unfold get_cell, cell. split.
  - intros H. apply bind_ok_iff in H. destruct H as (rs & H1 & H). apply bind_ok_iff in H. destruct H as (row & H2 & H3).
    destruct (dict_get (cached p) f) as [rs'|] eqn:G; [|discriminate]. injection H1 as ->.
    assert (P : provided bs f) by (apply (store_provided bs REG ND); apply dict_mem_In; apply dict_get_In in G; apply (in_map fst) in G; exact G).
    destruct (store_rows bs REG ND f n r E P) as (rs' & G' & R). rewrite G in G'. injection G' as <-.
    rewrite py_index_nat in H2. rewrite py_index_nat in H3. exists row. split.
    + apply R. destruct (nth_error rs r); congruence.
    + destruct (nth_error row j); congruence.
  - intros (row & H1 & H2). destruct (store_rows bs REG ND f n r E (gives_provided _ _ _ H1)) as (rs & G & R). apply R in H1.
    rewrite G. cbn [of_option bind]. rewrite !py_index_nat. rewrite H1. cbn [bind]. rewrite py_index_nat, H2. reflexivity.
Qed.

Definition unshield (s : str) : option str := if str_eqb s underscore then None else Some s.

Lemma field_value extra n r j f : nth_error (concat (map fst bs)) r = Some (Z.of_nat n) -> answered bs extra n j ->
  In f ["form"; "lemma"; "upos"; "xpos"; "ufeats"; "dephead"; "deprel"; "semrel"; "misc"]%string ->
  exists s, (if dict_mem (cached p) (of_string f) then get_cell p (of_string f) (Z.of_nat r) (Z.of_nat j) else Ok (PStr underscore)) = Ok (PStr s) /\
    column bs n j f (unshield s).
Proof.
  intros E (_ & A & _) I. destruct (dict_mem (cached p) (of_string f)) eqn:M.
  - apply (store_provided bs REG ND) in M. destruct (A f I M) as (s & C). exists s. split; [apply get_cell_iff with (n := n); auto|]. right. exists s. split; auto.
  - exists underscore. split; auto. left. split; auto. intros P. apply (store_provided bs REG ND) in P. congruence.
Qed.

Lemma extra_values extra l n r j : nth_error (concat (map fst bs)) r = Some (Z.of_nat n) -> answered bs extra n j -> incl l extra ->
  exists es, mapM (fun f => do v <- get_cell p f (Z.of_nat r) (Z.of_nat j); Ok (f, v)) l = Ok es /\ map fst es = l /\
    forall f v, In (f, v) es -> cell bs f n j v.
Proof.
  intros E (_ & _ & A). induction l as [|f l IH]; intros J; [exists []; repeat split; intros ? ? []|].
  destruct (A f (J f (or_introl eq_refl))) as (v & C). destruct IH as (es & M & K & V); [intros x H; apply J; right; auto|].
  cbn [mapM]. rewrite (proj2 (get_cell_iff f n r j v E) C). cbn [bind]. rewrite M. cbn [bind]. eexists. split; [reflexivity|]. cbn [map fst]. split; [congruence|].
  intros g w [H|H]; [injection H as <- <-; auto|auto].
Qed.

Lemma cell_unique f n j v w : cell bs f n j v -> cell bs f n j w -> v = w.
Proof.
  intros C1 C2. assert (X : exists r, nth_error (concat (map fst bs)) r = Some (Z.of_nat n)).
  { destruct C1 as (row & (ns & vs & rs & m & I & E & _) & _). apply In_nth_error. apply in_concat. exists ns. split; [apply in_map_iff; exists (ns, vs); auto|].
    eapply nth_error_In; eauto. }
  destruct X as (r & E). apply (get_cell_iff f n r j) in C1; auto. apply (get_cell_iff f n r j) in C2; auto. congruence.
Qed.

Lemma column_unique f n j o o' : column bs n j f o -> column bs n j f o' -> o = o'.
Proof.
  intros [(N & ->)|(s & C & ->)] [(N' & ->)|(s' & C' & ->)]; auto.
  - destruct C' as (row & G & _). destruct (N (gives_provided _ _ _ G)).
  - destruct C as (row & G & _). destruct (N' (gives_provided _ _ _ G)).
  - pose proof (cell_unique _ _ _ _ _ C C') as X. injection X as ->. auto.
Qed.

Lemma parse_token_spec extra n r j st t : nth_error (concat (map fst bs)) r = Some (Z.of_nat n) -> answered bs extra n j -> token_wf t ->
  (readable bs n j /\ exists t', parse_token p extra (Z.of_nat r) (Z.of_nat j) t = Ok t' /\ same_place t t' /\ heads_agree st t' /\
     predicted bs extra n j st t (fill st t')) \/
  (~ readable bs n j /\ exists e, parse_token p extra (Z.of_nat r) (Z.of_nat j) t = Err e /\ (e = EIndex \/ e = EValue)).
Proof.
  intros E A W. unfold parse_token, id_field.
  destruct A as (A0 & A'). pose proof (conj A0 A') as A. destruct A0 as (id & C). rewrite (proj2 (get_cell_iff _ n r j _ E) C). cbn [bind].
  unfold line_fields. cbn [map mapM].
  destruct (field_value extra n r j "form" E A) as (s1 & E1 & C1); [cbn; tauto|].
  destruct (field_value extra n r j "lemma" E A) as (s2 & E2 & C2); [cbn; tauto|].
  destruct (field_value extra n r j "upos" E A) as (s3 & E3 & C3); [cbn; tauto|].
  destruct (field_value extra n r j "xpos" E A) as (s4 & E4 & C4); [cbn; tauto|].
  destruct (field_value extra n r j "ufeats" E A) as (s5 & E5 & C5); [cbn; tauto|].
  destruct (field_value extra n r j "dephead" E A) as (s6 & E6 & C6); [cbn; tauto|].
  destruct (field_value extra n r j "deprel" E A) as (s7 & E7 & C7); [cbn; tauto|].
  destruct (field_value extra n r j "semrel" E A) as (s8 & E8 & C8); [cbn; tauto|].
  destruct (field_value extra n r j "misc" E A) as (s9 & E9 & C9); [cbn; tauto|].
  rewrite E1; cbn [bind]. rewrite E2; cbn [bind]. rewrite E3; cbn [bind]. rewrite E4; cbn [bind]. rewrite E5; cbn [bind].
  rewrite E6; cbn [bind]. rewrite E7; cbn [bind]. rewrite E8; cbn [bind]. rewrite E9; cbn [bind].
  destruct (extra_values extra extra n r j E A (incl_refl _)) as (es & Ee & Ke & Ve). rewrite Ee. cbn [bind].
  cbn [mapM cell_str bind]. unfold parse_line.
  assert (TR : token_repr [id; s1; s2; s3; s4; s5; s6; s7; s8; s9] = map unshield [id; s1; s2; s3; s4; s5; s6; s7; s8; s9]) by reflexivity.
  rewrite TR. cbn [map].
  change (py_index [unshield id; unshield s1; unshield s2; unshield s3; unshield s4; unshield s5; unshield s6; unshield s7; unshield s8; unshield s9] cID) with (Ok (unshield id)).
  change (py_index [unshield id; unshield s1; unshield s2; unshield s3; unshield s4; unshield s5; unshield s6; unshield s7; unshield s8; unshield s9] cFORM) with (Ok (unshield s1)).
  change (py_index [unshield id; unshield s1; unshield s2; unshield s3; unshield s4; unshield s5; unshield s6; unshield s7; unshield s8; unshield s9] cMISC) with (Ok (unshield s9)).
  cbn [bind].
  change (pos_of tdozat_columns [unshield id; unshield s1; unshield s2; unshield s3; unshield s4; unshield s5; unshield s6; unshield s7; unshield s8; unshield s9])
    with (do fs <- parse_to_dict (unshield s5); Ok (Some (mkPos (unshield s3) (unshield s4) fs))).
  change (column_of tdozat_columns cLEMMA [unshield id; unshield s1; unshield s2; unshield s3; unshield s4; unshield s5; unshield s6; unshield s7; unshield s8; unshield s9])
    with (Ok (unshield s2)).
  change (column_of tdozat_columns cHEAD [unshield id; unshield s1; unshield s2; unshield s3; unshield s4; unshield s5; unshield s6; unshield s7; unshield s8; unshield s9])
    with (Ok (unshield s6)).
  change (column_of tdozat_columns cDEPREL [unshield id; unshield s1; unshield s2; unshield s3; unshield s4; unshield s5; unshield s6; unshield s7; unshield s8; unshield s9])
    with (Ok (unshield s7)).
  cbn [bind].
  destruct (pairs_read (unshield s5)) as [(P5 & fs & D5 & F5)|(N5 & D5)]; rewrite D5; cbn [bind].
  2:{ right. split; [intros (X & _); apply N5, X; auto|eauto]. }
  destruct (pairs_read (unshield s9)) as [(P9 & ms & D9 & F9)|(N9 & D9)]; rewrite D9; cbn [bind].
  2:{ right. split; [intros (_ & X & _); apply N9, X; auto|eauto]. }
  assert (H6 : (exists h, (match unshield s6 with None => Ok None | Some s => rmap Some (parse_int s) end) = Ok h /\
                 match unshield s6, h with None, None => True | Some s, Some z => parse_int s = Ok z | _, _ => False end) \/
               (exists s, unshield s6 = Some s /\ (forall h, parse_int s <> Ok h) /\ rmap Some (parse_int s) = @Err (option Z) EValue)).
  { destruct (unshield s6) as [s|]; [|left; exists None; split; auto]. destruct (parse_int_cases s) as [(h & H)|H].
    - left. exists (Some h). rewrite H. split; auto.
    - right. exists s. rewrite H. split; auto. split; auto. intros h. discriminate. }
  destruct H6 as [(h & H6 & Hh)|(s & H6 & Hn & He)].
  2:{ right. rewrite H6, He. cbn [bind]. split; [|eauto]. intros (_ & _ & X). destruct (X s) as (h & Y); [rewrite <- H6; auto|]. exact (Hn h Y). }
  rewrite H6. cbn [bind i_pos i_lemma i_deprel i_head]. left. split.
  { split; [|split].
    - intros o Co. rewrite (column_unique _ _ _ _ _ Co C5). auto.
    - intros o Co. rewrite (column_unique _ _ _ _ _ Co C9). auto.
    - intros s Co. pose proof (column_unique _ _ _ _ _ Co C6) as X. rewrite <- X in Hh. destruct h as [h|]; [eauto|contradiction]. }
  rewrite with_morphology_ok by auto. cbn [bind]. rewrite with_syntax_ok by exact W. cbn [bind tstart tend tpos tlemma tsub trepl textras tdeprel thdoc thsent update_extras].
  rewrite with_extras_ok by exact W. cbn [tstart tend tpos tlemma tsub trepl textras tdeprel thdoc thsent].
  eexists. split; [reflexivity|]. split; [repeat split|]. split; [intros a b X; discriminate X|].
  unfold predicted, fill, set_heads. cbn [tstart tend tpos tlemma tsub trepl textras tdeprel thdoc thsent].
  do 4 (split; [reflexivity|]). split; [exact C2|]. split; [exact C7|]. split; [exists (mkPos (unshield s3) (unshield s4) fs), (unshield s5); auto 6|].
  split; [|split].
  - exists (unshield s6). split; [exact C6|]. unfold column_head. cbn [thsent thdoc]. destruct (unshield s6) as [s|]; destruct h as [h|]; try contradiction.
    + exists h. split; [exact Hh|]. unfold compute_head. destruct (Z.eqb_spec h 0) as [->|Nh]; unfold filled_pair; cbn [is_minus1].
      * split; [intros _; split; reflexivity|congruence].
      * destruct (Z.eqb_spec (h - 1) (-1)); [lia|]. cbn [orb fst snd]. split; [lia|]. intros _. split; [auto|]. f_equal. lia.
    + split; reflexivity.
  - intros k v J. rewrite extras_update_get by (apply dict_update_ok; constructor).
    destruct (dict_get (dict_update [] es) k) as [w|] eqn:G.
    + apply update_in in G. apply Ve in G. split; [intros X; injection X as <-; auto|]. intros X. f_equal. eapply cell_unique; eauto.
    + apply update_out in G. rewrite Ke in G. contradiction.
  - intros k J. rewrite extras_update_get by (apply dict_update_ok; constructor).
    destruct (dict_get (dict_update [] es) k) as [w|] eqn:G; [|reflexivity].
    apply update_in in G. apply (in_map fst) in G. rewrite Ke in G. contradiction.
Qed.
End Cells.
