(* A document the reader yielded, written and read again, keeps its text. *)
From Coq Require Import String Ascii ZArith NArith Bool Lia Permutation Sorted List.
From Verif Require Import Base BaseFacts Model_Datamodel Model_Conllu Spec_Datamodel Spec_Conllu
  Proofs_Datamodel Proofs_Syntax Proofs_Datamodel2 Proofs_Datamodel4 Proofs_Conllu Proofs_Conllu2 Proofs_Conllu3
  Proofs_Conllu4 Proofs_Conllu5 Proofs_Conllu6 Proofs_Conllu7 Proofs_Conllu8 Proofs_Conllu9.
Import ListNotations.
Open Scope Z_scope.

(* ---- what the reader reads is clean ---- *)

Record row_clean (r : irow) : Prop := {
  rc_text : clean (i_text r);
  rc_lemma : clean_opt (i_lemma r);
  rc_deprel : clean_opt (i_deprel r);
  rc_pos : forall p, i_pos r = Some p -> clean_opt (upos p) /\ clean_opt (xpos p) /\
             Forall (fun kv => clean_entry (fst kv) /\ clean_entry (snd kv)) (feats p)
}.

Lemma file_lines_no_nl text raw : In raw (file_lines text) -> ~ In chNL raw \/ exists l, raw = l ++ [chNL] /\ ~ In chNL l.
Proof.
  revert raw. induction text as [|c text IH]; intros raw H; [destruct H|]. cbn [file_lines] in H.
  destruct (N.eqb_spec c chNL) as [->|N].
  - destruct H as [<-|H]; [|auto]. right. exists []. split; auto.
  - destruct (file_lines text) as [|l ls] eqn:E.
    + destruct H as [<-|[]]. left. intros [X|[]]. auto.
    + destruct H as [<-|H]; [|apply IH; right; auto].
      destruct (IH l (or_introl eq_refl)) as [X|(l' & -> & X)].
      * left. intros [Y|Y]; auto.
      * right. exists (c :: l'). split; auto. intros [Y|Y]; auto.
Qed.

Lemma drop_while_in {A} (p : A -> bool) l x : In x (drop_while p l) -> In x l.
Proof. induction l as [|a l IH]; simpl; auto. destruct (p a); auto. Qed.

Lemma strip_crlf_in s x : In x (strip_crlf s) -> In x s.
Proof. unfold strip_crlf. rewrite <- in_rev. intros H. apply drop_while_in in H. rewrite <- in_rev in H. apply drop_while_in in H. auto. Qed.

Lemma strip_crlf_nl l : ~ In chNL l -> ~ In chNL (strip_crlf (l ++ [chNL])).
Proof.
  intros N. unfold strip_crlf. rewrite <- in_rev. intros H.
  assert (E : drop_while is_crlf (l ++ [chNL]) = [] \/ exists l', drop_while is_crlf (l ++ [chNL]) = l' ++ [chNL] /\ forall x, In x l' -> In x l).
  { clear. induction l as [|c l IH]; [left; reflexivity|]. cbn [app drop_while]. destruct (is_crlf c).
    - destruct IH as [E|(l' & E & S0)]; [left; auto|right]. exists l'. split; auto. intros. right. auto.
    - right. exists (c :: l). split; auto. }
  destruct E as [E|(l' & E & S0)]; rewrite E in H; [destruct H|]. rewrite rev_app_distr in H. cbn [rev app drop_while] in H.
  change (is_crlf chNL) with true in H. cbv iota in H. apply drop_while_in in H. rewrite <- in_rev in H. auto.
Qed.

Lemma cells_clean text raw : In raw (file_lines text) -> Forall clean (cells_of raw).
Proof.
  intros H. assert (N : ~ In chNL (strip_crlf raw)).
  { destruct (file_lines_no_nl _ _ H) as [X|(l & -> & X)]; [intros I; apply strip_crlf_in in I; auto|apply strip_crlf_nl; auto]. }
  apply Forall_forall. intros c Hc. split.
  - pose proof (split_pieces chTAB (strip_crlf raw)) as P. rewrite Forall_forall in P. apply P. auto.
  - intros I. apply N. rewrite <- (join_split chTAB). unfold cells_of in Hc. revert Hc I. clear. generalize (split chTAB (strip_crlf raw)) as l.
    induction l as [|a l IH]; [intros []|]. intros [->|Hc] I; destruct l as [|b l].
    + simpl. rewrite ?app_nil_r. auto.
    + rewrite join_cons, in_app_iff. auto.
    + destruct Hc.
    + rewrite join_cons, in_app_iff. right. right. apply IH; auto.
Qed.

Lemma cell_clean cells n : Forall clean cells -> clean (cell cells n).
Proof.
  intros F. unfold cell. destruct (nth_in_or_default n cells []) as [I|I]; [rewrite Forall_forall in F; auto|rewrite I; split; intros []].
Qed.

Lemma cell_opt_clean cells n : Forall clean cells -> clean_opt (cell_opt cells n).
Proof. intros F s. unfold cell_opt. destruct (str_eqb _ _); [discriminate|]. intros [= <-]. apply cell_clean; auto. Qed.

Lemma in_split_in c s p x : In p (split c s) -> In x p -> In x s.
Proof.
  intros Hp Hx. rewrite <- (join_split c s). revert Hp Hx. generalize (split c s) as l. clear.
  induction l as [|a l IH]; [intros []|]. intros [->|Hc] I; destruct l as [|b l].
  - simpl. rewrite ?app_nil_r. auto.
  - rewrite join_cons, in_app_iff. auto.
  - destruct Hc.
  - rewrite join_cons, in_app_iff. right. right. apply IH; auto.
Qed.

Lemma dict_set_all {V} (P : str * V -> Prop) (d : dict V) k v : Forall P d -> P (k, v) -> Forall P (dict_set d k v).
Proof.
  induction d as [|[k' v'] d IH]; intros F Pk; simpl; [constructor; auto|]. inversion F; subst.
  destruct (str_eqb k k') eqn:E; constructor; auto. apply str_eqb_eq in E. subst. auto.
Qed.

Lemma parse_to_dict_clean o d : parse_to_dict o = Ok d -> clean_opt o ->
  Forall (fun kv => clean_entry (fst kv) /\ clean_entry (snd kv)) d.
Proof.
  destruct o as [s|]; cbn [parse_to_dict]; [|intros [= <-] _; constructor]. intros H C. specialize (C s eq_refl). destruct C as [C1 C2].
  change (ch "|"%char) with 124%N in H.
  assert (E : Forall (fun e => clean e /\ ~ In 124%N e) (split 124%N s)).
  { apply Forall_forall. intros e He. split; [split; intros I; [apply C1|apply C2]; eapply in_split_in; eauto|].
    pose proof (split_pieces 124%N s) as P. rewrite Forall_forall in P. auto. }
  revert H E. assert (F0 : Forall (fun kv : str * str => clean_entry (fst kv) /\ clean_entry (snd kv)) []) by constructor. revert F0.
  generalize (@nil (str * str)) as d0. generalize (split 124%N s) as es. clear.
  induction es as [|e es IH]; intros d0 F0 H E; cbn [foldM] in H; [injection H as <-; auto|].
  apply bind_ok_iff in H. destruct H as (d1 & H1 & H2). inversion E as [|? ? [[E0 E1] E2] E3]; subst. apply (IH d1); auto.
  apply dict_entry_ok in H1. destruct H1 as [_ ->]. apply dict_set_all; auto. cbn [fst snd].
  assert (X : forall p, In p (split 61%N e) -> clean_entry p).
  { intros p Hp. split; [split; intros I; [apply E0|apply E1]; eapply in_split_in; eauto|]. split.
    - pose proof (split_pieces 61%N e) as P. rewrite Forall_forall in P. auto.
    - intros I. apply E2. eapply in_split_in; eauto. }
  assert (Y : clean_entry []) by (repeat split; intros []).
  split; [unfold entry_key|unfold entry_value].
  - destruct (split 61%N e) as [|p l]; simpl; auto. apply X. left; auto.
  - destruct (nth_in_or_default 1 (split 61%N e) []) as [I|I]; [auto|rewrite I; auto].
Qed.

Lemma sel_clean nc c o : clean_opt o -> clean_opt (sel nc c o).
Proof. unfold sel. destruct (has_col nc c); auto. intros _ s. discriminate. Qed.

Lemma row_is_clean nc text raw r : In raw (file_lines text) -> parse_line nc (cells_of raw) = Ok r -> row_clean r.
Proof.
  intros H P. apply cells_clean in H. apply parse_line_row in P. constructor.
  - rewrite (ro_text _ _ _ P). apply cell_clean; auto.
  - rewrite (ro_lemma _ _ _ P). apply sel_clean, cell_opt_clean; auto.
  - rewrite (ro_deprel _ _ _ P). apply sel_clean, cell_opt_clean; auto.
  - intros p Hp. pose proof (ro_pos _ _ _ P) as RP. destruct (has_col nc cUPOS || has_col nc cXPOS || has_col nc cFEATS); [|congruence].
    destruct RP as (fs & E & D). rewrite E in Hp. injection Hp as <-. cbn [upos xpos feats].
    split; [apply sel_clean, cell_opt_clean; auto|]. split; [apply sel_clean, cell_opt_clean; auto|].
    eapply parse_to_dict_clean; [exact D|]. apply sel_clean, cell_opt_clean; auto.
Qed.

(* a predicate on rows carries over to the groups *)
Definition group_all (P : irow -> Prop) (g : group irow) : Prop :=
  match g with GWord r => P r | GRange r ws => P r /\ Forall P ws end.

Lemma parse_all (P : irow -> Prop) evs : (forall r, In (EvRow r) evs -> P r) ->
  forall cur op bs t, Forall (group_all P) cur ->
  match op with Some (g, ws, _) => P g /\ Forall P ws | None => True end ->
  parse cur op evs = (bs, t) -> Forall (Forall (group_all P)) bs.
Proof.
  induction evs as [|ev evs IH]; intros H cur op bs t FC FO E; cbn [parse] in E; [injection E as <- <-; constructor|].
  assert (H' : forall r, In (EvRow r) evs -> P r) by (intros; apply H; right; auto).
  destruct ev as [|r|e].
  - destruct op; [injection E as <- <-; constructor|]. destruct cur as [|c0 cur]; [injection E as <- <-; constructor|].
    destruct (parse [] None evs) as [bs' t'] eqn:E2. injection E as <- <-. constructor; auto. refine (IH H' _ _ _ _ _ _ E2); cbv iota beta; auto.
  - assert (Pr : P r) by (apply H; left; auto).
    destruct (row_step cur op r) as [[cur' op']|e] eqn:R; [|injection E as <- <-; constructor].
    unfold row_step in R. destruct op as [[[g ws] n]|].
    + destruct FO as [FG FW]. destruct (i_text g); [discriminate|]. destruct (n =? zlen (ws ++ [r])); injection R as <- <-.
      * refine (IH H' _ _ _ _ _ _ E); cbv iota beta; auto. apply Forall_app. split; auto. constructor; auto. simpl. split; auto. apply Forall_app; auto.
      * refine (IH H' _ _ _ _ _ _ E); cbv iota beta; auto. split; auto. apply Forall_app; auto.
    + destruct (i_id r); [|discriminate]. destruct (mem_char 46%N s); [injection R as <- <-; refine (IH H' _ _ _ _ _ _ E); cbv iota beta; auto|].
      destruct (mem_char 45%N s).
      * apply bind_ok_iff in R. destruct R as (n & _ & R). injection R as <- <-. refine (IH H' _ _ _ _ _ _ E); cbv iota beta; auto.
      * destruct (i_text r); [discriminate|]. injection R as <- <-. refine (IH H' _ _ _ _ _ _ E); cbv iota beta; auto; apply Forall_app; auto.
  - injection E as <- <-. constructor.
Qed.

(* the blocks of a document *)
Lemma runs_in limit used ds d : runs limit used ds -> In d ds -> exists acc, incl acc used /\ acc <> [] /\ doc_of acc [] = Ok d.
Proof.
  intros R I. induction R as [|acc bs d0 ds N Z D R IH|acc d0 N Z D]; [destruct I| |].
  - destruct I as [->|I]; [exists acc; split; auto; apply incl_appl, incl_refl|].
    destruct (IH I) as (acc' & A & B & C). exists acc'. split; auto. apply incl_appr. auto.
  - destruct I as [->|[]]. exists acc. split; auto. apply incl_refl.
Qed.

Lemma reader_doc_all (P : irow -> Prop) k cr text ds e d : read_str k cr text = Ok (ds, e) -> In d ds ->
  (forall raw r, In raw (file_lines text) -> parse_line (normal_columns cr) (cells_of raw) = Ok r -> P r) ->
  exists acc, acc <> [] /\ Forall block_ok acc /\ Forall (Forall (group_all P)) acc /\ doc_of acc [] = Ok d.
Proof.
  intros R I HP. pose proof Logic.I as I0. apply read_str_blocks in R. destruct R as [K R].
  destruct (parse [] None (events (normal_columns cr) (file_lines text))) as [bs t] eqn:EP.
  destruct (parse_ok _ _ _ _ _ (Forall_nil _) EP) as [O1 O2].
  assert (C : Forall (Forall (group_all P)) bs).
  { eapply parse_all; [|constructor| |exact EP]; [|exact I0]. intros r Hr. apply in_events in Hr. destruct Hr as (raw & H1 & H2). eapply HP; eauto. }
  symmetry in R. apply assemble_runs in R; [|exact K|exact O2|exact O1|change (zlen []) with 0; lia].
  destruct R as (used & rest & E1 & E2 & _). cbn in E1. destruct (runs_in _ _ _ _ E2 I) as (acc & A1 & A2 & A3).
  exists acc. split; auto. subst bs. apply Forall_app in O1. destruct O1 as [O1 _]. apply Forall_app in C. destruct C as [C _].
  rewrite Forall_forall in O1, C. split; [|split]; [| |exact A3]; apply Forall_forall; [intros b Hb; apply O1|intros b Hb; apply C]; auto.
Qed.

Lemma reader_doc k cr text ds e d : read_str k cr text = Ok (ds, e) -> In d ds ->
  exists acc, acc <> [] /\ Forall block_ok acc /\ Forall (Forall (group_all row_clean)) acc /\ doc_of acc [] = Ok d.
Proof. intros R I. apply (reader_doc_all row_clean _ _ _ _ _ _ R I). intros. eapply row_is_clean; eauto. Qed.

(* ---- the groups of the document ---- *)

Definition tgroup (st off : Z) (h : group irow) : group token :=
  match h with
  | GWord r => GWord (fill st (row_token off (off + zlen (i_text r)) 0 None r))
  | GRange r ws =>
      match map (fill st) (range_tokens off (off + zlen (i_text r)) 0 ws) with
      | [] => GRange (row_token 0 0 0 None r) []
      | t :: us => GRange t (t :: us)
      end
  end.

Fixpoint tgroups (st off : Z) (hs : list (group irow)) : list (group token) :=
  match hs with [] => [] | h :: hs' => tgroup st off h :: tgroups st (off + zlen (group_text h)) hs' end.

Lemma tgroup_members st off h : members (tgroup st off h) = map (fill st) (group_tokens off h).
Proof.
  destruct h as [r|r ws]; simpl; auto. destruct (map (fill st) (range_tokens off (off + zlen (i_text r)) 0 ws)) eqn:E; simpl; rewrite ?E; auto.
Qed.

Lemma fill_span st t : tstart (fill st t) = tstart t /\ tend (fill st t) = tend t /\ trepl (fill st t) = trepl t /\ tsub (fill st t) = tsub t.
Proof. unfold fill, set_heads. simpl. auto. Qed.

Lemma tgroups_grouped st hs : forall off, Forall group_ok hs -> grouped_tokens (map (fill st) (layout off hs)) (tgroups st off hs).
Proof.
  induction hs as [|h hs IH]; intros off F; simpl; [constructor|]. inversion F as [|? ? [O1 O2] F2]; subst.
  destruct h as [r|r ws]; simpl.
  - constructor; auto.
  - destruct ws as [|w ws]; [congruence|]. cbn [range_tokens map app tgroup]. rewrite map_app.
    set (t := fill st (row_token off (off + zlen (i_text r)) 0 (Some (i_text w)) w)).
    apply (gt_multi t (map (fill st) (range_tokens off (off + zlen (i_text r)) (0 + 1) ws))).
    + unfold multiword, t. rewrite (proj1 (proj2 (proj2 (fill_span _ _)))). discriminate.
    + apply Forall_forall. intros u Hu. apply in_map_iff in Hu. destruct Hu as (u0 & <- & Hu). apply range_tokens_in in Hu.
      destruct Hu as (U1 & U2 & _). unfold same_span, t. destruct (fill_span st u0) as (-> & -> & _). rewrite U1, U2. simpl. auto.
    + intros x Hx. destruct (layout (off + zlen (group_text (GRange r (w :: ws)))) hs) as [|y l] eqn:E; [discriminate|].
      simpl in Hx. injection Hx as <-. apply layout_hd in E; auto. destruct E as [_ E].
      unfold same_span, t. destruct (fill_span st y) as (-> & _ & _). rewrite E. simpl. intros [X _].
      assert (zlen (i_text r) <= zlen (group_text (GRange r (w :: ws)))) by apply (group_text_len (GRange r (w :: ws))).
      pose proof (zlen_pos _ O1). simpl in H0. lia.
    + apply IH; auto.
Qed.

(* groups of a whole document *)
Fixpoint tgss (a off : Z) (acc : list block) : list (list (group token)) :=
  match acc with [] => [] | b :: acc' => tgroups a off b :: tgss (a + count b) (off + zlen (surface b)) acc' end.

Lemma raw_doc_layouts acc : Forall block_ok acc ->
  Forall2 (fun s lay => tokens_of (dtokens (raw_doc acc)) s = map (fill (sstart s)) lay) (bounds 0 acc) (layouts 0 acc).
Proof.
  intros O.
  assert (X : forall acc1 acc2, acc = acc1 ++ acc2 ->
    Forall2 (fun s lay => tokens_of (dtokens (raw_doc acc)) s = map (fill (sstart s)) lay) (bounds (count (concat acc1)) acc2) (layouts (zlen (surface (concat acc1))) acc2)).
  { intros acc1 acc2; revert acc1. induction acc2 as [|b acc2 IH]; intros acc1 E; simpl; constructor.
    - subst acc. exact (raw_doc_tokens_of acc1 b acc2 O).
    - specialize (IH (acc1 ++ [b])). rewrite <- app_assoc in IH. rewrite (concat_snoc acc1 b) in IH.
      rewrite count_app, surface_app, zlen_app in IH. apply IH. auto. }
  apply (X [] acc eq_refl).
Qed.

Lemma tgss_groups acc : Forall block_ok acc -> sentence_groups (raw_doc acc) (tgss 0 0 acc).
Proof.
  intros O. unfold sentence_groups. cbn [raw_doc dsents]. pose proof (raw_doc_layouts acc O) as R.
  revert R. generalize (dtokens (raw_doc acc)) as ts. intros ts. revert O.
  assert (X : forall a off, Forall block_ok acc ->
    Forall2 (fun s lay => tokens_of ts s = map (fill (sstart s)) lay) (bounds a acc) (layouts off acc) ->
    Forall2 (fun s gs => grouped_tokens (tokens_of ts s) gs) (bounds a acc) (tgss a off acc)); [|exact (X 0 0)].
  induction acc as [|b acc IH]; intros a off O R; simpl in *; constructor; inversion R as [|? ? ? ? E R2]; inversion O as [|? ? [_ OB] O2]; subst.
  - simpl in E. rewrite E. apply tgroups_grouped; auto.
  - apply IH; auto.
Qed.

(* spacing of the groups *)
Fixpoint gaps_ok (hs : list (group irow)) : Prop :=
  match hs with
  | [] => True
  | h :: hs' =>
      (i_space (surface_row h) = false -> exists h2 c s, hd_error hs' = Some h2 /\ i_text (surface_row h2) = c :: s /\ isspace_char c = false) /\
      gaps_ok hs'
  end.

Lemma range_tokens_subs a b ws : map tsub (range_tokens a b 0 ws) = map Z.of_nat (seq 0 (length (range_tokens a b 0 ws))).
Proof. rewrite range_tokens_sub, range_tokens_length. apply map_ext. intros. lia. Qed.

Lemma tgss_spaced acc : forall a off, Forall (Forall group_ok) acc -> gaps_ok (concat acc) ->
  spaced off (concat (tgss a off acc)) (surface (concat acc)).
Proof.
  assert (STEP : forall st off h hs gs rest, group_ok h -> gaps_ok (h :: hs) -> rest = surface hs ->
     spaced (off + zlen (group_text h)) gs rest -> spaced off (tgroup st off h :: gs) (group_text h ++ rest)).
  { intros st off h hs gs rest [O1 O2] [G1 _] -> SP. unfold group_text in *. rewrite <- app_assoc.
    apply sd_group; auto.
    - rewrite tgroup_members. apply Forall_forall. intros t Ht. apply in_map_iff in Ht. destruct Ht as (t0 & <- & Ht).
      destruct (fill_span st t0) as (-> & -> & _). apply group_tokens_in in Ht. tauto.
    - destruct h as [r|r ws]; simpl; [split; auto; apply fill_span|].
      assert (X : map tsub (map (fill st) (range_tokens off (off + zlen (i_text r)) 0 ws)) = map Z.of_nat (seq 0 (length (map (fill st) (range_tokens off (off + zlen (i_text r)) 0 ws))))).
      { rewrite map_map, map_length. rewrite <- range_tokens_subs. apply map_ext. intros. apply fill_span. }
      assert (Y : Forall multiword (map (fill st) (range_tokens off (off + zlen (i_text r)) 0 ws))).
      { apply Forall_forall. intros u Hu. apply in_map_iff in Hu. destruct Hu as (u0 & <- & Hu). apply range_tokens_in in Hu.
        unfold multiword. rewrite (proj1 (proj2 (proj2 (fill_span _ _)))). tauto. }
      destruct (map (fill st) (range_tokens off (off + zlen (i_text r)) 0 ws)); auto.
    - intros E. destruct (G1 E) as (h2 & c & s & H1 & H2 & H3). destruct hs as [|h2' hs]; [discriminate|]. injection H1 as ->.
      unfold surface. cbn [map concat]. unfold group_text. rewrite H2. cbn [app]. eauto.
    - rewrite zlen_app in SP. rewrite <- Z.add_assoc. destruct (i_space (surface_row h)); exact SP. }
  induction acc as [|b acc IH]; intros a off F G; cbn [tgss concat]; [constructor|].
  inversion F as [|? ? FB FA]; subst. cbn [concat] in G. rewrite surface_app.
  assert (B : forall b2 off2 G2, G2 = b2 ++ concat acc -> Forall group_ok b2 -> gaps_ok G2 ->
    spaced (off2 + zlen (surface b2)) (concat (tgss (a + count b) (off2 + zlen (surface b2)) acc)) (surface (concat acc)) ->
    spaced off2 (tgroups a off2 b2 ++ concat (tgss (a + count b) (off2 + zlen (surface b2)) acc)) (surface b2 ++ surface (concat acc))).
  { clear IH F FB G. induction b2 as [|h b2 IHb]; intros off2 G2 E FB G SP; subst G2.
    - simpl. change (zlen (surface [])) with 0 in *. rewrite Z.add_0_r in *. exact SP.
    - inversion FB; subst. cbn [tgroups app].
      assert (Z1 : off2 + zlen (surface (h :: b2)) = off2 + zlen (group_text h) + zlen (surface b2)).
      { unfold surface. cbn [map concat]. rewrite zlen_app. lia. }
      rewrite Z1 in *. change (surface (h :: b2)) with (group_text h ++ surface b2). rewrite <- app_assoc. eapply STEP; eauto.
      + rewrite surface_app. auto.
      + eapply IHb; eauto. apply G. }
  eapply B; eauto. apply IH; auto.
  clear - G. induction b; auto. apply IHb. apply G.
Qed.

(* conditions on the document give gaps_ok *)
Lemma layout_forms hs : forall pre, Forall group_ok hs ->
  forall h, In h hs -> exists t, In t (layout (zlen pre) hs) /\ doc_text_of (pre ++ surface hs) t = i_text (surface_row h).
Proof.
  induction hs as [|g hs IH]; intros pre F h Hh; [destruct Hh|]. inversion F as [|? ? O F2]; subst.
  cbn [layout]. unfold surface. cbn [map concat]. fold (surface hs). destruct Hh as [->|Hh].
  - assert (X : exists t, In t (group_tokens (zlen pre) h)).
    { destruct O as [_ O]. destruct h as [r|r [|w ws]]; simpl; [eauto|congruence|eauto]. }
    destruct X as [t Ht]. exists t. split; [apply in_app_iff; auto|]. apply group_tokens_in in Ht. destruct Ht as (T1 & T2 & _).
    unfold doc_text_of. rewrite T1, T2. unfold group_text. rewrite <- app_assoc. apply py_slice_app.
  - destruct (IH (pre ++ group_text g) F2 h Hh) as (t & T1 & T2). exists t. rewrite zlen_app in T1. split; [apply in_app_iff; auto|].
    rewrite <- T2. rewrite <- app_assoc. auto.
Qed.

Lemma gaps_from hs : Forall group_ok hs -> (forall h c s, In h hs -> i_text (surface_row h) = c :: s -> isspace_char c = false) ->
  (forall hs0 h, hs = hs0 ++ [h] -> i_space (surface_row h) = true) -> gaps_ok hs.
Proof.
  induction hs as [|h hs IH]; intros O F L; simpl; auto. inversion O; subst. split.
  - intros E. destruct hs as [|h2 hs]; [rewrite (L [] h eq_refl) in E; discriminate|].
    inversion H2 as [|? ? [N _] _]; subst. destruct (i_text (surface_row h2)) as [|c s] eqn:E2; [congruence|].
    exists h2, c, s. simpl. split; auto. split; auto. apply (F h2 c s); auto. simpl; auto.
  - apply IH; auto.
    + intros h' c s I. apply F. right; auto.
    + intros hs0 h' ->. apply (L (h :: hs0) h'). auto.
Qed.

(* ---- heads ---- *)

Lemma nth_error_Some_lt {A} (l : list A) n x : nth_error l n = Some x -> (n < length l)%nat.
Proof. intros H. apply nth_error_Some. congruence. Qed.

Lemma chain_tree n : (0 < n)%nat -> dependency_tree (map (fun i => Some (Z.of_nat i - 1)) (seq 0 n)).
Proof.
  intros Hn. set (f := fun i => Some (Z.of_nat i - 1)).
  assert (NT : forall i, (i < n)%nat -> nth_error (map f (seq 0 n)) i = Some (f i)).
  { intros i Hi. rewrite (map_nth_error f i (seq 0 n) (d := i)); auto. rewrite (nth_error_nth' _ 0%nat) by (rewrite seq_length; auto).
    rewrite seq_nth by auto. auto. }
  assert (NI : forall i x, nth_error (map f (seq 0 n)) i = Some x -> (i < n)%nat /\ x = f i).
  { intros i x H. assert (L : (i < n)%nat). { apply nth_error_Some_lt in H. rewrite map_length, seq_length in H. auto. }
    split; auto. rewrite NT in H by auto. congruence. }
  split; [|split; [|split]].
  - intros i H. apply NI in H. destruct H as [_ H]. discriminate.
  - exists 0%nat. split; [apply NT; auto|]. intros r H. apply NI in H. destruct H as [_ H]. unfold f in H. injection H as H. lia.
  - intros i h H. apply NI in H. destruct H as [L H]. unfold f in H. injection H as ->. rewrite map_length, seq_length. lia.
  - intros i. rewrite map_length, seq_length. induction i as [|i IH]; intros Hi.
    + apply rr_root. rewrite NT by auto. reflexivity.
    + apply (rr_step _ (S i) i); [|apply IH; lia]. rewrite NT by auto. unfold f. do 2 f_equal. lia.
Qed.

Lemma assemble_single k bs d : bs <> [] -> zlen bs <= k -> doc_of bs [] = Ok d -> assemble k [] bs (TEnd []) = ([d], None).
Proof.
  intros NB KB D'.
  assert (A : forall b2 acc, acc ++ b2 = bs -> assemble k acc b2 (TEnd []) = ([d], None) \/ (b2 = [] /\ zlen acc < k /\ acc = bs) \/ zlen acc >= k).
  { induction b2 as [|b b2 IH]; intros acc E.
    - rewrite app_nil_r in E. subst acc. destruct (Z.lt_ge_cases (zlen bs) k); [right; left; auto|right; right; lia].
    - cbn [assemble]. destruct (Z.leb_spec k (zlen (acc ++ [b]))) as [L|L].
      + assert (b2 = []).
        { destruct b2 as [|b' b2]; auto. exfalso. subst bs. unfold zlen in *. rewrite !app_length in *. simpl in *. lia. }
        subst b2. rewrite E, D'. left. reflexivity.
      + destruct (IH (acc ++ [b])) as [H|[(H1 & H2 & H3)|H]]; [rewrite <- app_assoc; auto|auto| |lia].
        subst b2. left. cbn [assemble]. rewrite H3. destruct bs as [|b0 bs0] eqn:EB; [congruence|]. rewrite D'. reflexivity. }
  destruct (A bs [] eq_refl) as [H|[(H1 & H2 & H3)|H]]; [auto|congruence|].
  change (zlen []) with 0 in H. pose proof (zlen_pos bs NB). lia.
Qed.

Lemma number_nth i ts n : nth_error (number i ts) n = option_map (fun t => (i + Z.of_nat n, t)) (nth_error ts n).
Proof.
  revert i n. induction ts as [|t ts IH]; intros i [|n]; simpl; auto.
  - do 2 f_equal. lia.
  - rewrite IH. destruct (nth_error ts n); simpl; auto. do 2 f_equal. lia.
Qed.

(* the sentence read again is well parsed *)
Lemma reread_parsed cw cr text st lay lay' : 0 <= st -> lay <> [] ->
  Forall (fun t => thdoc t = None) lay -> well_parsed (map (fill st) lay) ->
  Forall2 (reread_tok cw cr text) (number 1 (map (fill st) lay)) lay' -> well_parsed (map (fill st) lay').
Proof.
  intros Hst NE D W F.
  assert (CH : (forall n p, nth_error (number 1 (map (fill st) lay)) n = Some p -> written_head cw (fst p) (snd p) = fst p - 1) -> chosen cr 6 = true ->
    well_parsed (map (fill st) lay')).
  { intros WH C6. right.
    replace (map shown_head (map (fill st) lay')) with (map (fun i => Some (Z.of_nat i - 1)) (seq 0 (length lay))).
    - apply chain_tree. destruct lay; [congruence|simpl; lia].
    - assert (L : length lay' = length lay). { apply Forall2_length' in F. rewrite number_length, map_length in F. auto. }
      apply nth_error_ext. intros n. destruct (nth_error lay' n) as [t'|] eqn:E.
      + rewrite map_map, (map_nth_error _ _ _ E). assert (n < length lay)%nat by (apply nth_error_Some_lt in E; lia).
        erewrite map_nth_error by (rewrite (nth_error_nth' _ 0%nat) by (rewrite seq_length; auto); rewrite seq_nth by auto; reflexivity).
        destruct (Forall2_nth_r _ _ _ _ _ F E) as (p & P1 & P2). rewrite number_nth in P1.
        destruct (nth_error (map (fill st) lay) n) as [t|] eqn:ET; [|discriminate]. cbn [option_map] in P1. apply (f_equal (fun o => match o with Some x => x | None => p end)) in P1. cbv beta iota in P1. subst p.
        pose proof (rt_head _ _ _ _ _ P2) as HD. rewrite C6 in HD. cbn [fst snd] in HD.
        specialize (WH n (1 + Z.of_nat n, t)). rewrite number_nth, ET in WH. specialize (WH eq_refl). cbn [fst snd] in WH. 
rewrite WH in HD.
        destruct (rt_fresh _ _ _ _ _ P2) as [FD _]. rewrite shown_head_fill; auto.
        * rewrite HD. do 2 f_equal. lia.
        * intros h Hh. assert (h = 1 + Z.of_nat n - 1 - 1) by congruence. lia.
      + assert (NN : nth_error (map shown_head (map (fill st) lay')) n = None) by (rewrite map_map; apply nth_error_None; rewrite map_length; apply nth_error_None in E; auto).
        rewrite NN. apply nth_error_None. rewrite map_length, seq_length. apply nth_error_None in E. lia. }
  destruct (chosen cr 6) eqn:C6.
  2:{ left. unfold unparsed. rewrite map_map, Forall_map. apply Forall_forall. intros t' Ht.
      apply In_nth_error in Ht. destruct Ht as [n Hn]. destruct (Forall2_nth_r _ _ _ _ _ F Hn) as (p & _ & P2).
      pose proof (rt_head _ _ _ _ _ P2) as HD. rewrite C6 in HD. destruct (rt_fresh _ _ _ _ _ P2) as [FD _].
      unfold fill, shown_head, set_heads. simpl. rewrite FD, HD. reflexivity. }
  destruct (chosen cw 6) eqn:W6.
  2:{ apply CH; auto. intros n p _. unfold written_head. rewrite W6. auto. }
  destruct W as [U|T].
  - apply CH; auto. intros n p Hp. unfold written_head. rewrite W6. rewrite number_nth in Hp.
    destruct (nth_error (map (fill st) lay) n) as [t|] eqn:ET; [|discriminate]. cbn [option_map] in Hp. apply (f_equal (fun o => match o with Some x => x | None => p end)) in Hp. cbv beta iota in Hp. subst p. cbn [fst snd].
    assert (TH : thsent t = None).
    { apply nth_error_In in ET. unfold unparsed in U. rewrite Forall_map, Forall_forall in U. specialize (U t ET).
      apply in_map_iff in ET. destruct ET as (t0 & <- & Ht). rewrite Forall_forall in D. specialize (D t0 Ht).
      rewrite fill_thsent by auto. unfold shown_head, fill, set_heads in U. simpl in U. rewrite D in U. simpl in U.
      destruct (thsent t0) as [h|]; auto. simpl in U. destruct (h =? -1); simpl in U; [discriminate|]. destruct (h + st =? -1); discriminate. }
    rewrite TH. auto.
  - right. replace (map shown_head (map (fill st) lay')) with (map shown_head (map (fill st) lay)); auto.
    destruct T as [TN _].
    apply nth_error_ext. intros n. rewrite !map_map. destruct (nth_error lay' n) as [t'|] eqn:E.
    + rewrite (map_nth_error _ _ _ E). destruct (Forall2_nth_r _ _ _ _ _ F E) as (p & P1 & P2). rewrite number_nth in P1.
      destruct (nth_error lay n) as [t0|] eqn:ET.
      * rewrite (map_nth_error (fill st) _ _ ET) in P1. cbn [option_map] in P1. apply (f_equal (fun o => match o with Some x => x | None => p end)) in P1. cbv beta iota in P1. subst p. rewrite (map_nth_error _ _ _ ET). f_equal.
        pose proof (rt_head _ _ _ _ _ P2) as HD. rewrite C6 in HD. cbn [fst snd] in HD. destruct (rt_fresh _ _ _ _ _ P2) as [FD _].
        assert (D0 : thdoc t0 = None) by (rewrite Forall_forall in D; apply D; eapply nth_error_In; eauto).
        unfold written_head in HD. rewrite W6, fill_thsent in HD by auto.
        assert (TS : thsent t' = thsent t0).
        { destruct (thsent t0) as [h|] eqn:EH; [rewrite HD; f_equal; lia|]. exfalso. apply (TN n). rewrite map_map, (map_nth_error _ _ _ ET).
          unfold shown_head, fill, set_heads. simpl. rewrite D0, EH. reflexivity. }
        unfold shown_head, fill, set_heads. simpl. rewrite D0, FD, TS. auto.
      * exfalso. apply nth_error_None in ET. assert (nth_error (map (fill st) lay) n = None) by (apply nth_error_None; rewrite map_length; auto). rewrite H in P1. discriminate.
    + apply Forall2_length' in F. rewrite number_length, map_length in F.
      rewrite (proj2 (nth_error_None _ _)) by (rewrite map_length; apply nth_error_None in E; lia).
      symmetry. apply nth_error_None. rewrite map_length. apply nth_error_None in E. auto.
Qed.

(* what C22 and C20 need to know about a document the reader yielded *)
Lemma reader_doc_spaced acc : acc <> [] -> Forall block_ok acc -> Forall (Forall (group_all row_clean)) acc ->
  (forall t, In t (dtokens (raw_doc acc)) -> tend t < zlen (dtext (raw_doc acc))) ->
  (forall t c s, In t (dtokens (raw_doc acc)) -> doc_text_of (dtext (raw_doc acc)) t = c :: s -> isspace_char c = false) ->
  spaced 0 (concat (tgss 0 0 acc)) (dtext (raw_doc acc)) /\ Forall (token_clean (dtext (raw_doc acc))) (dtokens (raw_doc acc)).
Proof.
  intros NA O C TE TS.
  pose proof (blocks_groups acc O) as GO.
  assert (TOK : forall t0, In t0 (layout 0 (concat acc)) -> exists st, In (fill st t0) (dtokens (raw_doc acc))).
  { intros t0 H. cbn [raw_doc dtokens]. rewrite fill_all_layouts. rewrite <- layouts_concat in H. apply in_concat in H. destruct H as (lay & H1 & H2).
    assert (X : exists s, In (s, lay) (combine (bounds 0 acc) (layouts 0 acc))).
    { clear - H1. revert H1. generalize 0 at 1 3 as a. generalize 0 as off. induction acc as [|b acc IH]; intros off a H; simpl in *; [destruct H|].
      destruct H as [<-|H]; [eexists; left; reflexivity|]. destruct (IH (off + count b) _ H) as [s Hs]. exists s. right. auto. }
    destruct X as [s X]. exists (sstart s). apply in_concat. exists (map (fill (sstart s)) lay). split.
    - apply in_map_iff. exists (s, lay). auto.
    - apply in_map. auto. }
  assert (GAPS : gaps_ok (concat acc)).
  { apply gaps_from; auto.
    - intros h c s Hh E. destruct (layout_forms (concat acc) [] GO h Hh) as (t & T1 & T2). cbn [app] in T2. change (zlen []) with 0 in T1.
      destruct (TOK t T1) as [st Ht]. apply (TS (fill st t) c s); auto. rewrite <- E, <- T2. unfold doc_text_of. destruct (fill_span st t) as (-> & -> & _). reflexivity.
    - intros hs0 h E. assert (X : exists t, In t (group_tokens (zlen (surface hs0)) h)).
      { rewrite E in GO. apply Forall_app in GO. destruct GO as [_ GO]. inversion GO as [|? ? [_ OO] _]; subst. destruct h as [r|r [|w ws]]; simpl; [eauto|congruence|eauto]. }
      destruct X as [t Ht]. assert (IN : In t (layout 0 (concat acc))). { rewrite E, layout_snoc. apply in_app_iff. auto. }
      destruct (TOK t IN) as [st Hf]. apply TE in Hf. destruct (fill_span st t) as (_ & FE & _). rewrite FE in Hf.
      apply group_tokens_in in Ht. destruct Ht as (_ & T2 & _). rewrite T2 in Hf. cbn [raw_doc dtext] in Hf. rewrite E, surface_app, zlen_app in Hf.
      unfold surface at 3 in Hf. cbn [map concat] in Hf. rewrite app_nil_r in Hf. unfold group_text in Hf. rewrite zlen_app in Hf.
      destruct (i_space (surface_row h)); auto. change (zlen (@nil char)) with 0 in Hf. lia. }
  assert (SP : spaced 0 (concat (tgss 0 0 acc)) (dtext (raw_doc acc))).
  { apply tgss_spaced; auto. eapply Forall_impl; [|exact O]. intros b [_ ?]; auto. }
  assert (CL : Forall (token_clean (dtext (raw_doc acc))) (dtokens (raw_doc acc))).
  { cbn [raw_doc dtokens dtext]. rewrite fill_all_layouts.
    assert (CG : Forall (group_all row_clean) (concat acc)) by (apply Forall_concat; auto).
    assert (X : forall hs pre, Forall group_ok hs -> Forall (group_all row_clean) hs -> Forall (token_clean (pre ++ surface hs)) (layout (zlen pre) hs)).
    { clear. induction hs as [|h hs IH]; intros pre O C; simpl; [constructor|]. inversion O as [|? ? OO O2]; inversion C as [|? ? CC C2]; subst.
      apply Forall_app. split.
      - assert (DT : forall t, In t (group_tokens (zlen pre) h) -> doc_text_of (pre ++ surface (h :: hs)) t = i_text (surface_row h)).
        { intros t Ht. apply group_tokens_in in Ht. destruct Ht as (T1 & T2 & _). unfold doc_text_of. rewrite T1, T2. unfold surface. cbn [map concat].
          unfold group_text. rewrite <- app_assoc. apply py_slice_app. }
        assert (ROW : forall t r a b sub repl, In t (group_tokens (zlen pre) h) -> t = row_token a b sub repl r -> row_clean r ->
                  (repl = None -> clean (i_text (surface_row h))) -> (forall s, repl = Some s -> clean s) -> clean (i_text (surface_row h)) -> token_clean (pre ++ surface (h :: hs)) t).
        { intros t r a b sub repl Ht -> [R1 R2 R3 R4] N1 N2 N3. constructor; simpl; auto.
          - unfold text_of. simpl. destruct repl; auto. rewrite DT by auto. auto.
          - rewrite DT by auto. auto. }
        apply Forall_forall. intros t Ht. destruct h as [r|r ws]; cbn in CC.
        + pose proof Ht as Ht'. cbn in Ht. destruct Ht as [<-|[]]. eapply ROW; [exact Ht'|reflexivity|auto|intros _; apply CC|discriminate|apply CC].
        + destruct CC as [CR CW].
          assert (X : forall sub ws, In t (range_tokens (zlen pre) (zlen pre + zlen (i_text r)) sub ws) -> Forall row_clean ws -> exists sub' w, row_clean w /\ t = row_token (zlen pre) (zlen pre + zlen (i_text r)) sub' (Some (i_text w)) w).
          { clear. intros sub ws; revert sub. induction ws as [|w ws IH]; intros sub H F; [destruct H|]. inversion F; subst. destruct H as [<-|H]; eauto. }
          destruct (X 0 ws Ht CW) as (sub' & w & RW & E). eapply ROW; [exact Ht|exact E|auto|discriminate| |apply CR].
          intros s [= <-]. apply RW.
      - specialize (IH (pre ++ group_text h) O2 C2). rewrite zlen_app, <- app_assoc in IH. exact IH. }
    specialize (X (concat acc) [] GO CG). cbn [app] in X. change (zlen []) with 0 in X. rewrite <- layouts_concat in X.
    apply Forall_concat. rewrite Forall_map. apply Forall_forall. intros [s lay] Hp. cbn [fst snd]. apply in_combine_r in Hp.
    rewrite Forall_map. pose proof (Forall_concat_in _ _ _ X Hp) as X2. eapply Forall_impl; [|exact X2].
    intros t [X3 X4 X5 X6 X7]. constructor; simpl; auto. }
  split; auto.
Qed.

Lemma bounds_layouts_facts acc : forall a off, 0 <= a -> Forall block_ok acc ->
  Forall2 (fun s lay => 0 <= sstart s /\ lay <> [] /\ Forall (fun t => thdoc t = None) lay) (bounds a acc) (layouts off acc).
Proof.
  induction acc as [|b acc IH]; intros a off Ha O; simpl; constructor; inversion O as [|? ? OO O2]; subst.
  - split; auto. split.
    + intros E. pose proof (block_ok_count b OO) as CP. rewrite <- (count_layout off b), E in CP. change (zlen []) with 0 in CP. lia.
    + apply Forall_forall. intros t Ht. apply layout_in in Ht; [tauto|]. apply OO.
  - apply IH; auto. pose proof (block_ok_count b OO). lia.
Qed.

Lemma spacing_cycle k cr text ds e d cw cr' k' :
  read_str k cr text = Ok (ds, e) -> In d ds ->
  tags_writable cw (dtokens d) ->
  (forall gss, sentence_groups d gss -> no_pending gss) ->
  (forall t, In t (dtokens d) -> tend t < zlen (dtext d)) ->
  (forall t c s, In t (dtokens d) -> doc_text_of (dtext d) t = c :: s -> isspace_char c = false) ->
  zlen (dsents d) <= k' ->
  exists out d', write_str cw [d] = Ok out /\ read_str k' cr' out = Ok ([d'], None) /\ dtext d' = dtext d /\ dsents d' = dsents d.
Proof.
  intros R I TW NP TE TS K. destruct (reader_doc _ _ _ _ _ _ R I) as (acc & NA & O & C & D).
  apply doc_of_ok' in D; auto. destruct D as [-> WP].
  pose proof (raw_doc_inv acc O NA) as INV. pose proof (tgss_groups acc O) as G. pose proof (NP _ G) as NPg.
  destruct (reader_doc_spaced acc NA O C TE TS) as [SP CL].
  destruct (reread_sentences cw cr' _ (doc_fit _ _ INV G SP CL)) as (bs & P & RR & OB).
  assert (R' : Forall2 (fun gs b => Forall2 (fun p h => reread_group cw cr' (dtext (raw_doc acc)) (fst p) (snd p) h) (with_ids 1 gs) b) (tgss 0 0 acc) bs).
  { clear - RR. revert bs RR. induction (tgss 0 0 acc); intros bs RR; inversion RR; subst; constructor; auto. }
  destruct (doc_reread cw cr' _ _ bs INV G SP R') as (S1 & B1 & F1).
  assert (NB : bs <> []).
  { intros ->. cbn [raw_doc dsents bounds] in B1. destruct acc; [congruence|discriminate]. }
  assert (LB : zlen bs = zlen (dsents (raw_doc acc))).
  { rewrite <- B1. unfold zlen. rewrite bounds_length. auto. }
  exists (concat (map (sentence_text cw (dtext (raw_doc acc))) (tgss 0 0 acc))), (raw_doc bs).
  split; [|split; [|split]].
  - pose proof (writer_output cw [raw_doc acc] [tgss 0 0 acc]) as W. rewrite W by auto. cbn [combine map concat fst snd]. rewrite app_nil_r. auto.
  - apply read_str_blocks. pose proof (zlen_pos bs NB). split; [lia|]. rewrite map_map in P. cbn [fst snd] in P.
    change (map (sentence_text cw (dtext (raw_doc acc))) (tgss 0 0 acc)) with (map (fun x => sentence_text cw (dtext (raw_doc acc)) x) (tgss 0 0 acc)). rewrite P.
    symmetry. apply assemble_single; auto; [lia|]. apply doc_of_ok'; auto. split; auto.
    rewrite B1. cbn [raw_doc dsents]. cbn [raw_doc dsents] in F1. pose proof (raw_doc_layouts acc O) as RL.
    pose proof (bounds_layouts_facts acc 0 0 ltac:(lia) O) as LN.
    clear - F1 WP RL LN. revert F1 WP RL LN. generalize (layouts 0 bs) as lays'. generalize (layouts 0 acc) as lays.
    generalize (dtokens (raw_doc acc)) as ts. generalize (dtext (raw_doc acc)) as text. intros text ts. generalize (bounds 0 acc) as ss.
    induction ss as [|s ss IH]; intros lays lays' F1 WP RL LN; inversion F1 as [|? lay' ? ? FF F1']; inversion WP as [|? lay ? ? W WP']; subst; constructor.
    + inversion RL as [|? ? ? ? E RL']; inversion LN as [|? ? ? ? (L1 & L2 & L3) LN']; subst. rewrite E in FF.
      eapply reread_parsed; eauto.
    + inversion RL; inversion LN; subst. eapply IH; eauto.
  - exact S1.
  - exact B1.
Qed.

(* ---- documents the reader yielded are reader-normal ---- *)

Record row_told (r : irow) : Prop := {
  ro_lemma_told : i_lemma r <> Some underscore;
  ro_deprel_told : i_deprel r <> Some underscore;
  ro_pos_told : exists p, i_pos r = Some p /\ upos p <> Some underscore /\ xpos p <> Some underscore /\ NoDup (map fst (feats p))
}.

Lemma cell_opt_told cells n : cell_opt cells n <> Some underscore.
Proof.
  unfold cell_opt. destruct (str_eqb (cell cells n) (of_string "_")) eqn:E; [discriminate|].
  intros [= X]. rewrite X in E. assert (Y : str_eqb underscore (of_string "_") = true) by reflexivity. congruence.
Qed.

Lemma sel_told nc c o : o <> Some underscore -> sel nc c o <> Some underscore.
Proof. unfold sel. destruct (has_col nc c); auto. discriminate. Qed.

Lemma parse_to_dict_ok o d : parse_to_dict o = Ok d -> dict_ok d.
Proof.
  destruct o as [s|]; cbn [parse_to_dict]; [|intros [= <-]; constructor].
  assert (F0 : dict_ok (@nil (str * str))) by constructor. revert F0.
  generalize (@nil (str * str)) as d0. generalize (split (ch "|") s) as es.
  induction es as [|e es IH]; intros d0 F0 H; cbn [foldM] in H; [injection H as <-; auto|].
  apply bind_ok_iff in H. destruct H as (d1 & H1 & H2). apply (IH d1); auto. apply dict_entry_ok in H1. destruct H1 as [_ ->]. apply dict_set_ok; auto.
Qed.

Lemma row_is_told cols cells r : full_columns cols -> parse_line (normal_columns cols) cells = Ok r -> row_told r.
Proof.
  intros F P. apply parse_line_row in P. constructor.
  - rewrite (ro_lemma _ _ _ P). apply sel_told, cell_opt_told.
  - rewrite (ro_deprel _ _ _ P). apply sel_told, cell_opt_told.
  - pose proof (ro_pos _ _ _ P) as RP.
    assert (H : has_col (normal_columns cols) cUPOS = true).
    { unfold cUPOS. rewrite chosen_normal. apply chosen_wants. unfold full_columns in F. rewrite Forall_forall in F. apply F. simpl; auto. }
    rewrite H in RP. cbn [orb] in RP. destruct RP as (fs & E & D). eexists. split; [exact E|]. cbn [upos xpos feats].
    split; [apply sel_told, cell_opt_told|]. split; [apply sel_told, cell_opt_told|]. apply parse_to_dict_ok in D. exact D.
Qed.

Lemma group_all_split (P Q : irow -> Prop) g : group_all (fun r => P r /\ Q r) g -> group_all P g /\ group_all Q g.
Proof.
  destruct g as [r|r ws]; simpl; [auto|]. intros [[A B] F]. repeat split; auto; (eapply Forall_impl; [|exact F]; simpl; tauto).
Qed.

Lemma layout_rows (P : irow -> Prop) hs : forall off, Forall (group_all P) hs ->
  Forall (fun t => exists a b sub repl r, P r /\ t = row_token a b sub repl r) (layout off hs).
Proof.
  induction hs as [|h hs IH]; intros off F; simpl; [constructor|]. inversion F as [|? ? H F2]; subst. apply Forall_app. split; auto.
  destruct h as [r|r ws]; simpl in *.
  - constructor; [|constructor]. exists off, (off + zlen (i_text r)), 0, None, r. auto.
  - destruct H as [_ H]. clear F F2 IH. revert H. generalize (off + zlen (i_text r)) as b. generalize 0 as sub.
    induction ws as [|w ws IHw]; intros sub b H; simpl; constructor; inversion H; subst; [|auto].
    exists off, b, sub, (Some (i_text w)), w. auto.
Qed.

Lemma reader_yields_normal k cols text ds e d : full_columns cols ->
  read_str k cols text = Ok (ds, e) -> In d ds ->
  (forall gss, sentence_groups d gss -> no_pending gss) ->
  (forall t, In t (dtokens d) -> tend t < zlen (dtext d)) ->
  (forall t c s, In t (dtokens d) -> doc_text_of (dtext d) t = c :: s -> isspace_char c = false) ->
  (forall t, In t (dtokens d) -> exists h, thsent t = Some h /\ -1 <= h) ->
  doc_inv d /\ reader_normal d.
Proof.
  intros FC R I NP TE TS TH.
  destruct (reader_doc_all (fun r => row_clean r /\ row_told r) _ _ _ _ _ _ R I) as (acc & NA & O & C & D).
  { intros raw r H1 H2. split; [eapply row_is_clean; eauto|eapply row_is_told; eauto]. }
  apply doc_of_ok' in D; auto. destruct D as [-> WP].
  assert (C1 : Forall (Forall (group_all row_clean)) acc).
  { eapply Forall_impl; [|exact C]. intros b Hb. eapply Forall_impl; [|exact Hb]. intros g Hg. apply group_all_split in Hg. tauto. }
  assert (C2 : Forall (group_all row_told) (concat acc)).
  { apply Forall_concat. eapply Forall_impl; [|exact C]. intros b Hb. eapply Forall_impl; [|exact Hb]. intros g Hg. apply group_all_split in Hg. tauto. }
  pose proof (raw_doc_inv acc O NA) as INV. pose proof (tgss_groups acc O) as G. pose proof (NP _ G) as NPg.
  destruct (reader_doc_spaced acc NA O C1 TE TS) as [SP CL]. split; auto.
  assert (TOK : Forall (fun t => exists st t0, t = fill st t0 /\ In t0 (layout 0 (concat acc))) (dtokens (raw_doc acc))).
  { cbn [raw_doc dtokens]. rewrite fill_all_layouts. apply Forall_concat. rewrite Forall_map. apply Forall_forall. intros [s lay] Hp.
    cbn [fst snd]. apply in_combine_r in Hp. apply Forall_map, Forall_forall. intros t0 Ht. exists (sstart s), t0. split; auto.
    rewrite <- layouts_concat. apply in_concat. eauto. }
  pose proof (layout_rows row_told _ 0 C2) as LR. rewrite Forall_forall in LR.
  constructor; auto.
  - cbn [raw_doc dsents]. destruct acc; [congruence|discriminate].
  - exists (tgss 0 0 acc). auto.
  - eapply Forall_impl; [|exact TOK]. intros t (st & t0 & -> & H0). destruct (LR t0 H0) as (a & b & sub & repl & r & [R1 R2 R3] & ->).
    constructor; auto.
  - eapply Forall_impl; [|exact TOK]. intros t (st & t0 & -> & H0). destruct (LR t0 H0) as (a & b & sub & repl & r & _ & ->). reflexivity.
  - intros s Hs.
    assert (X : exists lay, tokens_of (dtokens (raw_doc acc)) s = map (fill (sstart s)) lay /\ well_parsed (map (fill (sstart s)) lay) /\
                  0 <= sstart s /\ lay <> [] /\ Forall (fun t => thdoc t = None) lay).
    { cbn [raw_doc dsents] in Hs. apply In_nth_error in Hs. destruct Hs as [n Hn].
      destruct (Forall2_nth _ _ _ _ _ WP Hn) as (lay & L1 & L2). exists lay.
      destruct (Forall2_nth _ _ _ _ _ (raw_doc_layouts acc O) Hn) as (lay2 & L3 & L4).
      destruct (Forall2_nth _ _ _ _ _ (bounds_layouts_facts acc 0 0 ltac:(lia) O) Hn) as (lay3 & L5 & L6).
      rewrite L1 in L3, L5. injection L3 as <-. injection L5 as <-. auto. }
    destruct X as (lay & E & W & S0 & NL & TD). rewrite E.
    assert (TH' : forall t0, In t0 lay -> exists h, thsent t0 = Some h /\ -1 <= h).
    { intros t0 H0. assert (In (fill (sstart s) t0) (dtokens (raw_doc acc))).
      { eapply tokens_of_in. rewrite E. apply in_map. auto. }
      rewrite Forall_forall in TD. destruct (TH _ H) as (h & H1 & H2). rewrite fill_thsent in H1 by auto. eauto. }
    split.
    + assert (EQ : map shown_head (map (fill (sstart s)) lay) = map thsent (map (fill (sstart s)) lay)).
      { rewrite !map_map. apply map_ext_in. intros t0 H0. destruct (TH' t0 H0) as (h & H1 & H2). rewrite Forall_forall in TD. specialize (TD t0 H0).
        rewrite shown_head_fill by (auto; intros h' Hh; assert (h' = h) by congruence; lia). rewrite fill_thsent by auto. auto. }
      destruct W as [U|T]; [|rewrite <- EQ; auto]. exfalso. destruct lay as [|t0 lay]; [congruence|].
      rewrite EQ in U. cbn [map] in U. unfold unparsed in U. pose proof (Forall_inv U) as U1. cbv beta in U1. rewrite fill_thsent in U1 by (apply (Forall_inv TD)).
      destruct (TH' t0 (or_introl eq_refl)) as (h & H1 & _). congruence.
    + apply Forall_map, Forall_forall. intros t0 H0. destruct (TH' t0 H0) as (h & H1 & H2). rewrite Forall_forall in TD. specialize (TD t0 H0).
      exists h. rewrite fill_thsent by auto. split; auto. split; auto. unfold fill, filled_pair. rewrite TD, H1. simpl.
      destruct (Z.eqb_spec h (-1)); simpl; auto.
Qed.

(* ---- smaller statements used in Props_Conllu ---- *)

Lemma groups_unique d : exists gss, sentence_groups d gss /\
  (forall gss', sentence_groups d gss' -> gss' = gss) /\
  Forall2 (fun s gs => flat_map members gs = tokens_of (dtokens d) s) (dsents d) gss.
Proof.
  destruct (sentence_groups_exist d) as [gss G]. exists gss. split; auto. split.
  - intros gss' G'. eapply sentence_groups_fun; eauto.
  - unfold sentence_groups in G. clear - G. induction G as [|s gs ss gss H G IH]; constructor; auto.
    clear - H. induction H as [|t ts gs M H IH|t us ts gs M F X H IH]; simpl; auto; rewrite IH; auto.
Qed.

Lemma write_outcome cols d : doc_inv d ->
  (exists out, write_str cols [d] = Ok out /\ tags_writable cols (dtokens d)) \/
  (write_str cols [d] = Err EType /\ ~ tags_writable cols (dtokens d)).
Proof.
  intros I. unfold write_str. cbn [mapM]. destruct (write_document_outcome cols d I) as [(out & -> & T)|(-> & T)].
  - left. eexists. split; [reflexivity|auto].
  - right. split; [reflexivity|auto].
Qed.

Lemma expected_cells cols text i t misc :
  (forall c, 2 <= c <= 7 -> c <> 6 -> ~ wants cols c -> cell (expected_row cols text i t misc) (Z.to_nat c) = of_string "_") /\
  (~ wants cols 6 -> cell (expected_row cols text i t misc) 6 = print_Z (i - 1)) /\
  (wants cols 2 -> tlemma t <> None -> Some (cell (expected_row cols text i t misc) 2) = tlemma t) /\
  (forall p, tpos t = Some p -> wants cols 3 -> upos p <> None -> Some (cell (expected_row cols text i t misc) 3) = upos p) /\
  (forall p, tpos t = Some p -> wants cols 4 -> xpos p <> None -> Some (cell (expected_row cols text i t misc) 4) = xpos p) /\
  (forall h, wants cols 6 -> thsent t = Some h -> cell (expected_row cols text i t misc) 6 = print_Z (h + 1)) /\
  (forall h, wants cols 7 -> thsent t = Some h -> tdeprel t <> None -> Some (cell (expected_row cols text i t misc) 7) = tdeprel t).
Proof.
  assert (NW : forall c, ~ wants cols c -> chosen cols c = false).
  { intros c H. destruct (chosen cols c) eqn:E; auto. apply chosen_wants in E. tauto. }
  assert (W6 : wants cols 7 -> chosen cols 6 = true).
  { intros H. apply chosen_wants. right. split; auto. destruct H as [H|[H _]]; auto. discriminate. }
  unfold cell. split; [|split; [|split; [|split; [|split; [|split]]]]].
  - intros c R N W. apply NW in W. assert (C : c = 2 \/ c = 3 \/ c = 4 \/ c = 5 \/ c = 7) by lia.
    destruct C as [->|[->|[->|[->| ->]]]]; unfold expected_row; rewrite W; cbn [nth Z.to_nat Pos.to_nat Pos.iter_op Nat.add]; auto.
    cbn. destruct (chosen cols 6); auto. destruct (thsent t); auto.
  - intros W. apply NW in W. unfold expected_row. rewrite W. reflexivity.
  - intros W N. apply chosen_wants in W. unfold expected_row. rewrite W. cbn [nth]. destruct (tlemma t); [reflexivity|congruence].
  - intros p E W N. apply chosen_wants in W. unfold expected_row. rewrite W, E. cbn [nth]. destruct (upos p); [reflexivity|congruence].
  - intros p E W N. apply chosen_wants in W. unfold expected_row. rewrite W, E. cbn [nth]. destruct (xpos p); [reflexivity|congruence].
  - intros h W E. apply chosen_wants in W. unfold expected_row. rewrite W, E. reflexivity.
  - intros h W E N. unfold expected_row. rewrite (W6 W), E. apply chosen_wants in W. rewrite W. cbn [nth]. destruct (tdeprel t); [reflexivity|congruence].
Qed.

(* what the reader yields was built by the constructor *)
Lemma reader_constructed k cr text ds e d : read_str k cr text = Ok (ds, e) -> In d ds ->
  exists text ts o v, Forall token_wf ts /\ sents_wf o /\ new_document text ts o v = Ok d.
Proof.
  intros R I. destruct (reader_doc _ _ _ _ _ _ R I) as (acc & NA & F & _ & D).
  unfold doc_of in D. rewrite app_nil_r in D. pose proof (blocks_groups _ F) as G. pose proof (bounds_tiles 0 acc F) as T.
  do 4 eexists. split; [|split; [|exact D]].
  - apply layout_wf; auto; lia.
  - apply (tiles_wf 0 _ _ ltac:(lia) T).
Qed.

(* ---- every row of the writer's output is blank where nothing was selected ---- *)

Definition blanked_out (cols : columns) (out : str) : Prop :=
  exists rows, out = written_lines rows /\ Forall (fun r => match r with Some c => blanked cols c | None => True end) rows.

Lemma blanked_out_nil cols : blanked_out cols [].
Proof. exists []. split; [reflexivity|constructor]. Qed.

Lemma blanked_out_app cols a b : blanked_out cols a -> blanked_out cols b -> blanked_out cols (a ++ b).
Proof.
  intros (r & -> & F) (r' & -> & F'). exists (r ++ r'). split; [|apply Forall_app; auto].
  unfold written_lines. rewrite map_app, concat_app. reflexivity.
Qed.

Lemma blanked_out_row cols cells : blanked cols cells -> blanked_out cols (format_line cells).
Proof.
  intros B. exists [Some cells]. split; [|constructor; auto]. unfold written_lines, format_line. cbn [map concat].
  rewrite app_nil_r. reflexivity.
Qed.

Lemma blanked_out_blank cols : blanked_out cols [chNL].
Proof. exists [None]. split; [reflexivity|constructor; auto]. Qed.

Lemma to_conll_blanked cols i v sp cells :
  to_conll (normal_columns cols) i v sp true = Ok cells -> 0 <= i -> blanked cols cells.
Proof.
  intros H I0. unfold to_conll in H.
  assert (NW : forall c, ~ wants cols c -> has_col (normal_columns cols) c = false) by (intros; apply not_wants; auto).
  apply bind_ok_iff in H. destruct H as [[[u x] f] [HT H]].
  assert (T : (~ wants cols 3 -> u = of_string "_") /\ (~ wants cols 4 -> x = of_string "_") /\ (~ wants cols 5 -> f = of_string "_")).
  { destruct (tpos (nv_token v)) as [p|].
    - apply bind_ok_iff in HT. destruct HT as [f' [HF HT]]. injection HT as <- <- <-. split; [|split]; intros W; apply NW in W.
      + unfold cUPOS. rewrite W. reflexivity.
      + unfold cXPOS. rewrite W. reflexivity.
      + unfold cFEATS in HF. rewrite W in HF. discriminate.
    - injection HT as <- <- <-. auto. }
  destruct T as (T3 & T4 & T5).
  match type of H with context [let '(_, _) := ?p in _] => set (hr := p) in H end.
  assert (R : (~ wants cols 7 -> snd hr = of_string "_") /\ (~ wants cols 6 -> fst hr = print_Z i)).
  { unfold hr. split; intros W; apply NW in W.
    - destruct (if has_col (normal_columns cols) cHEAD then head_index v else None); cbn [snd]; auto.
      unfold cDEPREL. rewrite W. reflexivity.
    - unfold cHEAD. rewrite W. reflexivity. }
  destruct R as (R7 & R6). destruct hr as [h r] eqn:EHR. injection H as <-. cbn [fst snd] in *.
  split; [reflexivity|]. split.
  - intros c R N W. assert (C : c = 2 \/ c = 3 \/ c = 4 \/ c = 5 \/ c = 7) by lia.
    destruct C as [->|[->|[->|[->| ->]]]]; unfold cell; cbn [nth Z.to_nat Pos.to_nat Pos.iter_op Nat.add]; auto.
    apply NW in W. unfold cLEMMA. rewrite W. reflexivity.
  - intros W. right. exists (i + 1). unfold cell; cbn [nth]. split.
    + unfold normalize_index. destruct (Z.eqb_spec i (-1)); [lia|reflexivity].
    + rewrite R6 by auto. f_equal. lia.
Qed.

Lemma write_regular_blanked cols st v sp st' : write_regular (normal_columns cols) st v sp = Ok st' ->
  0 <= w_index st -> blanked_out cols (w_out st) ->
  0 <= w_index st' /\ blanked_out cols (w_out st') /\ w_multi st' = w_multi st.
Proof.
  unfold write_regular. intros H I0 B. apply bind_ok_iff in H. destruct H as (cells & HC & H). injection H as <-. cbn.
  split; [lia|]. split; auto. apply blanked_out_app; auto. apply blanked_out_row. eapply to_conll_blanked; eauto.
Qed.

Lemma range_blanked cols m : blanked cols (range_line m).
Proof.
  split; [reflexivity|]. split; [|intros; left; reflexivity].
  intros c R N W. assert (C : c = 2 \/ c = 3 \/ c = 4 \/ c = 5 \/ c = 7) by lia.
  destruct C as [->|[->|[->|[->| ->]]]]; reflexivity.
Qed.

Lemma write_words_blanked cols vs : forall st st',
  foldM (fun st v => write_regular (normal_columns cols) st v false) st vs = Ok st' ->
  0 <= w_index st -> blanked_out cols (w_out st) -> 0 <= w_index st' /\ blanked_out cols (w_out st').
Proof.
  induction vs as [|v vs IH]; cbn [foldM]; intros st st' H I0 B.
  - injection H as <-. auto.
  - apply bind_ok_iff in H. destruct H as (s1 & H1 & H). destruct (write_regular_blanked _ _ _ _ _ H1 I0 B) as (I1 & B1 & _).
    eapply IH; eauto.
Qed.

Lemma write_multiword_blanked cols st m st' : write_multiword (normal_columns cols) st m = Ok st' ->
  0 <= w_index st -> blanked_out cols (w_out st) -> 0 <= w_index st' /\ blanked_out cols (w_out st').
Proof.
  unfold write_multiword. intros H I0 B. eapply write_words_blanked; eauto. cbn [w_out].
  apply blanked_out_app; auto. apply blanked_out_row, range_blanked.
Qed.

Lemma regular_token_blanked cols st v st' : regular_write_token (normal_columns cols) st v = Ok st' ->
  0 <= w_index st -> blanked_out cols (w_out st) -> 0 <= w_index st' /\ blanked_out cols (w_out st').
Proof.
  unfold regular_write_token. intros H I0 B. destruct (is_multiword (nv_token v)).
  - injection H as <-. auto.
  - apply write_regular_blanked in H; cbn; auto. tauto.
Qed.

Lemma write_token_blanked cols st v st' : write_token (normal_columns cols) st v = Ok st' ->
  0 <= w_index st -> blanked_out cols (w_out st) -> 0 <= w_index st' /\ blanked_out cols (w_out st').
Proof.
  unfold write_token. intros H I0 B. destruct (w_multi st) as [m|].
  - destruct (coincides _ _).
    + injection H as <-. auto.
    + apply bind_ok_iff in H. destruct H as (s1 & H1 & H). destruct (write_multiword_blanked _ _ _ _ H1 I0 B).
      eapply regular_token_blanked; eauto.
  - eapply regular_token_blanked; eauto.
Qed.

Lemma write_tokens_blanked cols vs : forall st st', foldM (write_token (normal_columns cols)) st vs = Ok st' ->
  0 <= w_index st -> blanked_out cols (w_out st) -> 0 <= w_index st' /\ blanked_out cols (w_out st').
Proof.
  induction vs as [|v vs IH]; cbn [foldM]; intros st st' H I0 B.
  - injection H as <-. auto.
  - apply bind_ok_iff in H. destruct H as (s1 & H1 & H). destruct (write_token_blanked _ _ _ _ H1 I0 B). eapply IH; eauto.
Qed.

Lemma write_sentence_blanked cols st s st' : write_sentence (normal_columns cols) st s = Ok st' ->
  0 <= w_index st -> blanked_out cols (w_out st) -> 0 <= w_index st' /\ blanked_out cols (w_out st').
Proof.
  unfold write_sentence. intros H I0 B. apply bind_ok_iff in H. destruct H as (vs & _ & H).
  apply bind_ok_iff in H. destruct H as (s1 & H1 & H). destruct (write_tokens_blanked _ _ _ _ H1 I0 B) as [I1 B1].
  unfold write_end_of_sentence in H. apply bind_ok_iff in H. destruct H as (s2 & H2 & H). injection H as <-. cbn.
  split; [lia|]. apply blanked_out_app; [|apply blanked_out_blank].
  destruct (w_multi s1); [|injection H2 as <-; auto]. eapply write_multiword_blanked; eauto.
Qed.

Lemma writer_blanked cols ds out : write_str cols ds = Ok out -> blanked_out cols out.
Proof.
  unfold write_str. intros H. destruct (mapM _ ds) as [os|] eqn:E; [|discriminate]. injection H as <-.
  revert os E. induction ds as [|d ds IH]; cbn [mapM]; intros os E.
  - injection E as <-. apply blanked_out_nil.
  - apply bind_ok_iff in E. destruct E as (o & E1 & E). apply bind_ok_iff in E. destruct E as (os' & E2 & E). injection E as <-.
    cbn [concat]. apply blanked_out_app; [|apply IH; auto].
    unfold write_document in E1. apply bind_ok_iff in E1. destruct E1 as (ss & _ & E1).
    apply bind_ok_iff in E1. destruct E1 as (st & E1 & E3). injection E3 as <-.
    assert (G : forall ss st st', foldM (write_sentence (normal_columns cols)) st ss = Ok st' ->
      0 <= w_index st -> blanked_out cols (w_out st) -> blanked_out cols (w_out st')).
    { clear. induction ss as [|s ss IH]; cbn [foldM]; intros st st' H I0 B.
      - injection H as <-. auto.
      - apply bind_ok_iff in H. destruct H as (s1 & H1 & H). destruct (write_sentence_blanked _ _ _ _ H1 I0 B). eapply IH; eauto. }
    eapply G; eauto; cbn; [lia|apply blanked_out_nil].
Qed.
