(* What single labels say. *)
From Coq Require Import String ZArith NArith QArith Bool Lia List.
From Verif Require Import Base BaseFacts Proofs_Datamodel Model_Datamodel Spec_Datamodel Model_Vocab Proofs_Vocab Model_Lemma Spec_Lemma Model_Features Spec_Features
  Proofs_Lemma Proofs_Lemma2 Proofs_Features Proofs_Features2 Proofs_Features3 Proofs_Features5 Model_Builder Spec_Builder Proofs_Builder3 Proofs_Builder4 Model_Processors
  Model_Neural Spec_Neural Proofs_Neural.
Import ListNotations.
Open Scope Z_scope.

(* ---- Pos ---- *)

Definition items_ok (v : part) : Prop := match v with PaFeats f | PaXF _ f => dict_ok f | _ => True end.

Lemma split_items_ok s p sp : opt_pos_wf p -> split_pos s p = Ok sp -> Forall (fun nv => items_ok (snd nv)) sp.
Proof.
  intros W. destruct s as [| | |keys]; cbn [split_pos].
  - intros H; inversion H; subst. constructor; [exact I|constructor].
  - destruct p as [q|]; [|discriminate]. intros H; inversion H; subst. destruct (sorted_items_get _ W) as (O & _).
    constructor; [exact I|]. constructor; [exact I|]. constructor; [exact O|constructor].
  - destruct p as [q|]; [|discriminate]. intros H; inversion H; subst. destruct (sorted_items_get _ W) as (O & _).
    constructor; [exact I|]. constructor; [exact O|constructor].
  - destruct p; [|discriminate]. cbn [of_option bind]. intros H; injection H as <-. apply dict_update_forall.
    + constructor; [exact I|]. constructor; [exact I|constructor].
    + apply Forall_map. apply Forall_forall. intros; exact I.
Qed.

Lemma vocab_items st ds b : Forall opt_pos_wf (dataset_poses ds) -> build_pos_labels st ds = Ok b ->
  forall parts, Forall2 (fun v l => In v l) parts (pl_id2parts b) -> Forall items_ok parts.
Proof.
  intros W B parts F. destruct (build_spec _ _ _ W B) as (_ & _ & Hs & V & _). set (s := pl_splitter b) in *.
  destruct (train_labels_spec ds W) as (Wl & _).
  assert (O : forall n v, In (n, v) (observed s (train_labels ds)) -> items_ok v).
  { intros n v H. unfold observed in H. apply in_concat in H. destruct H as (sp & Hsp & Hin).
    apply in_map_iff in Hsp. destruct Hsp as (lc & E & Hlc). destruct (split_pos s (fst lc)) as [sp'|] eqn:Elc; [|subst; destruct Hin].
    subst sp'. assert (X := split_items_ok s (fst lc) sp). rewrite Forall_forall in X. apply (X) with (x := (n, v)); auto.
    rewrite Forall_forall in W. apply W. apply (proj1 (proj2 (train_labels_spec ds (proj2 (Forall_forall _ _) W)))). apply in_map. auto. }
  clear -F V O. revert parts F. generalize dependent (split_names s). induction (pl_id2parts b) as [|l ls IH]; intros names V parts F;
    inversion F; subst; constructor; inversion V; subst.
  - destruct H4 as (_ & _ & Ho & _). eapply O. apply Ho. eauto.
  - eapply IH; eauto.
Qed.

Lemma combine_says s parts p : typed s parts -> Forall items_ok parts -> length parts = length (split_names s) ->
  (forall keys, s = SGran keys -> NoDup keys /\ ~ In n_UPOS keys /\ ~ In n_XPOS keys) ->
  combine_pos s parts = Ok p ->
  Forall2 (fun name v => part_says name v p) (split_names s) parts /\
  (Forall (fun v => exists s, v = PaStr s) parts -> forall q k, p = Some q -> dict_get (feats q) k <> None ->
     In k (split_names s) /\ k <> n_UPOS /\ k <> n_XPOS).
Proof.
  intros T O L G E. destruct s as [| | |keys]; simpl typed in T.
  - destruct parts as [|a [|]]; try discriminate. destruct a; try discriminate. cbn in E. injection E as <-. split.
    + constructor; [split; reflexivity|constructor].
    + intros F. inversion F as [|? ? (s & X) _]; discriminate.
  - destruct parts as [|a [|c [|e [|]]]]; try discriminate. destruct a, c, e; try discriminate. cbn in E. injection E as <-.
    inversion O as [|? ? _ O1]; subst. inversion O1 as [|? ? _ O2]; subst. inversion O2 as [|? ? Of _]; subst. simpl in Of. split.
    + constructor; [|constructor; [|constructor; [|constructor]]].
      * eexists. split; [reflexivity|]. simpl. repeat split; auto; intros; discriminate || congruence.
      * eexists. split; [reflexivity|]. simpl. repeat split; auto; intros; discriminate || congruence.
      * eexists. split; [reflexivity|]. simpl. intros k. fold (items_dict f). rewrite items_dict_id; auto.
    + intros F. inversion F as [|? ? _ F1]; subst. inversion F1 as [|? ? _ F2]; subst. inversion F2 as [|? ? (s1 & X) _]; discriminate.
  - destruct parts as [|a [|c [|]]]; try discriminate. destruct a, c; try discriminate. cbn in E. injection E as <-.
    inversion O as [|? ? _ O1]; subst. inversion O1 as [|? ? Of _]; subst. simpl in Of. split.
    + constructor; [|constructor; [|constructor]].
      * eexists. split; [reflexivity|]. simpl. repeat split; auto; intros; discriminate || congruence.
      * eexists. split; [reflexivity|]. simpl. split; auto. intros k. fold (items_dict f). rewrite items_dict_id; auto.
    + intros F. inversion F as [|? ? _ F1]; subst. inversion F1 as [|? ? (s1 & X) _]; discriminate.
  - destruct T as (F & _). destruct (G keys eq_refl) as (Nd & NU & NX).
    assert (En : split_names (SGran keys) = n_UPOS :: n_XPOS :: keys).
    { cbn [split_names]. rewrite dict_update_fresh.
      - unfold dict_keys. rewrite map_app, map_map. cbn [map fst app]. do 2 f_equal. clear. induction keys; simpl; f_equal; auto.
      - unfold dict_ok, dict_keys. rewrite map_map. cbn [fst]. rewrite map_id. auto.
      - intros k. unfold dict_keys. rewrite map_map. cbn [fst]. rewrite map_id. simpl. intros Hk [<-|[<-|[]]]; auto. }
    rewrite En in *. destruct parts as [|a [|c vs]]; simpl in L; try discriminate.
    inversion F as [|? ? Ka F1]; subst. inversion F1 as [|? ? Kc F2]; subst. destruct a as [| u | |], c as [| x0 | |]; try discriminate.
    set (get := fun k => match dict_get (combine keys vs) k with Some (PaStr s) => s | _ => None end).
    assert (Ev : vs = map (fun k => PaStr (get k)) keys).
    { assert (Lv : length vs = length keys) by lia. clear -Nd F2 Lv. subst get. revert keys Nd Lv.
      induction F2 as [|v vs Kv F2 IH]; intros [|k keys] Nd Lv; simpl in Lv; try discriminate; auto.
      destruct v as [| s | |]; try discriminate. inversion Nd; subst. cbn [map combine dict_get].
      rewrite (proj2 (str_eqb_eq k k) eq_refl). f_equal. rewrite (IH keys H2 (f_equal Nat.pred Lv)) at 1. apply map_ext_in. intros k' Hk'.
      assert (X : str_eqb k' k = false) by (apply str_eqb_neq; intros ->; auto). rewrite X. auto. }
    cbn [combine_pos] in E.
    change (PaStr u :: PaStr x0 :: vs) with ([PaStr u; PaStr x0] ++ vs) in E.
    replace 2 with (zlen [PaStr u; PaStr x0]) in E by reflexivity. rewrite py_from_app in E.
    destruct (gran_fold get keys Nd keys [] [] eq_refl) as (d' & Fd & Od & Gd); [constructor|intros ? []|].
    rewrite <- Ev in Fd. unfold enumerate, zrange, zlen in E. rewrite Nat2Z.id in E.
    assert (Lv : length vs = length keys) by lia. rewrite Lv in E. cbn [length] in Fd. rewrite Fd in E. cbn in E. injection E as <-.
    assert (Dg : forall k, dict_get d' k = if in_dec (list_eq_dec N.eq_dec) k keys then get k else None).
    { intros k. rewrite Gd. reflexivity. }
    split.
    + constructor; [|constructor].
      * eexists. split; [reflexivity|]. simpl. repeat split; auto; intros; discriminate || congruence.
      * eexists. split; [reflexivity|]. simpl. repeat split; auto; intros; discriminate || congruence.
      * rewrite Ev. apply Forall2_map_r. clear -Dg NU NX. assert (X : forall ks, (forall k, In k ks -> In k keys) ->
          Forall2 (fun k k' => part_says k (PaStr (get k')) (Some (mkPos u x0 d'))) ks ks).
        { induction ks as [|k ks IH]; intros H; constructor; [|apply IH; intros; apply H; right; auto].
          eexists. split; [reflexivity|]. assert (Hk : In k keys) by (apply H; left; auto).
          split; [intros ->; tauto|]. split; [intros ->; tauto|]. intros _ _. cbn [feats]. rewrite Dg.
          destruct (in_dec (list_eq_dec N.eq_dec) k keys); tauto. }
        apply X; auto.
    + intros _ q k Hq Hg. injection Hq as <-. cbn [feats] in Hg. rewrite Dg in Hg.
      destruct (in_dec (list_eq_dec N.eq_dec) k keys) as [Hk|]; [|congruence].
      split; [right; right; auto|]. split; intros ->; tauto.
Qed.

Lemma gran_keys st ds keys : Forall opt_pos_wf (dataset_poses ds) -> (st = pos_gran -> no_reserved_feature (dataset_poses ds)) ->
  make_splitter st (map fst (train_labels ds)) = Ok (SGran keys) -> NoDup keys /\ ~ In n_UPOS keys /\ ~ In n_XPOS keys.
Proof.
  intros W N H. destruct st; simpl in H; try discriminate. apply bind_ok_iff in H. destruct H as (keys' & E & H). injection H as <-.
  apply feats_keys_spec in E. destruct E as (_ & Nd & _ & Hk). destruct (train_labels_spec ds W) as (_ & Sub & _).
  assert (T : forall k, trained_feature (map fst (train_labels ds)) k -> trained_feature (dataset_poses ds) k).
  { intros k (q & Hq & G). exists q. split; auto. }
  destruct (N eq_refl) as (NU & NX). split; auto. split; intros X; [apply NU|apply NX]; apply T, Hk, X.
Qed.

Lemma pos_denoted st ds b x ids : Forall opt_pos_wf (dataset_poses ds) -> (st = pos_gran -> no_reserved_feature (dataset_poses ds)) ->
  build_pos_labels st ds = Ok b -> token_wf (dt_tok x) -> Forall2 (fun i nl => 0 <= i < snd nl) ids (pl_lens b) ->
  exists p, interpret_pos b x ids = dt_with_morphology x p (tlemma (dt_tok x)) /\ denoted_pos b ids p.
Proof.
  intros W N B Wt R. destruct (build_spec _ _ _ W B) as (Es & _ & _ & V & _ & E3).
  assert (L3 := Forall2_length' _ _ _ V).
  assert (Ek : dict_keys (pl_lens b) = split_names (pl_splitter b)).
  { rewrite E3. clear -L3. unfold dict_keys. revert L3. generalize (split_names (pl_splitter b)). induction (pl_id2parts b) as [|l ls IH];
      intros [|n names] L; simpl in *; try discriminate; f_equal; auto. }
  rewrite E3 in R.
  assert (P : exists parts, mapM (fun ab => py_index (fst ab) (snd ab)) (combine (pl_id2parts b) ids) = Ok parts /\
              Forall2 (fun v l => In v l) parts (pl_id2parts b) /\ length ids = length (pl_id2parts b) /\
              Forall2 (fun il v => 0 <= fst il /\ nth_error (snd il) (Z.to_nat (fst il)) = Some v) (combine ids (pl_id2parts b)) parts).
  { clear -R L3. revert ids R. revert L3. generalize (split_names (pl_splitter b)). induction (pl_id2parts b) as [|l ls IH]; intros [|n names] L ids R; simpl in L; try discriminate; simpl in R; inversion R; subst.
    - exists []. repeat split; constructor.
    - destruct (IH names) with (ids := l0) as (parts & E & F & Ll & F2); auto. simpl in H2.
      destruct (nth_error l (Z.to_nat x)) as [v|] eqn:N.
      + exists (v :: parts). cbn [combine mapM fst snd]. rewrite py_index_nonneg, N by lia. cbn [of_option bind]. rewrite E. cbn [bind].
        split; auto. split; [|split; [simpl; lia|]].
        * constructor; auto. eapply nth_error_In; eauto.
        * constructor; auto. simpl. split; auto. lia.
      + apply nth_error_None in N. unfold zlen in H2. lia. }
  destruct P as (parts & Ep & Fp & Ll & Fn).
  assert (T := vocab_kinds _ _ _ W B parts Fp). assert (O := vocab_items _ _ _ W B parts Fp).
  destruct (combine_total _ _ T) as (q & Eq & Nq). exists q. split.
  - unfold interpret_pos. rewrite mapM_enumerate by lia. rewrite Ep. cbn [bind]. rewrite Eq. reflexivity.
  - exists parts. split; auto. rewrite Ek. assert (Lp := Forall2_length' _ _ _ Fp). apply combine_says; auto; [lia|].
    intros keys Hk. rewrite Hk in Es. eapply gran_keys; eauto.
Qed.

(* ---- symbols ---- *)

Lemma read_spells v : numbered_from 4 v -> forall ids lemma l, Forall (fun i => 0 <= i < zlen v + 4) ids ->
  read_chars (invert v) ids lemma = Ok l -> exists l', l = lemma ++ l' /\ spells v ids l'.
Proof.
  intros N. induction ids as [|i ids IH]; intros lemma l F E; cbn [read_chars] in E.
  - injection E as <-. exists []. rewrite app_nil_r. split; auto. constructor.
  - inversion F; subst. destruct (i =? END) eqn:Ee.
    + apply Z.eqb_eq in Ee. subst i. injection E as <-. exists []. rewrite app_nil_r. split; auto. apply sp_end.
    + destruct ((i =? START) || (i =? OOV) || (i =? PADDING)) eqn:E2.
      * destruct (IH _ _ H2 E) as (l' & -> & S). exists l'. split; auto. apply sp_skip; auto.
        unfold START, OOV, PADDING in E2. apply orb_true_iff in E2. destruct E2 as [E2|E2]; [apply orb_true_iff in E2; destruct E2 as [E2|E2]|]; apply Z.eqb_eq in E2; lia.
      * apply Z.eqb_neq in Ee. apply orb_false_iff in E2. destruct E2 as [E2 E3]. apply orb_false_iff in E2. destruct E2 as [E2 E4].
        apply Z.eqb_neq in E2. apply Z.eqb_neq in E3. apply Z.eqb_neq in E4. unfold END, START, OOV, PADDING in *.
        destruct (gget Z.eqb (invert v) i) as [s|] eqn:G; [|discriminate]. cbn [of_option bind] in E.
        destruct (IH _ _ H2 E) as (l' & -> & S). exists (s ++ l'). split; [rewrite <- app_assoc; auto|]. apply sp_symbol; auto; [lia|].
        apply (invert_get v (nb_inj _ _ N) (nb_ok _ _ N)) in G. auto.
Qed.
