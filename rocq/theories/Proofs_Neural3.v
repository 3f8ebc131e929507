(* The interpreter of the labels, on tokens and on sentences. *)
From Coq Require Import String ZArith NArith QArith Bool Lia List.
From Verif Require Import Base BaseFacts Proofs_Datamodel Model_Datamodel Spec_Datamodel Model_Vocab Proofs_Vocab Model_Lemma Spec_Lemma Model_Features Spec_Features
  Proofs_Lemma Proofs_Lemma2 Proofs_Features Proofs_Features2 Proofs_Features3 Proofs_Features5 Model_Builder Spec_Builder Proofs_Builder3 Proofs_Builder4
  Model_Processors Spec_Processors Proofs_Processors Model_Neural Spec_Neural Proofs_Neural Proofs_Neural2.
Import ListNotations.
Open Scope Z_scope.

Section Lower.
Variable lower : str -> str.

Lemma as_ids_ints ids : as_ids (NList (map NInt ids)) = Ok ids.
Proof. unfold as_ids. cbn [as_list bind]. apply mapM_ok. induction ids; constructor; auto. Qed.

Lemma dt_with x p l : token_wf (dt_tok x) -> dt_with_morphology x p l = Ok (mkDT (dt_doc x) (set_morphology (dt_tok x) p l)).
Proof. intros W. destruct (dt_with_morphology_ok x p l W) as (t & E & ->). exact E. Qed.

Lemma set_wf t p l : token_wf t -> token_wf (set_morphology t p l).
Proof. intros W. exact W. Qed.

(* one label *)
Lemma label_step ds lb l v x value : Forall opt_pos_wf (dataset_poses ds) ->
  (forall name, lb = LBPos name pos_gran -> no_reserved_feature (dataset_poses ds)) ->
  build_label lower ds lb = Ok l -> token_wf (dt_tok x) -> dict_get value (label_name lb) = Some v -> possible lower ds lb v ->
  exists p lem, interpret_label lower l x value = Ok (mkDT (dt_doc x) (set_morphology (dt_tok x) p lem)) /\
    denotes lower ds lb v (dt_text x) p lem /\
    (writes_pos lb -> lem = tlemma (dt_tok x)) /\ (writes_lemma lb -> p = tpos (dt_tok x)).
Proof.
  intros W N B Wt G P. destruct lb as [name st|name|name th|name th segment m]; cbn [build_label label_name] in *.
  - apply bind_ok_iff in B. destruct B as (b & Eb & B). injection B as <-. destruct P as (b' & ids & Eb' & -> & R).
    assert (b' = b) by congruence. subst b'. cbn [interpret_label]. rewrite G. cbn [of_option bind]. rewrite as_ids_ints. cbn [bind].
    destruct (pos_denoted st ds b x ids W) as (p & E & D); auto. { intros ->. eapply N; eauto. }
    rewrite E, dt_with by auto. exists p, (tlemma (dt_tok x)). split; [auto|]. split; [|split; auto].
    + exists b, ids. auto.
    + intros X. exfalso. apply X. exact I.
  - apply bind_ok_iff in B. destruct B as ([l2i i2l] & Eb & B). injection B as <-. destruct P as (l2i' & i2l' & i & more & Eb' & -> & R).
    rewrite Eb in Eb'. injection Eb' as <- <-. cbn [interpret_label snd]. rewrite G. cbn. unfold interpret_lemma.
    rewrite py_index_nonneg by lia. destruct (nth_error i2l (Z.to_nat i)) as [lem|] eqn:E; [|apply nth_error_None in E; unfold zlen in R; lia].
    cbn [of_option bind]. rewrite dt_with by auto. exists (tpos (dt_tok x)), lem. split; auto. split; [|split; auto; intros []].
    exists l2i, i2l, i, more. auto.
  - apply bind_ok_iff in B. destruct B as ([r2i i2r] & Eb & B). injection B as <-. destruct P as (r2i' & i2r' & i & more & Eb' & -> & R).
    rewrite Eb in Eb'. injection Eb' as <- <-. cbn [interpret_label snd]. rewrite G. cbn.
    destruct (nth_error i2r (Z.to_nat i)) as [r|] eqn:E; [|apply nth_error_None in E; unfold zlen in R; lia].
    destruct (interpret_rule_ok lower i2r x i r Wt (proj1 R) E) as (t & Et & S & H). rewrite Et.
    exists (tpos (dt_tok x)), (tlemma t). split; [|split; [|split; auto; intros []]].
    + do 2 f_equal. destruct S as (S1 & S2 & S3 & S4 & S5 & S6 & S7 & S8 & S9). unfold set_morphology. rewrite S1, S2, S3, S4, S5, S6, S7, S8, S9. destruct t; auto.
    + exists r2i, i2r, i, more, r. split; auto.
  - apply bind_ok_iff in B. destruct B as (sym & Eb & B). injection B as <-. destruct P as (sym' & ids & Eb' & -> & R).
    assert (sym' = sym) by congruence. subst sym'. cbn [interpret_label]. rewrite G. cbn [of_option bind]. rewrite as_ids_ints. cbn [bind].
    destruct (build_chars_segs _ _ _ _ Eb) as (segs & Hs).
    assert (Nv : numbered_from 4 sym) by (rewrite (chars_vocab _ _ _ _ _ Hs Eb); apply vocab_numbered).
    destruct (read_total sym Nv ids [] R) as (le & E). destruct (read_spells sym Nv ids [] le R E) as (l' & E' & S). simpl in E'. subst l'.
    unfold interpret_chars. rewrite E. cbn [bind]. rewrite dt_with by auto. exists (tpos (dt_tok x)), (Some le).
    split; auto. split; [|split; auto; intros []]. exists sym, ids, le. auto.
Qed.

Lemma denotes_pos ds lb v text p l l' : writes_pos lb -> denotes lower ds lb v text p l -> denotes lower ds lb v text p l'.
Proof. destruct lb; simpl; tauto. Qed.
Lemma denotes_lemma ds lb v text p p' l : writes_lemma lb -> denotes lower ds lb v text p l -> denotes lower ds lb v text p' l.
Proof. destruct lb; simpl; unfold writes_lemma; simpl; tauto. Qed.

Lemma writes_dec lb : writes_pos lb \/ writes_lemma lb.
Proof. unfold writes_lemma. destruct lb; simpl; auto. Qed.

(* several labels, one after the other *)
Lemma label_chain ds value lbs ls : Forall opt_pos_wf (dataset_poses ds) ->
  (forall name, In (LBPos name pos_gran) lbs -> no_reserved_feature (dataset_poses ds)) ->
  mapM (build_label lower ds) lbs = Ok ls ->
  (forall lb, In lb lbs -> exists v, dict_get value (label_name lb) = Some v /\ possible lower ds lb v) ->
  forall x, token_wf (dt_tok x) -> exists p lem,
    foldM (fun x l => interpret_label lower l x value) x ls = Ok (mkDT (dt_doc x) (set_morphology (dt_tok x) p lem)) /\
    written (fun lb q l => exists v, dict_get value (label_name lb) = Some v /\ denotes lower ds lb v (dt_text x) q l) lbs
      (dt_tok x) (set_morphology (dt_tok x) p lem).
Proof.
  intros W N M. apply mapM_ok in M. induction M as [|lb l lbs ls E M IH]; intros P x Wt.
  - exists (tpos (dt_tok x)), (tlemma (dt_tok x)). split.
    + cbn [foldM]. destruct x as [d t]; destruct t; reflexivity.
    + split; [auto|]. split; [auto|]. split; intros [|? ?] ? ? X; discriminate.
  - destruct (P lb (or_introl eq_refl)) as (v & G & Pv).
    destruct (label_step ds lb l v x value W) as (p1 & l1 & E1 & D1 & K1 & K2); auto.
    { intros name ->. apply (N name). left; auto. }
    set (x1 := mkDT (dt_doc x) (set_morphology (dt_tok x) p1 l1)) in *.
    destruct IH with (x := x1) as (p & lem & E2 & Hw).
    { intros name H. apply (N name). right; auto. } { intros lb' H. apply P. right; auto. } { exact Wt. }
    exists p, lem. cbn [foldM]. rewrite E1. cbn [bind]. fold x1. rewrite E2. split; [reflexivity|].
    change (dt_text x1) with (dt_text x) in Hw. change (set_morphology (dt_tok x1) p lem) with (set_morphology (dt_tok x) p lem) in Hw.
    destruct Hw as (A1 & A2 & A3 & A4). change (tpos (dt_tok x1)) with p1 in A1. change (tlemma (dt_tok x1)) with l1 in A2.
    split; [|split; [|split]].
    + intros H. rewrite A1 by (intros; apply H; right; auto). apply K2. apply H. left; auto.
    + intros H. rewrite A2 by (intros; apply H; right; auto). apply K1. destruct (writes_dec lb); auto. exfalso. apply (H lb); [left|]; auto.
    + intros [|b before] lb' after E' Hp Hn; cbn [app] in E'; injection E' as <- E'.
      * subst after. exists v. split; auto. rewrite (A1 Hn). eapply denotes_pos; eauto.
      * eapply A3; eauto.
    + intros [|b before] lb' after E' Hp Hn; cbn [app] in E'; injection E' as <- E'.
      * subst after. exists v. split; auto. rewrite (A2 Hn). eapply denotes_lemma; eauto.
      * eapply A4; eauto.
Qed.

(* ---- building ---- *)

Lemma build_basics ds lbs : forall is, (fix go (bs : list (builder label_builder)) : result (list interpreter) :=
     match bs with [] => Ok [] | b :: bs' => do i <- build_interpreter lower ds b; do is <- go bs'; Ok (i :: is) end) (map (BBasic LB) lbs) = Ok is ->
  exists ls, mapM (build_label lower ds) lbs = Ok ls /\ is = map ILabel ls.
Proof.
  induction lbs as [|lb lbs IH]; intros is E; cbn [map] in E.
  - injection E as <-. exists []. auto.
  - apply bind_ok_iff in E. destruct E as (i & Ei & E). apply bind_ok_iff in E. destruct E as (is' & E' & E). injection E as <-.
    destruct (IH _ E') as (ls & M & ->). cbn [build_interpreter] in Ei. apply bind_ok_iff in Ei. destruct Ei as (l & El & Ei). injection Ei as <-.
    exists (l :: ls). cbn [mapM]. rewrite El. cbn [bind]. rewrite M. auto.
Qed.

Lemma interpret_chain (ls : list labelling) value : forall x, interpret_all (map (interpret lower) (map ILabel ls)) (OTok x) value =
  do y <- foldM (fun x l => interpret_label lower l x value) x ls; Ok (OTok y).
Proof.
  unfold interpret_all. induction ls as [|l ls IH]; intros x; [reflexivity|]. cbn [map foldM].
  change (interpret lower (ILabel l) (OTok x) value) with (do y <- interpret_label lower l x value; Ok (OTok y)).
  destruct (interpret_label lower l x value) as [y|]; [|reflexivity]. cbn [bind]. apply IH.
Qed.

Lemma interpreter_spec bs lbs ds i : provided bs lbs -> label_interpreter lower bs ds = Ok i ->
  (lbs = [] /\ i = IDoNothing) \/
  (lbs <> [] /\ exists ls ti, mapM (build_label lower ds) (by_class lbs) = Ok ls /\ i = IIter (IIter ti) /\
     forall x value, interpret lower ti (OTok x) value = do y <- foldM (fun x l => interpret_label lower l x value) x ls; Ok (OTok y)).
Proof.
  intros P E. unfold label_interpreter in E. destruct lbs as [|lb0 lbs0] eqn:El.
  - left. split; auto. rewrite merged_empty in E by auto. cbn in E. congruence.
  - right. split; [discriminate|]. rewrite <- El in *. rewrite (merged bs lbs P) in E by (rewrite El; discriminate). clear El lb0 lbs0 P.
    cbn [bind build_interpreter] in E. apply bind_ok_iff in E. destruct E as (i1 & E1 & E). injection E as <-.
    apply bind_ok_iff in E1. destruct E1 as (ti & Et & E1). injection E1 as <-.
    revert Et. generalize (by_class lbs) as cl. intros cl Et. unfold single in Et. destruct cl as [|a [|c cl]]; cbn [map] in Et.
    + discriminate Et.
    + cbn [build_interpreter] in Et. apply bind_ok_iff in Et. destruct Et as (l & El & Et). injection Et as <-.
      exists [l], (ILabel l). cbn [mapM]. rewrite El. split; [auto|]. split; auto.
      intros x value. cbn. destruct (interpret_label lower l x value); reflexivity.
    + change (build_interpreter lower ds (BComp LB (BBasic LB a :: BBasic LB c :: map (BBasic LB) cl)) = Ok ti) in Et.
      change (BBasic LB a :: BBasic LB c :: map (BBasic LB) cl) with (map (BBasic LB) (a :: c :: cl)) in Et.
      assert (X : exists is, (fix go (bs : list (builder label_builder)) : result (list interpreter) :=
         match bs with [] => Ok [] | b :: bs' => do i <- build_interpreter lower ds b; do is <- go bs'; Ok (i :: is) end) (map (BBasic LB) (a :: c :: cl)) = Ok is /\
         ti = composite_interpreter is).
      { cbn [build_interpreter] in Et. cbn [map] in Et. apply bind_ok_iff in Et. destruct Et as (is & Ei & Et). exists is. split; [exact Ei|congruence]. }
      destruct X as (is & Ei & ->). destruct (build_basics ds (a :: c :: cl) is Ei) as (ls & M & ->). exists ls. eexists. split; [exact M|]. split; [reflexivity|].
      assert (Ll : length ls = S (S (length cl))). { apply mapM_ok in M. apply Forall2_length' in M. simpl in M. auto. }
      unfold composite_interpreter.
      assert (Ff : filter (fun i => negb (does_nothing i)) (map ILabel ls) = map ILabel ls) by (clear; induction ls; simpl; f_equal; auto).
      rewrite Ff. intros x value. rewrite <- interpret_chain. destruct ls as [|l1 [|l2 ls]]; simpl in Ll; try discriminate. reflexivity.
Qed.
End Lower.
