(* Gold labels tell what the gold tokens are. *)
From Coq Require Import String ZArith NArith QArith Bool Lia List.
From Verif Require Import Base BaseFacts Proofs_Datamodel Model_Datamodel Spec_Datamodel Model_Vocab Spec_Vocab Proofs_Vocab Model_Lemma Spec_Lemma Model_Features Spec_Features
  Proofs_Lemma Proofs_Lemma2 Proofs_Features Proofs_Features2 Proofs_Features3 Proofs_Features5 Model_Builder Spec_Builder Proofs_Builder Proofs_Builder3 Proofs_Builder4 Proofs_Builder5
  Model_Processors Proofs_Processors Model_Neural Spec_Neural Spec_Gold Proofs_Neural Proofs_Neural2 Proofs_Neural3 Proofs_Neural4 Proofs_Neural5 Proofs_Neural6.
Import ListNotations.
Open Scope Z_scope.

Section Gold.
Variable lower : str -> str.

Lemma same_pos_trans p q r : same_pos p q -> same_pos q r -> same_pos p r.
Proof.
  unfold same_pos, get_rel, pos_same. destruct p, q, r; try tauto. intros (A & B & C) (D & E & F). split; [congruence|]. split; [congruence|].
  intros k. rewrite C. auto.
Qed.

(* the label of one gold token *)
Definition width (ds : list document) (lb : label_builder) (n : nat) : Prop :=
  match lb with
  | LBPos _ st => exists b, build_pos_labels st ds = Ok b /\ n = length (pl_lens b)
  | LBChars _ _ _ m => Z.of_nat n = m
  | _ => n = 1%nat
  end.

Lemma segs_of segment ds segs : mapM (fun x => segment_lemma segment (tlemma (dt_tok x))) (dataset_tokens ds) = Ok segs <->
  Forall2 (fun x ss => exists l, tlemma (dt_tok x) = Some l /\ segment l = Ok ss) (dataset_tokens ds) segs.
Proof.
  rewrite mapM_ok. split; apply Forall2_impl; intros x ss; unfold segment_lemma.
  - destruct (tlemma (dt_tok x)) as [l|]; [|discriminate]. cbn [of_option bind]. eauto.
  - intros (l & -> & E). exact E.
Qed.

Lemma gold_label ds lb l x : Forall opt_pos_wf (dataset_poses ds) ->
  (forall name, lb = LBPos name pos_gran -> no_reserved_feature (dataset_poses ds)) -> sized lb ->
  build_label lower ds lb = Ok l -> token_wf (dt_tok x) -> In x (dataset_tokens ds) ->
  exists ids n, label_features lower ds lb (OTok x) = Ok [(label_name lb, NList (map NInt ids))] /\
    width ds lb n /\ length ids = n /\ possible lower ds lb (NList (map NInt ids)) /\
    forall p lem, denotes lower ds lb (NList (map NInt ids)) (dt_text x) p lem -> recovers lower ds lb (dt_doc x) (dt_tok x) p lem.
Proof.
  intros W N Sz B Wt Hx.
  assert (Step : forall ids, possible lower ds lb (NList (map NInt ids)) -> forall p lem,
     denotes lower ds lb (NList (map NInt ids)) (dt_text x) p lem ->
     exists t, interpret_label lower l x [(label_name lb, NList (map NInt ids))] = Ok (mkDT (dt_doc x) t) /\
       (writes_pos lb -> same_pos (tpos t) p) /\ (writes_lemma lb -> lem = tlemma t)).
  { intros ids P p lem D. destruct (label_step lower ds lb l (NList (map NInt ids)) x [(label_name lb, NList (map NInt ids))]) as (p0 & lem0 & E & D0 & _); auto.
    { cbn [dict_get]. rewrite (proj2 (str_eqb_eq _ _) eq_refl). auto. }
    eexists. split; [exact E|]. destruct (denotes_once lower ds lb _ _ _ _ _ _ W D0 D) as (A & C). split; auto.
    intros H. symmetry. apply C. auto. }
  destruct lb as [name st|name|name th|name th segment m]; cbn [build_label label_name label_features width recovers] in *.
  - apply bind_ok_iff in B. destruct B as (b & Eb & B). injection B as <-.
    destruct (pos_round_trip st ds b x W) as (ids & t & E1 & R & E2 & S & P); auto. { intros ->. eapply N; eauto. }
    exists ids, (length (pl_lens b)). rewrite Eb. cbn [bind]. rewrite E1. cbn [bind]. split; auto. split; [eauto|].
    assert (Po : possible lower ds (LBPos name st) (NList (map NInt ids))) by (exists b, ids; auto).
    split; [eapply Forall2_length'; eauto|]. split; [exact Po|]. intros p lem D. destruct (Step ids Po p lem D) as (t' & E & A & _).
    cbn [interpret_label dict_get] in E. rewrite (proj2 (str_eqb_eq name name) eq_refl) in E. cbn [of_option bind] in E. rewrite as_ids_ints in E. cbn [bind] in E. rewrite E2 in E.
    injection E as <-. eapply same_pos_trans; [exact P|]. apply A. exact I.
  - apply bind_ok_iff in B. destruct B as ([l2i i2l] & Eb & B). injection B as <-. rewrite Eb. cbn [bind fst].
    destruct (lemma_known ds l2i i2l x Eb Hx Wt) as (R & t & E2 & S & T).
    exists [lemma_label l2i (tlemma (dt_tok x))], 1%nat. split; auto. split; auto. split; auto.
    assert (Po : possible lower ds (LBLemma name) (NList (map NInt [lemma_label l2i (tlemma (dt_tok x))]))).
    { exists l2i, i2l. eexists. exists []. split; [exact Eb|]. split; [reflexivity|]. auto. }
    split; [exact Po|]. intros p lem D. destruct (Step _ Po p lem D) as (t' & E & _ & A).
    cbn [interpret_label dict_get snd] in E. rewrite (proj2 (str_eqb_eq name name) eq_refl) in E. cbn [of_option bind] in E.
    unfold first_id in E. cbn [as_list map bind] in E. rewrite py_index_nonneg in E by lia. cbn [Z.to_nat nth_error of_option bind as_id] in E.
    rewrite E2 in E. injection E as <-. rewrite <- T. apply A. intros [].
  - apply bind_ok_iff in B. destruct B as ([r2i i2r] & Eb & B). injection B as <-. rewrite Eb. cbn [bind fst].
    destruct (build_rules_vocabulary lower th ds _ Eb) as (labels & mc & Ft & Nd & N0 & _ & _ & Voc). cbn [snd] in *.
    destruct (In_nth_error _ _ Hx) as (ix & Hix). destruct (Forall2_nth _ _ _ _ _ Ft Hix) as (r & Hr & Tr).
    destruct Tr as (lg & El & Le). assert (Tr : teaches lower x r) by (exists lg; auto).
    assert (Rl : exists i, rule_label lower r2i x = Ok i /\ 0 <= i < zlen i2r).
    { unfold rule_label. destruct (suffix_transformation lower x) as [r'|] eqn:Es.
      - cbn [bind]. eexists. split; [reflexivity|]. unfold gget_default.
        destruct (build_rules_labels lower th ds _ Eb) as (_ & _ & _ & Ef & Ad). cbn [fst snd] in *.
        destruct (gget rule_eqb r2i r') as [i|] eqn:G.
        + rewrite Ef in G. apply obj2id_spec in G; auto using rule_equiv. destruct G as (Gi & k' & Gk & _).
          assert (Z.to_nat i < length i2r)%nat by (apply nth_error_Some; congruence). unfold zlen. lia.
        + assert (0 < length i2r)%nat by (apply nth_error_Some; congruence). unfold zlen. lia.
      - exfalso. unfold suffix_transformation in Es. rewrite El in Es. discriminate Es. }
    destruct Rl as (i & Ei & Ri). rewrite Ei. cbn [bind]. exists [i], 1%nat. split; auto. split; auto. split; auto.
    assert (Po : possible lower ds (LBRule name th) (NList (map NInt [i]))).
    { exists r2i, i2r, i, []. split; [exact Eb|]. split; auto. }
    split; [exact Po|]. intros p lem D. destruct (Step _ Po p lem D) as (t' & E & _ & A).
    cbn [interpret_label dict_get snd] in E. rewrite (proj2 (str_eqb_eq name name) eq_refl) in E. cbn [of_option bind] in E.
    unfold first_id in E. cbn [as_list map bind] in E. rewrite py_index_nonneg in E by lia. cbn [Z.to_nat nth_error of_option bind as_id] in E.
    exists lg. split; auto. intros rules r1 Fr Tr1 Oc.
    assert (Uq : forall y a c, teaches lower y a -> teaches lower y c -> a = c).
    { intros y a c (l1 & L1 & H1) (l2 & L2 & H2). assert (l2 = l1) by congruence. subst. eapply learned_unique; eauto. }
    assert (rules = labels). { revert Fr Ft. clear -Uq. revert labels rules. induction (dataset_tokens ds) as [|y l IH]; intros a c H1 H2; inversion H1; inversion H2; subst; auto. f_equal; eauto. }
    subst rules. assert (r1 = r) by (eapply Uq; [|exact Tr]; destruct x; exact Tr1). subst r1.
    destruct (gold_selectable lower th ds _ x r lg Eb Wt El Tr) as (i' & mm & t & Ei' & _ & _ & _ & E2 & _ & T).
    { apply Voc. right. split; auto. eapply nth_error_In; eauto. }
    cbn [fst snd] in *. rewrite Ei in Ei'. injection Ei' as ->. rewrite E2 in E. injection E as <-. rewrite <- T. apply A. intros [].
  - apply bind_ok_iff in B. destruct B as (v & Eb & B). injection B as <-. rewrite Eb. cbn [bind].
    destruct (build_chars_segs _ _ _ _ Eb) as (segs & Hs). destruct (In_nth_error _ _ Hx) as (ix & Hix).
    destruct (Forall2_nth _ _ _ _ _ (proj1 (segs_of _ _ _) Hs) Hix) as (syms & Hy & lg & El & Sg).
    assert (Sl : segment_lemma segment (tlemma (dt_tok x)) = Ok syms) by (unfold segment_lemma; rewrite El; exact Sg).
    destruct (char_labels segment th ds segs v _ syms m x Hs Eb Sl Sz Wt) as (ids & t & E1 & L & R & E2 & _ & T).
    exists ids, (Z.to_nat m). rewrite E1. cbn [bind]. split; auto. cbn [sized] in Sz. split; [lia|]. split; [unfold zlen in L; lia|].
    assert (Po : possible lower ds (LBChars name th segment m) (NList (map NInt ids))) by (exists v, ids; auto).
    split; [exact Po|]. intros p lem D. destruct (Step _ Po p lem D) as (t' & E & _ & A).
    cbn [interpret_label dict_get] in E. rewrite (proj2 (str_eqb_eq name name) eq_refl) in E. cbn [of_option bind] in E. rewrite as_ids_ints in E. cbn [bind] in E. rewrite E2 in E.
    injection E as <-. exists lg, syms. split; auto. split; auto. intros segs' Fs. apply segs_of in Fs. rewrite Hs in Fs. injection Fs as <-.
    rewrite <- T. apply A. intros [].
Qed.
End Gold.
