(* A prediction denotes at most one value. *)
From Coq Require Import String ZArith NArith QArith Bool Lia List.
From Verif Require Import Base BaseFacts Proofs_Datamodel Model_Datamodel Spec_Datamodel Model_Vocab Proofs_Vocab Model_Lemma Spec_Lemma Model_Features Spec_Features
  Proofs_Lemma Proofs_Lemma2 Proofs_Features Proofs_Features2 Proofs_Features3 Proofs_Features5 Model_Builder Spec_Builder Proofs_Builder3 Proofs_Builder4 Model_Processors
  Proofs_Processors Model_Neural Spec_Neural Proofs_Neural Proofs_Neural2 Proofs_Neural3.
Import ListNotations.
Open Scope Z_scope.

Lemma gran_names keys : In n_UPOS (split_names (SGran keys)) /\ In n_XPOS (split_names (SGran keys)).
Proof.
  cbn [split_names].
  assert (G : forall (e d : dict unit) k, In k (dict_keys d) -> In k (dict_keys (dict_update d e))).
  { induction e as [|kv e IH]; intros d k H; [exact H|]. unfold dict_update. cbn [fold_left]. apply IH.
    rewrite dict_keys_set. destruct (dict_mem d (fst kv)); auto. apply in_or_app. auto. }
  split; apply G; simpl; auto.
Qed.

Lemma in_combine_parts (ids : list Z) (vs : list (list part)) parts :
  Forall2 (fun il v => 0 <= fst il /\ nth_error (snd il) (Z.to_nat (fst il)) = Some v) (combine ids vs) parts ->
  length parts = length vs -> Forall2 (fun v l => In v l) parts vs.
Proof.
  revert ids parts. induction vs as [|l vs IH]; intros [|i ids] parts H L; cbn [combine] in H; inversion H; subst; simpl in L; try discriminate; constructor.
  - destruct H2 as (_ & N). eapply nth_error_In. exact N.
  - eapply IH; eauto.
Qed.

Lemma parts_once (l : list (Z * list part)) p q :
  Forall2 (fun il v => 0 <= fst il /\ nth_error (snd il) (Z.to_nat (fst il)) = Some v) l p ->
  Forall2 (fun il v => 0 <= fst il /\ nth_error (snd il) (Z.to_nat (fst il)) = Some v) l q -> p = q.
Proof.
  intros H. revert q. induction H as [|il v l p (_ & E) _ IH]; intros q Hq; inversion Hq; subst; auto. f_equal; auto.
  destruct H1 as (_ & E'). rewrite E in E'. congruence.
Qed.

Lemma says_once name s p q : part_says name (PaStr s) p -> part_says name (PaStr s) q -> exists a b, p = Some a /\ q = Some b /\
  (name = n_UPOS -> upos a = upos b) /\ (name = n_XPOS -> xpos a = xpos b) /\
  (name <> n_UPOS -> name <> n_XPOS -> dict_get (feats a) name = dict_get (feats b) name).
Proof.
  intros (a & -> & A1 & A2 & A3) (b & -> & B1 & B2 & B3). exists a, b. split; auto. split; auto.
  split; [intros E; rewrite A1, B1; auto|]. split; [intros E; rewrite A2, B2; auto|]. intros E1 E2. rewrite A3, B3; auto.
Qed.

Lemma f2_cons {A C} (R : A -> C -> Prop) x l y m : Forall2 R (x :: l) (y :: m) -> R x y /\ Forall2 R l m.
Proof. intros H. inversion H. auto. Qed.

Lemma pos_once st ds b ids p q : Forall opt_pos_wf (dataset_poses ds) -> build_pos_labels st ds = Ok b ->
  denoted_pos b ids p -> denoted_pos b ids q -> same_pos p q.
Proof.
  intros W B (parts & N1 & S1 & X1) (parts' & N2 & S2 & X2).
  assert (parts' = parts) by (eapply parts_once; eauto). subst parts'. clear N2.
  destruct (build_spec _ _ _ W B) as (_ & _ & _ & V & _ & E3).
  assert (L3 := Forall2_length' _ _ _ V).
  assert (Ek : dict_keys (pl_lens b) = split_names (pl_splitter b)).
  { rewrite E3. clear -L3. unfold dict_keys. revert L3. generalize (split_names (pl_splitter b)). induction (pl_id2parts b) as [|l ls IH];
      intros [|n names] L; simpl in *; try discriminate; f_equal; auto. }
  rewrite Ek in *. assert (Lp := Forall2_length' _ _ _ S1).
  assert (T := vocab_kinds _ _ _ W B parts (in_combine_parts _ _ _ N1 ltac:(lia))).
  destruct (pl_splitter b) as [| | |keys]; cbn [typed] in T.
  - destruct parts as [|v [|]]; try discriminate T. destruct v; try discriminate T.
    cbn [split_names] in S1, S2. apply f2_cons in S1. destruct S1 as ((_ & ->) & _). apply f2_cons in S2. destruct S2 as ((_ & ->) & _).
    unfold same_pos, get_rel, pos_same. destruct p0; auto.
  - destruct parts as [|v [|v' [|v'' [|]]]]; try discriminate T. destruct v, v', v''; try discriminate T.
    cbn [split_names] in S1, S2. apply f2_cons in S1. destruct S1 as (A1 & A). apply f2_cons in A. destruct A as (A2 & A'). apply f2_cons in A'. destruct A' as ((a3 & -> & A3) & _).
    apply f2_cons in S2. destruct S2 as (B1 & B0). apply f2_cons in B0. destruct B0 as (B2 & B'). apply f2_cons in B'. destruct B' as ((b3 & -> & B3) & _).
    destruct (says_once _ _ _ _ A1 B1) as (a & c & Ea & Ec & U & _). injection Ea as <-. injection Ec as <-.
    destruct (says_once _ _ _ _ A2 B2) as (a & c & Ea & Ec & _ & X & _). injection Ea as <-. injection Ec as <-.
    unfold same_pos, get_rel, pos_same. split; [auto|]. split; [auto|]. intros k. rewrite A3, B3. auto.
  - destruct parts as [|v [|v' [|]]]; try discriminate T. destruct v, v'; try discriminate T.
    cbn [split_names] in S1, S2. apply f2_cons in S1. destruct S1 as (A1 & A). apply f2_cons in A. destruct A as ((a3 & -> & A2 & A3) & _).
    apply f2_cons in S2. destruct S2 as (B1 & B0). apply f2_cons in B0. destruct B0 as ((b3 & -> & B2 & B3) & _).
    destruct (says_once _ _ _ _ A1 B1) as (a & c & Ea & Ec & U & _). injection Ea as <-. injection Ec as <-.
    unfold same_pos, get_rel, pos_same. split; [auto|]. split; [congruence|]. intros k. rewrite A3, B3. auto.
  - destruct T as (K & _).
    assert (K' : Forall (fun v => exists s, v = PaStr s) parts).
    { eapply Forall_impl; [|exact K]. intros [] E; try discriminate E. eauto. }
    specialize (X1 K'). specialize (X2 K').
    assert (At : forall k, In k (split_names (SGran keys)) -> exists s, part_says k (PaStr s) p /\ part_says k (PaStr s) q).
    { intros k Hk. destruct (In_nth_error _ _ Hk) as (i & Hi). destruct (Forall2_nth _ _ _ _ _ S1 Hi) as (v & Hv & P1).
      destruct (Forall2_nth _ _ _ _ _ S2 Hi) as (v' & Hv' & P2). assert (v' = v) by congruence. subst v'.
      rewrite Forall_forall in K'. destruct (K' v (nth_error_In _ _ Hv)) as (s & ->). eauto. }
    destruct (gran_names keys) as (IU & IX).
    destruct (At _ IU) as (s & P1 & P2). destruct (says_once _ _ _ _ P1 P2) as (a & c & -> & -> & U & _). clear s P1 P2.
    destruct (At _ IX) as (s & P1 & P2). destruct (says_once _ _ _ _ P1 P2) as (a0 & c0 & Ea & Ec & _ & X & _). injection Ea as <-. injection Ec as <-. clear s P1 P2.
    unfold same_pos, get_rel, pos_same. split; [auto|]. split; [auto|]. intros k.
    assert (Y : dict_get (feats a) k <> None \/ dict_get (feats c) k <> None -> dict_get (feats a) k = dict_get (feats c) k).
    { intros H. assert (Z0 : In k (split_names (SGran keys)) /\ k <> n_UPOS /\ k <> n_XPOS) by (destruct H; eauto).
      destruct Z0 as (Hk & NU & NX). destruct (At _ Hk) as (s & P1 & P2). destruct (says_once _ _ _ _ P1 P2) as (a0 & c0 & Ea & Ec & _ & _ & E).
      injection Ea as <-. injection Ec as <-. auto. }
    destruct (dict_get (feats a) k), (dict_get (feats c) k); auto; apply Y; first [left; discriminate | right; discriminate].
Qed.

Lemma spells_once v : numbered_from 4 v -> forall ids l l', spells v ids l -> spells v ids l' -> l = l'.
Proof.
  intros N ids l l' H. revert l'. induction H as [|ids|i ids l Hi H IH|i s ids l Hi Hs H IH]; intros l' H'; inversion H'; subst; auto; try lia.
  match goal with X : dict_get v _ = Some i, Y : spells v ids ?l1 |- _ ++ _ = _ ++ ?l1 => rewrite (nb_inj _ _ N _ _ _ Hs X); f_equal; apply IH, Y end.
Qed.

Lemma chars_numbered segment th ds v : build_lemma_chars segment th ds = Ok v -> numbered_from 4 v.
Proof.
  intros H. unfold build_lemma_chars in H. apply bind_ok_iff in H. destruct H as (segs & _ & H). injection H as <-. apply vocab_numbered.
Qed.

Lemma map_NInt_inj a b : map NInt a = map NInt b -> a = b.
Proof. revert b. induction a as [|x a IH]; intros [|y b] H; try discriminate; auto. injection H as -> H. f_equal. auto. Qed.

Theorem denotes_once lower ds lb v text p l q m : Forall opt_pos_wf (dataset_poses ds) ->
  denotes lower ds lb v text p l -> denotes lower ds lb v text q m ->
  (writes_pos lb -> same_pos p q) /\ (writes_lemma lb -> l = m).
Proof.
  intros W. destruct lb as [name st|name|name th|name th segment ml]; cbn [denotes writes_pos writes_lemma].
  - intros (b & ids & E & -> & D) (b' & ids' & E' & V & D'). split; [intros _|intros X; destruct (X I)].
    injection V as V. apply map_NInt_inj in V. subst ids'. assert (b' = b) by congruence. subst b'. eapply pos_once; eauto.
  - intros (l2i & i2l & i & more & E & -> & N) (l2i' & i2l' & i' & more' & E' & V & N'). split; [intros []|intros _].
    injection V as <- <-. rewrite E in E'. injection E' as <- <-. congruence.
  - intros (r2i & i2r & i & more & r & E & -> & N & D) (r2i' & i2r' & i' & more' & r' & E' & V & N' & D'). split; [intros []|intros _].
    injection V as <- <-. rewrite E in E'. injection E' as <- <-. assert (r' = r) by congruence. subst r'.
    destruct D as [(a & Ea & ->)|(Na & ->)], D' as [(c & Ec & ->)|(Nc & ->)]; auto.
    + rewrite Ea in Ec. apply app_inv_tail in Ec. congruence.
    + destruct Nc. exists a. auto.
    + destruct Na. exists c. auto.
  - intros (sy & ids & s & E & -> & S1 & ->) (sy' & ids' & s' & E' & V & S2 & ->). split; [intros []|intros _].
    injection V as V. apply map_NInt_inj in V. subst ids'. assert (sy' = sy) by congruence. subst sy'. f_equal.
    eapply spells_once; eauto using chars_numbered.
Qed.
