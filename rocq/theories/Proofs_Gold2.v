(* The label extractor on gold sentences. *)
From Coq Require Import String ZArith NArith QArith Bool Lia List.
From Verif Require Import Base BaseFacts Proofs_Datamodel Model_Datamodel Spec_Datamodel Model_Vocab Spec_Vocab Proofs_Vocab Model_Lemma Spec_Lemma Model_Features Spec_Features
  Proofs_Lemma Proofs_Lemma2 Proofs_Features Proofs_Features2 Proofs_Features3 Proofs_Features5 Model_Builder Spec_Builder Proofs_Builder Proofs_Builder3 Proofs_Builder4 Proofs_Builder5
  Model_Processors Spec_Processors Proofs_Datamodel2 Proofs_Processors Model_Neural Spec_Neural Spec_Gold Proofs_Neural Proofs_Neural2 Proofs_Neural3 Proofs_Neural4 Proofs_Neural5 Proofs_Neural6 Proofs_Gold.
Import ListNotations.
Open Scope Z_scope.

(* padding changes nothing that has a shape already *)
Lemma pad_shape dims : forall fuel l, Forall (shape dims) l -> (depths l <= fuel)%nat -> exists p, pad_seq fuel l = Ok (p, l).
Proof.
  induction dims as [|d ds IH]; intros fuel l H D.
  - assert (E : forallb (fun x => negb (is_list x)) l = true).
    { apply all_scalar. eapply Forall_impl; [|exact H]. intros x Hx. apply (shape_is_list [] x Hx). }
    exists (NInt PADDING). destruct fuel; cbn [pad_seq]; rewrite E; reflexivity.
  - assert (E2 : forallb is_list l = true).
    { apply all_list. eapply Forall_impl; [|exact H]. intros x Hx. apply (shape_is_list (d :: ds) x Hx). }
    destruct (forallb (fun x => negb (is_list x)) l) eqn:E1.
    { exists (NInt PADDING). destruct fuel; cbn [pad_seq]; rewrite E1; reflexivity. }
    assert (Di := depths_items l (some_list _ E1)). destruct fuel as [|fuel]; [lia|]. cbn [pad_seq]. rewrite E1, E2. cbn [negb].
    assert (Hi : Forall (fun x => exists m, x = NList m /\ length m = d /\ Forall (shape ds) m) l).
    { eapply Forall_impl; [|exact H]. intros [z|m] Hx; [destruct Hx|]. apply shape_cons in Hx. eauto. }
    destruct (IH fuel (concat (map items l))) as (p & Ep); [|lia|].
    { apply Forall_forall. intros y Hy. apply in_concat in Hy. destruct Hy as (m & Hm & Hy). apply in_map_iff in Hm. destruct Hm as (x & <- & Hx).
      rewrite Forall_forall in Hi. destruct (Hi x Hx) as (m & -> & _ & Fm). rewrite Forall_forall in Fm. auto. }
    rewrite Ep. cbn [bind fst snd]. eexists. f_equal. f_equal.
    assert (Lo : longest (map (fun x => length (items x)) l) = d).
    { destruct l as [|x0 l0]; [discriminate E1|]. assert (N : map (fun x => length (items x)) (x0 :: l0) <> []) by discriminate.
      apply longest_in in N. apply in_map_iff in N. destruct N as (x & Ex & Hx). rewrite <- Ex. rewrite Forall_forall in Hi.
      destruct (Hi x Hx) as (m & -> & Lm & _). auto. }
    rewrite Lo. clear -Hi. induction Hi as [|x l (m & -> & Lm & _) _ IHl]; [reflexivity|].
    cbn [map items concat regroup]. rewrite firstn_app, skipn_app, firstn_all, skipn_all, Nat.sub_diag. cbn [firstn skipn app].
    rewrite app_nil_r, IHl, Lm, Nat.sub_diag. cbn [repeat]. rewrite app_nil_r. reflexivity.
Qed.

Lemma collect_single {V} k (vs : list V) : vs <> [] -> collect (map (fun v => [(k, v)]) vs) = [(k, vs)].
Proof.
  assert (H : forall vs acc, fold_left (fun result f => fold_left append_value f result) (map (fun v : V => [(k, v)]) vs) [(k, acc)] = [(k, acc ++ vs)]).
  { induction vs0 as [|v vs0 IH]; intros acc; cbn [map fold_left]; [rewrite app_nil_r; auto|].
    assert (E : append_value [(k, acc)] (k, v) = [(k, acc ++ [v])]).
    { unfold append_value. cbn [fst snd dict_get dict_set]. rewrite (proj2 (str_eqb_eq k k) eq_refl). reflexivity. }
    rewrite E, IH, <- app_assoc. reflexivity. }
  destruct vs as [|v vs]; [congruence|]. intros _. unfold collect. cbn [map fold_left].
  change (append_value [] (k, v)) with [(k, [v])]. rewrite H. reflexivity.
Qed.

Section Gold.
Variable lower : str -> str.
Notation lfeatures ds := (features label_builder obj elements (label_features lower ds) (fun _ _ _ v => v)).

Definition tells (ds : list document) (lb : label_builder) (text : str) (g : token) (v : nested) : Prop :=
  possible lower ds lb v /\
  forall p lem, denotes lower ds lb v (text_of text g) p lem -> recovers lower ds lb text g p lem.

Lemma width_once ds lb n m : width ds lb n -> width ds lb m -> n = m.
Proof.
  destruct lb as [name st|name|name th|name th segment ml]; cbn [width]; try congruence; try lia.
  intros (b & E & ->) (b' & E' & ->). congruence.
Qed.

Lemma wrapped_features ds lb l text ts : Forall opt_pos_wf (dataset_poses ds) ->
  (forall name, lb = LBPos name pos_gran -> no_reserved_feature (dataset_poses ds)) -> sized lb ->
  build_label lower ds lb = Ok l -> ts <> [] -> Forall token_wf ts -> (forall t, In t ts -> In (mkDT text t) (dataset_tokens ds)) ->
  exists cells, lfeatures ds (wrap_word_level lb) 0%Q (as_batch text ts) = Ok [(label_name lb, NList [NList cells])] /\
    Forall2 (tells ds lb text) ts cells.
Proof.
  intros W N Sz B Ne Wt Hin.
  assert (H : exists n cells, mapM (lfeatures ds (BBasic _ lb) 0%Q) (map (fun t => OTok (mkDT text t)) ts) = Ok (map (fun v => [(label_name lb, v)]) cells) /\
     Forall2 (tells ds lb text) ts cells /\ Forall (shape [n]) cells).
  { assert (Hn : exists n, forall t, In t ts -> exists ids, label_features lower ds lb (OTok (mkDT text t)) = Ok [(label_name lb, NList (map NInt ids))] /\
        length ids = n /\ tells ds lb text t (NList (map NInt ids))).
    { assert (G : forall t, In t ts -> exists ids n, label_features lower ds lb (OTok (mkDT text t)) = Ok [(label_name lb, NList (map NInt ids))] /\
         width ds lb n /\ length ids = n /\ tells ds lb text t (NList (map NInt ids))).
      { intros t Ht. rewrite Forall_forall in Wt. destruct (gold_label lower ds lb l (mkDT text t) W N Sz B (Wt t Ht) (Hin t Ht)) as (ids & n & E & Wd & L & P & R).
        exists ids, n. split; auto. split; auto. split; auto. split; auto. }
      destruct ts as [|t0 ts0]; [congruence|]. destruct (G t0) as (ids0 & n & _ & Wd & _); [left; auto|]. exists n. intros t Ht.
      destruct (G t Ht) as (ids & n' & E & Wd' & L & T). exists ids. split; auto. split; auto. rewrite L. eapply width_once; eauto. }
    destruct Hn as (n & Hn). exists n. clear -Hn. induction ts as [|t ts IH].
    - exists []. split; [reflexivity|]. split; constructor.
    - destruct IH as (cells & E & F & Sh); [intros; apply Hn; right; auto|]. destruct (Hn t) as (ids & Et & L & T); [left; auto|].
      exists (NList (map NInt ids) :: cells). split; [|split; constructor; auto].
      + cbn [map mapM]. rewrite E. cbn [features]. rewrite Et. reflexivity.
      + apply shape_cons. rewrite map_length. split; auto. apply Forall_map, Forall_forall. intros; exact I. }
  destruct H as (n & cells & E & F & Sh). exists cells. split; [|exact F].
  assert (Nc : cells <> []) by (destruct ts; [congruence|]; inversion F; discriminate).
  unfold wrap_word_level, as_batch. cbn [features elements bind mapM]. cbn [features] in E. rewrite E. cbn [bind].
  rewrite collect_single by exact Nc. cbn [map fst snd bind].
  change [[(label_name lb, NList cells)]] with (map (fun v => [(label_name lb, v)]) [NList cells]).
  rewrite collect_single by discriminate. cbn [map fst snd]. unfold pad_values. cbn [mapM fst snd pad_value]. unfold pad.
  destruct (pad_shape [length cells; n] (depths [NList cells]) [NList cells]) as (p & Ep); [|lia|].
  { constructor; [|constructor]. apply shape_cons. auto. }
  rewrite Ep. reflexivity.
Qed.

Lemma provided_In bs lbs b : provided bs lbs -> In b bs -> b = BEmpty _ \/ exists lb, In lb lbs /\ b = wrap_word_level lb.
Proof.
  intros (_ & F & ->) Hb. rewrite Forall_forall in F. destruct (F b Hb) as [->|(lb & ->)]; auto. right. exists lb. split; auto.
  apply in_concat. exists [lb]. split; [|left; auto]. apply in_map_iff. exists (wrap_word_level lb). split; auto.
Qed.

Lemma wrapped_In bs lbs lb : provided bs lbs -> In lb lbs -> In (wrap_word_level lb) bs.
Proof.
  intros (_ & F & ->) H. apply in_concat in H. destruct H as (l & Hl & H). apply in_map_iff in Hl. destruct Hl as (b & <- & Hb).
  rewrite Forall_forall in F. destruct (F b Hb) as [->|(lb' & ->)]; [destruct H|]. destruct H as [<-|[]]. exact Hb.
Qed.

Lemma built_label bs lbs ds i lb : provided bs lbs -> label_interpreter lower bs ds = Ok i -> In lb lbs -> exists l, build_label lower ds lb = Ok l.
Proof.
  intros Pv Ei H. destruct (interpreter_spec lower bs lbs ds i Pv Ei) as [(-> & _)|(_ & ls & ti & M & _)]; [destruct H|].
  apply mapM_ok in M. apply by_class_In in H. destruct (In_nth_error _ _ H) as (k & Hk). destruct (Forall2_nth _ _ _ _ _ M Hk) as (l & _ & E). eauto.
Qed.

Theorem gold_prediction bs lbs ds i text ts : provided bs lbs -> trainable ds lbs -> NoDup (map label_name lbs) -> Forall sized lbs ->
  label_interpreter lower bs ds = Ok i -> ts <> [] -> Forall token_wf ts -> (forall t, In t ts -> In (mkDT text t) (dataset_tokens ds)) ->
  exists p, label_extractor lower bs ds (as_batch text ts) = Ok p /\ covers (length ts) p /\
    forall lb, In lb lbs -> exists cells, column_of p (label_name lb) cells /\ Forall2 (tells ds lb text) ts cells.
Proof.
  intros Pv (W & N) Nd Sz Ei Ne Wt Hin.
  assert (Wr : forall lb, In lb lbs -> exists cells, lfeatures ds (wrap_word_level lb) 0%Q (as_batch text ts) = Ok [(label_name lb, NList [NList cells])] /\
    Forall2 (tells ds lb text) ts cells).
  { intros lb Hlb. destruct (built_label bs lbs ds i lb Pv Ei Hlb) as (l & El). rewrite Forall_forall in Sz.
    apply (wrapped_features ds lb l text ts); auto. intros name ->. eapply N; eauto. }
  destruct (merge_features' label_builder label_class obj elements (label_features lower ds) (fun _ _ _ v => v)) with (bs := bs) as (b & Em & Hf).
  { intros lb x d H. destruct x; [|discriminate]. cbn [label_features] in H. apply bind_ok_iff in H. destruct H as (ids & _ & H). injection H as <-.
    constructor; [intros []|constructor]. }
  { apply Pv. }
  { destruct Pv as (_ & F & _). eapply Forall_impl; [|exact F]. intros a [->|(lb & ->)]; repeat constructor. }
  assert (Hds : exists dd, Forall2 (fun c d => lfeatures ds c 0%Q (as_batch text ts) = Ok d) bs dd /\ disjoint_parts dd /\
     (forall e, In e dd -> exists b, In b bs /\ lfeatures ds b 0%Q (as_batch text ts) = Ok e)).
  { assert (Ex : forall c, In c bs -> exists d, lfeatures ds c 0%Q (as_batch text ts) = Ok d).
    { intros c Hc. destruct (provided_In _ _ _ Pv Hc) as [->|(lb & Hlb & ->)]; [eexists; reflexivity|]. destruct (Wr lb Hlb) as (cells & E & _). eauto. }
    destruct (mapM_some _ _ Ex) as (dd & Ed). apply mapM_ok in Ed. exists dd. split; auto. split.
    - intros a c d e k Ha Hc Ka Kc. destruct (Forall2_nth_r _ _ _ _ _ Ed Ha) as (ba & Ba & Ea). destruct (Forall2_nth_r _ _ _ _ _ Ed Hc) as (bc & Bc & Ec).
      assert (Kb : forall bx d x, nth_error bs x = Some bx -> lfeatures ds bx 0%Q (as_batch text ts) = Ok d -> In k (dict_keys d) ->
        exists lb, bx = wrap_word_level lb /\ In lb lbs /\ k = label_name lb).
      { intros bx d0 x Bx Ex0 Kx. destruct (provided_In _ _ _ Pv (nth_error_In _ _ Bx)) as [->|(lb & Hlb & ->)].
        - cbn [features] in Ex0. injection Ex0 as <-. destruct Kx.
        - destruct (Wr lb Hlb) as (cells & E & _). rewrite E in Ex0. injection Ex0 as <-. destruct Kx as [<-|[]]. eauto. }
      destruct (Kb _ _ _ Ba Ea Ka) as (la & -> & _ & Ka'). destruct (Kb _ _ _ Bc Ec Kc) as (lc & -> & _ & Kc').
      clear -Ba Bc Nd Pv Ka' Kc'. destruct Pv as (_ & F & E). subst lbs. subst k. revert a c Ba Bc Nd F. induction bs as [|x bs0 IH]; intros a c Ba Bc Nd F; [destruct a; discriminate|].
      cbn [map concat] in Nd. rewrite map_app in Nd. inversion F; subst.
      assert (Later : forall (y z : label_builder) c, nth_error bs0 c = Some (wrap_word_level z) -> x = wrap_word_level y -> label_name y <> label_name z).
      { intros y z c0 Hz -> X. cbn in Nd. inversion Nd as [|? ? Nn _]; subst. apply Nn. rewrite X. apply in_map. apply in_concat. exists [z]. split; [|left; auto].
        apply in_map_iff. exists (wrap_word_level z). split; auto. eapply nth_error_In; eauto. }
      destruct a as [|a], c as [|c]; cbn [nth_error] in Ba, Bc; auto.
      + exfalso. injection Ba as ->. exact (Later la lc c Bc eq_refl Kc').
      + exfalso. injection Bc as ->. exact (Later lc la a Ba eq_refl (eq_sym Kc')).
      + f_equal. apply IH; auto. apply NoDup_app_iff in Nd. tauto.
    - intros e He. destruct (In_nth_error _ _ He) as (k & Hk). destruct (Forall2_nth_r _ _ _ _ _ Ed Hk) as (c & Hc & Ec). exists c. split; auto. eapply nth_error_In; eauto. }
  destruct Hds as (dd & Fd & Dj & Src). destruct (Hf 0%Q _ dd Fd Dj) as (p & Ep & Pok & Pu).
  exists p. unfold label_extractor. rewrite Em. cbn [bind]. split; [exact Ep|]. split.
  - split; auto. intros name v G. apply Pu in G. destruct G as (e & He & G). destruct (Src e He) as (c & Hc & Ec).
    destruct (provided_In _ _ _ Pv Hc) as [->|(lb & Hlb & ->)]; [cbn [features] in Ec; injection Ec as <-; discriminate G|].
    destruct (Wr lb Hlb) as (cells & E & F2). rewrite E in Ec. injection Ec as <-. cbn [dict_get] in G. destruct (str_eqb name (label_name lb)); [|discriminate G].
    injection G as <-. exists cells, []. split; auto. rewrite (Forall2_length' _ _ _ F2). auto.
  - intros lb Hlb. destruct (Wr lb Hlb) as (cells & E & F2). exists cells. split; auto. exists []. apply Pu.
    destruct (In_nth_error _ _ (wrapped_In _ _ _ Pv Hlb)) as (k & Hk). destruct (Forall2_nth _ _ _ _ _ Fd Hk) as (e & He & Ee).
    rewrite E in Ee. injection Ee as <-. eexists. split; [eapply nth_error_In; exact He|]. cbn [dict_get]. rewrite (proj2 (str_eqb_eq _ _) eq_refl). auto.
Qed.
End Gold.
