(* Neural tagging of a document. *)
From Coq Require Import String ZArith NArith QArith Bool Lia List.
From Verif Require Import Base BaseFacts Model_Datamodel Spec_Datamodel Proofs_Datamodel Proofs_Datamodel2 Proofs_Datamodel4 Proofs_Conllu6
  Model_Vocab Proofs_Vocab Model_Lemma Spec_Lemma Model_Features Spec_Features
  Proofs_Lemma Proofs_Lemma2 Proofs_Features Model_Builder Spec_Builder Proofs_Builder3 Proofs_Builder4
  Model_Processors Spec_Processors Proofs_Processors Model_Neural Spec_Neural Proofs_Neural Proofs_Neural2 Proofs_Neural3.
Import ListNotations.
Open Scope Z_scope.

(* the j-th element of every column *)
Definition cell_of (j : nat) (value d : dict nested) : Prop :=
  dict_keys d = dict_keys value /\ forall k l, dict_get value k = Some (NList l) -> dict_get d k = nth_error l j.

Lemma nth_combine {A C} (l : list A) (l' : list C) i x y :
  nth_error (combine l l') i = Some (x, y) <-> nth_error l i = Some x /\ nth_error l' i = Some y.
Proof.
  revert l' i. induction l as [|a l IH]; intros [|b l'] [|i]; simpl; try (split; [discriminate|intros [? ?]; discriminate]).
  - split; [intros H; injection H as -> ->; auto|intros [H1 H2]; congruence].
  - apply IH.
Qed.

Lemma mapM_some {A C} (f : A -> result C) l : (forall x, In x l -> exists y, f x = Ok y) -> exists l', mapM f l = Ok l'.
Proof.
  induction l as [|x l IH]; intros H; [exists []; auto|]. destruct (H x (or_introl eq_refl)) as (y & E).
  destruct IH as (l' & E'); [intros; apply H; right; auto|]. exists (y :: l'). cbn [mapM]. rewrite E. cbn [bind]. rewrite E'. auto.
Qed.

Section Lower.
Variable lower : str -> str.

Lemma iter_ok i os value : dict_ok value -> value <> [] ->
  (forall k v, dict_get value k = Some v -> exists l, v = NList l /\ (length os <= length l)%nat) ->
  (forall j o d, nth_error os j = Some o -> cell_of j value d -> exists o', interpret lower i o d = Ok o') ->
  exists os', interpret lower (IIter i) (OSeq os) value = Ok (OSeq os') /\ length os' = length os /\
    forall j o o', nth_error os j = Some o -> nth_error os' j = Some o' -> exists d, cell_of j value d /\ interpret lower i o d = Ok o'.
Proof.
  intros Vok Vne Hl Hi.
  assert (R : exists rows, mapM (fun kv => do l <- as_list (snd kv); Ok (fst kv, l)) value = Ok rows /\ value = map (fun kl => (fst kl, NList (snd kl))) rows).
  { clear Hi. assert (A : forall k v, In (k, v) value -> exists l, v = NList l) by (intros k v H; destruct (Hl k v (In_dict_get _ _ _ Vok H)) as (l & -> & _); eauto).
    clear -A. induction value as [|[k v] value IH]; [exists []; auto|].
    destruct IH as (rows & E & E'). { intros k' v' H. apply (A k'). right; auto. }
    destruct (A k v (or_introl eq_refl)) as (l & ->). exists ((k, l) :: rows). cbn [mapM snd fst as_list bind]. rewrite E. cbn [bind map fst snd]. split; auto. congruence. }
  destruct R as (rows & Er & Ev).
  assert (Kr : dict_keys value = dict_keys rows) by (rewrite Ev; unfold dict_keys; rewrite map_map; auto).
  assert (Rok : dict_ok rows) by (unfold dict_ok; rewrite <- Kr; exact Vok).
  assert (Rne : rows <> []) by (intros ->; simpl in Ev; congruence).
  assert (Rin : forall k l, In (k, l) rows -> dict_get value k = Some (NList l)).
  { intros k l H. apply In_dict_get; auto. rewrite Ev. apply in_map_iff. exists (k, l). auto. }
  assert (Rget : forall k l, dict_get value k = Some (NList l) -> In (k, l) rows).
  { intros k l H. apply dict_get_In in H. rewrite Ev in H. apply in_map_iff in H. destruct H as ([k' l'] & E & H). cbn in E. congruence. }
  assert (Rl : forall k l, In (k, l) rows -> (length os <= length l)%nat).
  { intros k l H. destruct (Hl k _ (Rin _ _ H)) as (l' & E & L). injection E as ->. auto. }
  assert (RC : forall j d, row_of j rows d <-> cell_of j value d /\ forall k l, In (k, l) rows -> nth_error l j <> None).
  { intros j d. split.
    - intros [K H]. assert (Dok : dict_ok d) by (unfold dict_ok; rewrite K; exact Rok). split; [split; [congruence|]|].
      + intros k l G. apply Rget in G. destruct (H _ _ G) as (v & E & I). rewrite E. apply In_dict_get; auto.
      + intros k l G. destruct (H _ _ G) as (v & E & _). congruence.
    - intros [[K H] N]. split; [congruence|]. intros k l G. specialize (N _ _ G). specialize (H _ _ (Rin _ _ G)).
      destruct (nth_error l j) as [v|]; [|congruence]. exists v. split; auto. apply dict_get_In in H. auto. }
  assert (PN : forall j o, nth_error os j = Some o -> exists d, nth_error (per_element rows) j = Some d /\ cell_of j value d).
  { intros j o Hj. assert (Lj : (j < length os)%nat) by (apply nth_error_Some; congruence).
    unfold per_element. rewrite nth_error_map.
    assert (Hm : map snd rows <> []) by (destruct rows; [congruence|discriminate]).
    assert (X : exists c, Forall2 (fun r x => nth_error r j = Some x) (map snd rows) c).
    { assert (Y : forall rs : list (list nested), (forall r, In r rs -> (length os <= length r)%nat) -> exists c, Forall2 (fun r x => nth_error r j = Some x) rs c).
      { induction rs as [|r rs IH]; intros H; [exists []; constructor|]. destruct IH as (c & Hc); [intros; apply H; right; auto|].
        specialize (H r (or_introl eq_refl)). destruct (nth_error r j) as [x|] eqn:E; [|apply nth_error_None in E; lia]. exists (x :: c). constructor; auto. }
      apply Y. intros r H. apply in_map_iff in H. destruct H as ([k l] & <- & H). eapply Rl; eauto. }
    destruct X as (c & Hc). apply columns_nth in Hc; auto. rewrite Hc. eexists. split; [reflexivity|].
    assert (P : nth_error (per_element rows) j = Some (combine (dict_keys rows) c)) by (unfold per_element; rewrite nth_error_map, Hc; auto).
    apply per_element_nth in P; auto. destruct P as [P _]. apply RC in P. tauto. }
  assert (LP : (length os <= length (per_element rows))%nat).
  { destruct os as [|o0 os0] eqn:Eo; [simpl; lia|]. rewrite <- Eo in *.
    assert (exists o, nth_error os (length os - 1) = Some o) as (o & Ho).
    { destruct (nth_error os (length os - 1)) eqn:E; eauto. apply nth_error_None in E. rewrite Eo in E. simpl in E. lia. }
    destruct (PN _ _ Ho) as (d & Hd & _). assert (length os - 1 < length (per_element rows))%nat by (apply nth_error_Some; congruence).
    rewrite Eo in *. simpl in *. lia. }
  assert (X : exists os', mapM (fun ov => interpret lower i (fst ov) (snd ov)) (combine os (per_element rows)) = Ok os').
  { apply mapM_some. intros [o d] H. apply In_nth_error in H. destruct H as (j & H). apply nth_combine in H. destruct H as [Ho Hd].
    destruct (PN _ _ Ho) as (d' & Hd' & C). assert (d' = d) by congruence. subst d'. cbn [fst snd]. eauto. }
  destruct X as (os' & Eos). exists os'. cbn [interpret]. rewrite Er. cbn [bind elements]. unfold interpret_each. rewrite Eos. cbn [bind].
  split; auto. apply mapM_ok in Eos. split.
  - apply Forall2_length' in Eos. rewrite combine_length in Eos. lia.
  - intros j o o' Ho Ho'. destruct (PN _ _ Ho) as (d & Hd & C). exists d. split; auto.
    assert (Hc : nth_error (combine os (per_element rows)) j = Some (o, d)) by (apply nth_combine; auto).
    destruct (Forall2_nth _ _ _ _ _ Eos Hc) as (o'' & Ho'' & E). cbn [fst snd] in E. congruence.
Qed.

(* ---- the labels of by_class ---- *)

Lemma firsts_In k : forall l seen, In k l -> ~ In k seen -> In k (firsts seen l).
Proof.
  induction l as [|x l IH]; intros seen H N; [destruct H|]. cbn [firsts]. destruct (existsb (Z.eqb x) seen) eqn:E.
  - destruct H as [->|H]; [|apply IH; auto]. apply existsb_exists in E. destruct E as (y & Hy & Ey). apply Z.eqb_eq in Ey. subst. tauto.
  - destruct H as [->|H]; [left; auto|]. destruct (Z.eq_dec x k) as [->|Hx]; [left; auto|]. right. apply IH; auto. intros [->|?]; auto.
Qed.

Lemma by_class_In lb lbs : In lb (by_class lbs) <-> In lb lbs.
Proof.
  unfold by_class. rewrite in_concat. split.
  - intros (l & Hl & H). apply in_map_iff in Hl. destruct Hl as (c & <- & _). apply filter_In in H. tauto.
  - intros H. exists (filter (fun b => label_class b =? label_class lb) lbs). split.
    + apply in_map_iff. exists (label_class lb). split; auto. apply firsts_In; [apply in_map; auto|intros []].
    + apply filter_In. split; auto. apply Z.eqb_refl.
Qed.

(* ---- a sentence ---- *)

Definition says_of (ds : list document) (p : dict nested) (text : str) (j : nat) (t : token) (lb : label_builder) (q : option pos) (l : option str) : Prop :=
  exists cells v, column_of p (label_name lb) cells /\ nth_error cells j = Some v /\ denotes lower ds lb v (text_of text t) q l.

(* the new tokens of a sentence *)
Definition tagged_tokens (ds : list document) (lbs : list label_builder) (text : str) (p : dict nested) (ts ts' : list token) : Prop :=
  length ts' = length ts /\
  forall j t t', nth_error ts j = Some t -> nth_error ts' j = Some t' ->
    (exists q l, t' = set_morphology t q l) /\ written (says_of ds p text j t) (by_class lbs) t t'.

Lemma written_impl (S1 S2 : label_builder -> option pos -> option str -> Prop) lbs t t' :
  (forall lb q l, In lb lbs -> S1 lb q l -> S2 lb q l) -> written S1 lbs t t' -> written S2 lbs t t'.
Proof.
  intros H (A1 & A2 & A3 & A4). split; auto. split; auto. split.
  - intros before lb after -> W N. apply H; [apply in_app_iff; right; left; auto|]. eapply A3; eauto.
  - intros before lb after -> W N. apply H; [apply in_app_iff; right; left; auto|]. eapply A4; eauto.
Qed.

Lemma written_nil S1 t : written S1 [] t t.
Proof. split; auto. split; auto. split; intros [|? ?] ? ? X; discriminate. Qed.

Lemma set_same t : t = set_morphology t (tpos t) (tlemma t).
Proof. destruct t; reflexivity. Qed.

Lemma chained_batch text (ts : list token) : chained_tokens (OSeq [OSeq (map (fun t => OTok (mkDT text t)) ts)]) = Ok (map (mkDT text) ts).
Proof.
  unfold chained_tokens. cbn [elements bind mapM concat]. rewrite app_nil_r. apply mapM_ok.
  induction ts; constructor; auto.
Qed.

Lemma sentence_interpreted bs lbs ds i text ts p : provided bs lbs -> trainable ds lbs -> label_interpreter lower bs ds = Ok i ->
  Forall token_wf ts -> covers (length ts) p ->
  (forall lb, In lb lbs -> exists cells, column_of p (label_name lb) cells /\ Forall (possible lower ds lb) (firstn (length ts) cells)) ->
  exists ts', interpret lower i (as_batch text ts) p = Ok (as_batch text ts') /\ tagged_tokens ds lbs text p ts ts'.
Proof.
  intros Pv (W & N) Ei Wt Cv Col. destruct (interpreter_spec lower bs lbs ds i Pv Ei) as [(-> & ->)|(Ne & ls & ti & M & -> & Hti)].
  - exists ts. split; [reflexivity|]. split; auto. intros j t t' Ht Ht'. assert (t' = t) by congruence. subst t'. split; [eauto using set_same|apply written_nil].
  - assert (exists lb0, In lb0 lbs) as (lb0 & Hlb0) by (destruct lbs as [|a ?]; [congruence|exists a; left; auto]).
    destruct Cv as (Pok & Pc).
    assert (Pne : p <> []) by (intros ->; destruct (Col _ Hlb0) as (c & (o & X) & _); discriminate).
    assert (CT : forall j t d1 d, nth_error ts j = Some t -> cell_of 0 p d1 -> cell_of j d1 d -> exists q l,
        interpret lower ti (OTok (mkDT text t)) d = Ok (OTok (mkDT text (set_morphology t q l))) /\
        written (says_of ds p text j t) (by_class lbs) t (set_morphology t q l)).
    { intros j t d1 d Ht (K1 & C1) (K2 & C2).
      assert (Lj : (j < length ts)%nat) by (apply nth_error_Some; congruence).
      assert (CD : forall lb, In lb lbs -> forall cells, column_of p (label_name lb) cells -> dict_get d (label_name lb) = nth_error cells j).
      { intros lb Hlb cells (others & G). specialize (C1 _ _ G). cbn [nth_error] in C1. rewrite (C2 _ _ C1). auto. }
      destruct (label_chain lower ds d (by_class lbs) ls W) with (x := mkDT text t) as (q & l & E & Wr); auto.
      { intros name H. exact (N name (proj1 (by_class_In _ _) H)). }
      { intros lb H. apply (proj1 (by_class_In _ _)) in H. destruct (Col _ H) as (cells & Cc & Fp). rewrite (CD lb H cells Cc).
        assert (Lc : (length ts <= length cells)%nat).
        { destruct Cc as (others & G). destruct (Pc _ _ G) as (c' & o' & X & L). injection X as -> ->. auto. }
        destruct (nth_error cells j) as [v|] eqn:Ev; [|apply nth_error_None in Ev; lia]. exists v. split; auto.
        rewrite Forall_forall in Fp. apply Fp. apply nth_error_In with j. rewrite nth_error_firstn; auto. }
      { rewrite Forall_forall in Wt. apply Wt. eapply nth_error_In; eauto. }
      exists q, l. rewrite Hti, E. split; [reflexivity|]. cbn [dt_tok] in Wr. revert Wr. apply written_impl.
      intros lb q' l' H (v & G & D). apply (proj1 (by_class_In _ _)) in H. destruct (Col _ H) as (cells & Cc & _). exists cells, v. split; auto.
      rewrite (CD lb H cells Cc) in G. split; auto. }
    set (os := map (fun t => OTok (mkDT text t)) ts).
    assert (Los : length os = length ts) by (apply map_length).
    assert (IT : forall d1, cell_of 0 p d1 -> exists os', interpret lower (IIter ti) (OSeq os) d1 = Ok (OSeq os') /\ length os' = length ts /\
       forall j t o', nth_error ts j = Some t -> nth_error os' j = Some o' -> exists q l, o' = OTok (mkDT text (set_morphology t q l)) /\
         written (says_of ds p text j t) (by_class lbs) t (set_morphology t q l)).
    { intros d1 C1. destruct (iter_ok ti os d1) as (os' & E & L & H).
      - unfold dict_ok. rewrite (proj1 C1). exact Pok.
      - intros ->. destruct C1 as (X & _). destruct p; [congruence|discriminate].
      - intros k v G. assert (Hk : In k (dict_keys p)) by (rewrite <- (proj1 C1); apply dict_get_In in G; apply (in_map fst) in G; exact G).
        destruct (dict_get p k) as [w|] eqn:Gp; [|apply dict_get_None in Gp; tauto].
        destruct (Pc _ _ Gp) as (cells & others & -> & L). pose proof (proj2 C1 _ _ Gp) as X. cbn [nth_error] in X.
        exists cells. split; [congruence|]. rewrite Los. auto.
      - intros j o d Ho Cd. unfold os in Ho. rewrite nth_error_map in Ho. destruct (nth_error ts j) as [t|] eqn:Et; [|discriminate]. injection Ho as <-.
        destruct (CT j t d1 d Et C1 Cd) as (q & l & E & _). eauto.
      - exists os'. split; auto. split; [lia|]. intros j t o' Ht Ho'.
        destruct (H j (OTok (mkDT text t)) o') as (d & Cd & Ed); auto. { unfold os. rewrite nth_error_map, Ht. auto. }
        destruct (CT j t d1 d Ht C1 Cd) as (q & l & E' & Wr). exists q, l. split; [congruence|auto]. }
    destruct (iter_ok (IIter ti) [OSeq os] p) as (bs' & E & L & H); auto.
    { intros k v G. destruct (Pc _ _ G) as (cells & others & -> & _). exists (NList cells :: others). split; auto. simpl; lia. }
    { intros [|[|j]] o d Ho Cd; try discriminate. injection Ho as <-. destruct (IT d Cd) as (os' & E & _). eauto. }
    destruct bs' as [|b [|? ?]]; try discriminate. destruct (H 0%nat (OSeq os) b eq_refl eq_refl) as (d1 & C1 & E1).
    destruct (IT d1 C1) as (os' & E2 & L2 & H2). assert (b = OSeq os') by congruence. subst b.
    assert (X : exists ts', os' = map (fun t => OTok (mkDT text t)) ts' /\ length ts' = length ts /\
      forall j t t', nth_error ts j = Some t -> nth_error ts' j = Some t' ->
        (exists q l, t' = set_morphology t q l) /\ written (says_of ds p text j t) (by_class lbs) t t').
    { exists (map (fun o => match o with OTok x => dt_tok x | OSeq _ => mkToken 0 0 None None None 0 None None None [] end) os').
      split; [|split; [rewrite map_length; auto|]].
      - rewrite map_map. apply nth_error_ext. intros j. rewrite nth_error_map. destruct (nth_error os' j) as [o'|] eqn:Eo; auto. cbn [option_map].
        assert (Lj : (j < length ts)%nat) by (rewrite <- L2; apply nth_error_Some; congruence).
        destruct (nth_error ts j) as [t|] eqn:Et; [|apply nth_error_None in Et; lia].
        destruct (H2 j t o' Et Eo) as (q & l & -> & _). reflexivity.
      - intros j t t' Ht Ht'. rewrite nth_error_map in Ht'. destruct (nth_error os' j) as [o'|] eqn:Eo; [|discriminate].
        destruct (H2 j t o' Ht Eo) as (q & l & -> & Wr). cbn in Ht'. injection Ht' as <-. split; [eauto|auto]. }
    destruct X as (ts' & -> & L' & H'). exists ts'. split; [exact E|]. split; auto.
Qed.
End Lower.
