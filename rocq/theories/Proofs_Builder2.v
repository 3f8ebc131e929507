(* Padding: list objects changed in place. *)
From Coq Require Import ZArith NArith QArith Bool List Permutation Lia.
From Verif Require Import Base BaseFacts Proofs_Datamodel Model_Vocab Model_Features Model_Builder Spec_Builder Proofs_Builder.
Import ListNotations.

Lemma nth_some_lt {A} (l : list A) i x : nth_error l i = Some x -> (i < length l)%nat.
Proof. intros H. apply nth_error_Some. congruence. Qed.

Lemma stands_for_ind' (h : heap) (P : hval -> nested -> Prop) :
  (forall z, P (HInt z) (NInt z)) ->
  (forall a vs xs, nth_error h a = Some vs -> Forall2 (stands_for h) vs xs -> Forall2 P vs xs -> P (HRef a) (NList xs)) ->
  forall v x, stands_for h v x -> P v x.
Proof.
  intros HI HR. fix IH 3. intros v x [z|a vs xs Ha Hf]; [apply HI|]. apply (HR a vs xs Ha Hf).
  clear Ha. induction Hf; constructor; auto.
Qed.

Lemma stands_is_ref h v x : stands_for h v x -> is_ref v = is_list x.
Proof. destruct 1; reflexivity. Qed.

Lemma stands_contents h v x : stands_for h v x -> Forall2 (stands_for h) (contents h v) (items x).
Proof.
  destruct 1 as [z|a vs xs Ha Hf]; cbn [contents items]; [constructor|].
  rewrite (nth_error_nth h a [] Ha). exact Hf.
Qed.

Lemma stands_concat h l xs : Forall2 (stands_for h) l xs ->
  Forall2 (stands_for h) (concat (map (contents h) l)) (concat (map items xs)).
Proof. induction 1; cbn [map concat]; [constructor|]. apply Forall2_app; [apply stands_contents|]; auto. Qed.

Lemma stands_scalar h l xs : Forall2 (stands_for h) l xs ->
  forallb (fun v => negb (is_ref v)) l = forallb (fun x => negb (is_list x)) xs.
Proof. induction 1; cbn [forallb]; [auto|]. rewrite (stands_is_ref _ _ _ H), IHForall2. reflexivity. Qed.
Lemma stands_lists h l xs : Forall2 (stands_for h) l xs -> forallb is_ref l = forallb is_list xs.
Proof. induction 1; cbn [forallb]; [auto|]. rewrite (stands_is_ref _ _ _ H), IHForall2. reflexivity. Qed.

Lemma Forall2_impl_in {A B} (P : A -> Prop) (R R' : A -> B -> Prop) l l' : Forall2 R l l' -> Forall P l ->
  (forall a b, P a -> R a b -> R' a b) -> Forall2 R' l l'.
Proof. induction 1; intros HP HR; constructor; inversion HP; subst; auto. Qed.

Lemma stands_lens h l xs : Forall2 (stands_for h) l xs ->
  map (fun v => length (contents h v)) l = map (fun x => length (items x)) xs.
Proof.
  induction 1; cbn [map]; [auto|]. rewrite (Forall2_length' _ _ _ (stands_contents _ _ _ H)), IHForall2. reflexivity.
Qed.

Lemma pad_heap_err fuel : forall l h xs e, Forall2 (stands_for h) l xs -> pad_seq fuel xs = Err e -> pad_heap fuel l h = Err e.
Proof.
  induction fuel as [|fuel IH]; intros l h xs e Hs; cbn [pad_heap pad_seq];
    rewrite (stands_scalar _ _ _ Hs), (stands_lists _ _ _ Hs);
    destruct (forallb (fun x => negb (is_list x)) xs); try discriminate;
    destruct (forallb is_list xs) eqn:E2;
    cbn [negb]; try (intros H; injection H as <-; reflexivity).
  intros H. destruct (pad_seq fuel (concat (map items xs))) as [pf|e'] eqn:E; cbn [bind] in H; [discriminate|].
  injection H as ->. rewrite (IH _ _ _ _ (stands_concat _ _ _ Hs) E). reflexivity.
Qed.

(* values that only refer to objects in S *)
Definition inside (S : nat -> Prop) (v : hval) : Prop := match v with HInt _ => True | HRef a => S a end.
Definition closed (h : heap) (S : nat -> Prop) : Prop :=
  forall a vs, S a -> nth_error h a = Some vs -> Forall (inside S) vs.

Lemma stands_frame h h' S v x : closed h S -> (forall a vs, S a -> nth_error h a = Some vs -> nth_error h' a = Some vs) ->
  stands_for h v x -> inside S v -> stands_for h' v x.
Proof.
  intros Hc Hf. revert v x. apply (stands_for_ind' h (fun v x => inside S v -> stands_for h' v x)).
  - intros z _. constructor.
  - intros a vs xs Ha _ IH Hin. cbn [inside] in Hin. econstructor; [apply Hf; eauto|].
    pose proof (Hc _ _ Hin Ha) as Hv. clear Ha. induction IH; constructor; inversion Hv; subst; auto.
Qed.

(* the objects reached from l *)
Definition reached (h : heap) (l : list hval) (a : nat) : Prop := exists d, In (HRef a) (hlevel h d l).

Lemma level_in_concat h d : forall l v vs, In v (hlevel h d l) -> In vs (contents h v) -> In vs (hlevel h (S d) l).
Proof.
  induction d as [|d IH]; intros l v vs Hv Hvs; cbn [hlevel] in *.
  - apply in_concat. exists (contents h v). split; [apply in_map; exact Hv|exact Hvs].
  - apply (IH _ v); auto.
Qed.

Lemma reached_closed h l : closed h (reached h l).
Proof.
  intros a vs [d Hd] Ha. apply Forall_forall. intros [z|b] Hb; cbn [inside]; [auto|].
  exists (S d). apply (level_in_concat h d l (HRef a)); [exact Hd|]. cbn [contents]. rewrite (nth_error_nth h a [] Ha). exact Hb.
Qed.

Lemma inside_reached h l : Forall (inside (reached h l)) l.
Proof. apply Forall_forall. intros [z|a] H; cbn [inside]; [auto|]. exists 0%nat. exact H. Qed.

Lemma hval_dec (x y : hval) : {x = y} + {x <> y}.
Proof. decide equality; [apply Z.eq_dec|apply Nat.eq_dec]. Defined.

(* what extending all the elements does *)
Definition grown (m : nat) (p : hval) (vs : list hval) : list hval := vs ++ repeat p (m - length vs).

Lemma extend_length m p h v : length (extend m p h v) = length h.
Proof. destruct v; cbn [extend]; [auto|apply set_nth_length]. Qed.
Lemma extends_length m p l : forall h, length (fold_left (extend m p) l h) = length h.
Proof. induction l as [|v l IH]; intros h; cbn [fold_left]; [auto|]. rewrite IH. apply extend_length. Qed.

Lemma extend_other m p h v b : v <> HRef b -> nth_error (extend m p h v) b = nth_error h b.
Proof.
  destruct v as [z|a]; cbn [extend]; [auto|]. intros H. apply set_nth_other. congruence.
Qed.
Lemma extends_other m p l : forall h b, ~ In (HRef b) l -> nth_error (fold_left (extend m p) l h) b = nth_error h b.
Proof.
  induction l as [|v l IH]; intros h b H; cbn [fold_left]; [auto|]. rewrite IH by (intros ?; apply H; right; auto).
  apply extend_other. intros ->. apply H; left; auto.
Qed.
Lemma extend_same m p h a vs : nth_error h a = Some vs -> nth_error (extend m p h (HRef a)) a = Some (grown m p vs).
Proof.
  intros H. cbn [extend]. rewrite (nth_error_nth h a [] H). apply set_nth_same. apply nth_error_Some. congruence.
Qed.
Lemma grown_twice m p vs : (length vs <= m)%nat -> grown m p (grown m p vs) = grown m p vs.
Proof.
  intros H. unfold grown at 1. replace (m - length (grown m p vs))%nat with 0%nat; [apply app_nil_r|].
  unfold grown. rewrite app_length, repeat_length. lia.
Qed.

Lemma extends_same m p l : forall h a vs, nth_error h a = Some vs -> (length vs <= m)%nat -> In (HRef a) l ->
  nth_error (fold_left (extend m p) l h) a = Some (grown m p vs).
Proof.
  induction l as [|v l IH]; intros h a vs Ha Hm H; cbn [fold_left]; [destruct H|].
  destruct (in_dec hval_dec (HRef a) l) as [Hin|Hin].
  - assert (Hv : v = HRef a \/ v <> HRef a) by (destruct v as [z|b]; [right; discriminate|]; destruct (Nat.eq_dec b a); [left|right]; congruence).
    destruct Hv as [->|Hv].
    + rewrite (IH _ a (grown m p vs)); auto.
      * f_equal. apply grown_twice; auto.
      * apply extend_same; auto.
      * unfold grown. rewrite app_length, repeat_length. lia.
    + apply (IH _ a vs); auto. rewrite extend_other by exact Hv. exact Ha.
  - destruct H as [->|H]; [|tauto]. rewrite extends_other by exact Hin. apply extend_same; auto.
Qed.

Lemma pad_heap_ok fuel : forall l h xs p xs', Forall2 (stands_for h) l xs -> layered h l -> pad_seq fuel xs = Ok (p, xs') ->
  exists pv h', pad_heap fuel l h = Ok (pv, h') /\ stands_for h' pv p /\ Forall2 (stands_for h') l xs' /\
    (length h <= length h')%nat /\
    (forall a, (a < length h)%nat -> ~ reached h l a -> nth_error h' a = nth_error h a) /\
    closed h' (fun a => reached h l a \/ (length h <= a)%nat) /\
    inside (fun a => (length h <= a)%nat) pv.
Proof.
  induction fuel as [|fuel IH]; intros l h xs p xs' Hs Hl; cbn [pad_heap pad_seq];
    rewrite (stands_scalar _ _ _ Hs), (stands_lists _ _ _ Hs);
    destruct (forallb (fun x => negb (is_list x)) xs) eqn:E1.
  1, 3: intros H; injection H as <- <-; exists (HInt 0), h; repeat split; auto; try constructor.
  1, 2: intros a vs [Ha|Ha] Hn;
    [eapply Forall_impl; [|eapply reached_closed; eauto]; intros [z|b]; cbn [inside]; auto|
     exfalso; apply nth_some_lt in Hn; lia].
  { destruct (forallb is_list xs); discriminate. }
  destruct (forallb is_list xs) eqn:E2; cbn [negb]; [|discriminate].
  destruct (pad_seq fuel (concat (map items xs))) as [[p1 f]|] eqn:E; cbn [bind fst snd]; [|discriminate].
  intros H; injection H as <- <-.
  set (flat := concat (map (contents h) l)) in *.
  assert (Hlf : layered h flat).
  { intros d e a Hd He. assert (S d = S e); [|lia]. apply (Hl (S d) (S e) a); assumption. }
  destruct (IH flat h _ p1 f (stands_concat _ _ _ Hs) Hlf E) as [pv [h1 [Ep [Hp [Hf [Hlen [Hfr [Hcl Hin]]]]]]]]. clear IH E.
  rewrite Ep. cbn [bind fst snd]. rewrite (stands_lens _ _ _ Hs).
  set (lens := map (fun x => length (items x)) xs) in *. set (m := longest lens) in *.
  set (h2 := fold_left (extend m pv) l h1).
  set (S1 := fun a => reached h flat a \/ (length h <= a)%nat) in *.
  assert (Hval : forall a, In (HRef a) l -> exists vs, nth_error h a = Some vs /\ (length vs <= m)%nat).
  { intros a Ha. apply In_nth_error in Ha as [i Hi]. destruct (Forall2_nth _ _ _ _ _ Hs Hi) as [x [Hx Hsx]].
    inversion Hsx; subst. eexists; split; [eauto|]. apply longest_ge. unfold lens.
    apply nth_error_In in Hx. apply in_map_iff. eexists; split; [|exact Hx]. cbn [items]. symmetry; eapply Forall2_length'; eauto. }
  assert (Hnr : forall a, In (HRef a) l -> ~ reached h flat a).
  { intros a Ha [d Hd]. assert (0%nat = S d); [|lia]. apply (Hl 0%nat (S d) a); assumption. }
  assert (Hown : forall a vs, In (HRef a) l -> nth_error h a = Some vs -> nth_error h2 a = Some (vs ++ repeat pv (m - length vs))).
  { intros a vs Ha Hvs. destruct (Hval a Ha) as [vs' [Hvs' Hm]]. replace vs' with vs in * by congruence.
    change (vs ++ repeat pv (m - length vs)) with (grown m pv vs). unfold h2.
    rewrite (extends_same m pv l h1 a vs); auto. rewrite Hfr; auto. apply nth_error_Some; congruence. }
  assert (Hlow : forall a, S1 a -> ~ In (HRef a) l).
  { intros a [Ha|Ha] Hal; [apply (Hnr a); auto|]. destruct (Hval a Hal) as [vs [Hvs _]].
    apply nth_some_lt in Hvs. lia. }
  assert (Hkeep : forall a, S1 a -> nth_error h2 a = nth_error h1 a).
  { intros a Ha. unfold h2. apply extends_other. apply Hlow; exact Ha. }
  assert (Hlen2 : length h2 = length h1) by apply extends_length.
  assert (Hfr2 : forall a vs, nth_error h2 a = Some vs -> nth_error (h2 ++ [repeat pv m]) a = Some vs).
  { intros a vs Ha. rewrite nth_error_app1; [exact Ha|]. apply nth_error_Some; congruence. }
  assert (Hmove : forall v x, stands_for h1 v x -> inside S1 v -> stands_for (h2 ++ [repeat pv m]) v x).
  { intros v x Hv Hi. eapply stands_frame with (S := S1); eauto. intros a vs Ha Hvs. apply Hfr2. rewrite Hkeep by exact Ha. exact Hvs. }
  assert (Hpv : stands_for (h2 ++ [repeat pv m]) pv p1).
  { apply Hmove; auto. destruct pv; cbn [inside] in *; [auto|right; exact Hin]. }
  assert (Hpvs : forall n, Forall2 (stands_for (h2 ++ [repeat pv m])) (repeat pv n) (repeat p1 n)).
  { induction n; cbn [repeat]; constructor; auto. }
  exists (HRef (length h2)), (h2 ++ [repeat pv m]). repeat split.
  - econstructor; [|apply Hpvs]. rewrite nth_error_app2 by lia. rewrite Nat.sub_diag. reflexivity.
  - apply Forall2_map_r.
    assert (Hreg : Forall2 (Forall2 (stands_for (h2 ++ [repeat pv m]))) (map (contents h) l) (regroup lens f)).
    { unfold lens. rewrite <- (stands_lens _ _ _ Hs).
      replace (map (fun v => length (contents h v)) l) with (map (@length hval) (map (contents h) l)) by (rewrite map_map; reflexivity).
      apply Forall2_regroup. fold flat. pose proof (inside_reached h flat) as Hir.
      apply (Forall2_impl_in _ _ _ _ _ Hf Hir). intros v x Hv. intros Hst. apply Hmove; [exact Hst|].
      destruct v; cbn [inside] in *; [auto|left; exact Hv]. }
    apply (proj1 (Forall2_map_l _ _ _ _)) in Hreg.
    apply (Forall2_impl_in (fun v => In v l) _ _ _ _ Hreg); [apply Forall_forall; auto|].
    intros v e Hv He.
    assert (Hr : is_ref v = true).
    { rewrite <- (stands_lists _ _ _ Hs), forallb_forall in E2. auto. }
    destruct v as [|a]; [discriminate|]. destruct (Hval a Hv) as [vs [Hvs _]].
    cbn [contents] in He. rewrite (nth_error_nth h a [] Hvs) in He.
    econstructor; [apply Hfr2, Hown; eauto|]. rewrite (Forall2_length' _ _ _ He). apply Forall2_app; auto.
  - rewrite app_length. simpl. lia.
  - intros a Ha Hr. rewrite nth_error_app1 by lia. unfold h2. rewrite extends_other.
    + apply Hfr; [exact Ha|]. intros [d Hd]. apply Hr. exists (S d). exact Hd.
    + intros Hal. apply Hr. exists 0%nat. exact Hal.
  - intros a vs Ha Hvs. assert (Hpin : forall n, Forall (inside (fun a => reached h l a \/ (length h <= a)%nat)) (repeat pv n)).
    { intros n. apply Forall_forall. intros v Hv. apply repeat_spec in Hv. subst v. destruct pv; cbn [inside] in *; auto. }
    destruct (Nat.lt_ge_cases a (length h2)) as [Hlt|Hge].
    + rewrite nth_error_app1 in Hvs by exact Hlt.
      assert (Hdec : In (HRef a) l \/ ~ In (HRef a) l).
      { destruct (in_dec hval_dec (HRef a) l); auto. }
      destruct Hdec as [Hal|Hal].
      * destruct (Hval a Hal) as [vs0 [Hvs0 _]]. rewrite (Hown a vs0 Hal Hvs0) in Hvs. injection Hvs as <-.
        apply Forall_app. split; [|apply Hpin].
        eapply Forall_impl; [|apply (reached_closed h l a vs0); [exists 0%nat; exact Hal|exact Hvs0]].
        intros [z|b]; cbn [inside]; auto.
      * unfold h2 in Hvs. rewrite extends_other in Hvs by exact Hal.
        assert (Ha1 : S1 a).
        { destruct Ha as [[[|d] Hd]|Ha]; [contradiction Hal|left; exists d; exact Hd|right; exact Ha]. }
        eapply Forall_impl; [|apply (Hcl a vs Ha1 Hvs)]. intros [z|b]; cbn [inside]; [auto|].
        intros [[d Hd]|Hb]; [left; exists (S d); exact Hd|right; exact Hb].
    + rewrite nth_error_app2 in Hvs by exact Hge. destruct (a - length h2)%nat as [|k]; cbn [nth_error] in Hvs.
      * injection Hvs as <-. apply Hpin.
      * destruct k; discriminate.
  - cbn [inside]. lia.
Qed.

Theorem pad_heap_padded h a x l :
  stands_for h (HRef a) x -> layered h (HRef a :: []) -> homogeneous x -> nth_error h a = Some l ->
  exists p h' y, pad_heap (depth x) l h = Ok (p, h') /\ stands_for h' (HRef a) y /\ padded x y /\
    (forall b, (b < length h)%nat -> ~ reached h l b -> nth_error h' b = nth_error h b).
Proof.
  intros Hs Hl Hh Ha. inversion Hs as [|a' vs xs Ha' Hf]; subst. assert (vs = l) as -> by congruence.
  destruct (pad_ok _ Hh) as [p [xs' E]].
  assert (Hll : layered h l).
  { intros d e b Hd He. assert (S d = S e); [|lia]. apply (Hl (S d) (S e) b); cbn [hlevel map concat contents];
      rewrite app_nil_r, (nth_error_nth h a [] Ha); assumption. }
  pose proof (pad_padded _ _ _ E) as Hp.
  assert (E' : pad_seq (depth (NList xs)) xs = Ok (p, xs')).
  { cbn [depth]. fold (depths xs).
    unfold pad in E. clear -E. revert E. generalize (depths xs) as n. intros n. revert xs p xs'.
    induction n as [|n IH]; intros xs p xs'; [cbn [pad_seq]; destruct (forallb _ xs); [auto|]; destruct (forallb is_list xs); discriminate|].
    intros H. remember (S n) as k. cbn [pad_seq]. subst k. cbn [pad_seq] in H.
    destruct (forallb (fun x => negb (is_list x)) xs); [exact H|]. destruct (forallb is_list xs); [|exact H].
    cbn [negb] in *. destruct (pad_seq n (concat (map items xs))) as [[p1 f1]|] eqn:E1; [|discriminate].
    rewrite (IH _ _ _ E1). exact H. }
  destruct (pad_heap_ok _ _ _ _ _ _ Hf Hll E') as [pv [h' [Eh [_ [Hf' [Hlen [Hfr _]]]]]]].
  exists pv, h', (NList xs'). repeat split; auto; try apply Hp.
  econstructor; [|exact Hf']. rewrite Hfr; [exact Ha|apply nth_error_Some; congruence|].
  intros [d Hd]. assert (0%nat = S d); [|lia].
  apply (Hl 0%nat (S d) a); cbn [hlevel map concat contents]; [left; auto|].
  rewrite app_nil_r, (nth_error_nth h a [] Ha). exact Hd.
Qed.
Theorem pad_heap_mixed h a x l : stands_for h (HRef a) x -> ~ homogeneous x -> nth_error h a = Some l ->
  pad_heap (depth x) l h = Err EValue.
Proof.
  intros Hs Hh Ha. inversion Hs as [|a' vs xs Ha' Hf]; subst. assert (vs = l) as -> by congruence.
  eapply pad_heap_err; [exact Hf|]. rewrite homog_seq_iff in Hh.
  destruct (pad_seq_ok_iff (depth (NList xs)) xs) as [_ H2]; [cbn [depth]; fold (depths xs); lia|]. auto.
Qed.
