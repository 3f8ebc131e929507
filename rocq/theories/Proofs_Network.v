(* Mapping, attaching and feeding networks. *)
From Coq Require Import String Ascii ZArith NArith Bool List Lia.
From Verif Require Import Base BaseFacts Model_Network Spec_Network.
Import ListNotations.
Open Scope Z_scope.

Lemma by_name_iff {T} (tname : T -> str) g name t :
  uniquely_named tname g -> (by_name tname g name = Ok t <-> In t g /\ tname t = name).
Proof.
  unfold uniquely_named, by_name. intros U. induction g as [|x g IH].
  - simpl. split; [discriminate|tauto].
  - cbn [find]. inversion U as [|? ? N U']; subst. destruct (str_eqb_spec name (tname x)) as [E|E].
    + split.
      * intros H. injection H as <-. split; [left; auto|auto].
      * intros [[->|I] Q]; auto. exfalso. apply N. rewrite <- E, <- Q. apply in_map, I.
    + rewrite (IH U'). split; intros [I Q]; split; auto.
      * right; auto.
      * destruct I as [->|I]; auto. congruence.
Qed.

Lemma by_name_err {T} (tname : T -> str) g name e :
  by_name tname g name = Err e <-> e = EKey /\ ~ In name (map tname g).
Proof.
  unfold by_name. induction g as [|x g IH].
  - simpl. split; [intros H; injection H as <-; tauto|intros [-> _]; auto].
  - cbn [find map In]. destruct (str_eqb_spec name (tname x)) as [E|E].
    + split; [discriminate|]. intros [_ N]. exfalso. apply N. auto.
    + rewrite IH. intuition congruence.
Qed.

Section Attach.
Context {T O : Type} (tname : T -> str) (oname : O -> str) (gt : list T) (go : list O)
        (Ut : uniquely_named tname gt) (Uo : uniquely_named oname go).

Lemma name2tensor_iff d d' :
  name2tensor (by_name tname gt) d = Ok d' <-> tensor2name tname d' = d /\ incl (map snd d') gt.
Proof.
  unfold name2tensor, tensor2name. revert d'. induction d as [|[k nm] d IH]; intros d'.
  - simpl. split.
    + intros H. injection H as <-. split; auto. intros x [].
    + intros [H _]. destruct d'; [auto|discriminate].
  - cbn [mapM fst snd]. split.
    + intros H. apply bind_ok_iff in H. destruct H as (y & Hy & H). apply bind_ok_iff in Hy. destruct Hy as (t & Ht & Hy).
      injection Hy as <-. apply bind_ok_iff in H. destruct H as (ys & Hys & H). injection H as <-.
      apply (by_name_iff tname gt nm t Ut) in Ht. apply IH in Hys. cbn [map fst snd]. destruct Ht as [I Q], Hys as [A B].
      split; [congruence|]. intros x [<-|J]; auto.
    + intros [H I]. destruct d' as [|[k' t] d']; [discriminate|]. cbn [map fst snd] in H, I. injection H as -> Q R.
      assert (Ht : by_name tname gt nm = Ok t). { apply by_name_iff; auto. split; auto. apply I. left; auto. }
      rewrite Ht. cbn [bind]. assert (Hd : tensor2name tname d' = d /\ incl (map snd d') gt).
      { split; auto. intros x J. apply I. right; auto. }
      apply IH in Hd. rewrite Hd. reflexivity.
Qed.

Lemma init_attach_iff i i' :
  init_attach (by_name tname gt) (by_name oname go) i = Ok i'
  <-> init_mapping tname oname i' = i /\ incl (init_tensors i') gt /\ incl (init_ops i') go.
Proof.
  destruct i as [op|p ix vs up]; cbn [init_attach].
  - split.
    + intros H. apply bind_ok_iff in H. destruct H as (o & Ho & H). injection H as <-.
      apply by_name_iff in Ho; auto. destruct Ho as [I Q]. cbn. split; [congruence|]. split; [intros x []|].
      intros x [<-|[]]; auto.
    + intros (H & _ & I). destruct i' as [o|]; [|discriminate]. cbn in H. injection H as Q.
      assert (Ho : by_name oname go op = Ok o). { apply by_name_iff; auto. split; auto. apply I. left; auto. }
      rewrite Ho. reflexivity.
  - split.
    + intros H. do 3 (apply bind_ok_iff in H; let x := fresh "t" in let E := fresh "Ht" in destruct H as (x & E & H);
                      apply by_name_iff in E; auto; destruct E).
      injection H as <-. cbn. split; [congruence|]. split; [|intros x []].
      intros x [<-|[<-|[<-|[]]]]; auto.
    + intros (H & I & _). destruct i' as [|p' a b c]; [discriminate|]. cbn in H. injection H as -> Q1 Q2 Q3. cbn in I.
      assert (H1 : by_name tname gt ix = Ok a). { apply by_name_iff; auto. split; auto. apply I. left; auto. }
      assert (H2 : by_name tname gt vs = Ok b). { apply by_name_iff; auto. split; auto. apply I. right; left; auto. }
      assert (H3 : by_name tname gt up = Ok c). { apply by_name_iff; auto. split; auto. apply I. right; right; left; auto. }
      rewrite H1. cbn [bind]. rewrite H2. cbn [bind]. rewrite H3. reflexivity.
Qed.

Lemma inits_attach_iff l l' :
  mapM (init_attach (by_name tname gt) (by_name oname go)) l = Ok l'
  <-> map (init_mapping tname oname) l' = l /\ incl (flat_map init_tensors l') gt /\ incl (flat_map init_ops l') go.
Proof.
  revert l'. induction l as [|i l IH]; intros l'.
  - simpl. split.
    + intros H. injection H as <-. split; [auto|]. split; intros x [].
    + intros (H & _). destruct l'; [auto|discriminate].
  - cbn [mapM]. split.
    + intros H. apply bind_ok_iff in H. destruct H as (y & Hy & H). apply bind_ok_iff in H. destruct H as (ys & Hys & H).
      injection H as <-. apply init_attach_iff in Hy. apply IH in Hys. cbn [map flat_map].
      destruct Hy as (A & B & C), Hys as (D & E & F). split; [congruence|].
      split; apply incl_app; auto.
    + intros (H & I & J). destruct l' as [|y ys]; [discriminate|]. cbn [map flat_map] in *. injection H as Q R.
      apply incl_app_inv in I. apply incl_app_inv in J.
      assert (Hy : init_attach (by_name tname gt) (by_name oname go) i = Ok y). { apply init_attach_iff. intuition. }
      assert (Hys : mapM (init_attach (by_name tname gt) (by_name oname go)) l = Ok ys). { apply IH. intuition. }
      rewrite Hy. cbn [bind]. rewrite Hys. reflexivity.
Qed.

Lemma attach_iff m n :
  attach (by_name tname gt) (by_name oname go) m = Ok n
  <-> mapping tname oname n = m /\ incl (tensors_of n) gt /\ incl (ops_of n) go.
Proof.
  unfold attach, mapping, tensors_of, ops_of. destruct m as [mi mo mg mop ml mis], n as [ni no ng nop nl nis].
  cbn [n_inputs n_outputs n_gold n_optimizer n_loss n_initializers]. split.
  - intros H.
    apply bind_ok_iff in H; destruct H as (x1 & E1 & H). apply bind_ok_iff in H; destruct H as (x2 & E2 & H).
    apply bind_ok_iff in H; destruct H as (x3 & E3 & H). apply bind_ok_iff in H; destruct H as (x4 & E4 & H).
    apply bind_ok_iff in H; destruct H as (x5 & E5 & H). apply bind_ok_iff in H; destruct H as (x6 & E6 & H).
    injection H as -> -> -> -> -> ->.
    apply name2tensor_iff in E1. apply name2tensor_iff in E2. apply name2tensor_iff in E3.
    apply by_name_iff in E4; auto. apply by_name_iff in E5; auto. apply inits_attach_iff in E6.
    destruct E1 as [A1 B1], E2 as [A2 B2], E3 as [A3 B3], E4 as [A4 B4], E5 as [A5 B5], E6 as (A6 & B6 & C6).
    split; [congruence|]. split.
    + repeat apply incl_app; auto. intros x [<-|I]; auto.
    + intros x [<-|I]; auto.
  - intros (H & I & J). injection H as A1 A2 A3 A4 A5 A6.
    apply incl_app_inv in I. destruct I as [I1 I]. apply incl_app_inv in I. destruct I as [I2 I].
    apply incl_app_inv in I. destruct I as [I3 I].
    assert (E1 : name2tensor (by_name tname gt) mi = Ok ni) by (apply name2tensor_iff; auto).
    assert (E2 : name2tensor (by_name tname gt) mo = Ok no) by (apply name2tensor_iff; auto).
    assert (E3 : name2tensor (by_name tname gt) mg = Ok ng) by (apply name2tensor_iff; auto).
    assert (E4 : by_name oname go mop = Ok nop). { apply by_name_iff; auto. split; auto. apply J. left; auto. }
    assert (E5 : by_name tname gt ml = Ok nl). { apply by_name_iff; auto. split; auto. apply I. left; auto. }
    assert (E6 : mapM (init_attach (by_name tname gt) (by_name oname go)) mis = Ok nis).
    { apply inits_attach_iff. split; auto. split; intros x K; [apply I|apply J]; right; auto. }
    rewrite E1. cbn [bind]. rewrite E2. cbn [bind]. rewrite E3. cbn [bind]. rewrite E4. cbn [bind]. rewrite E5.
    cbn [bind]. rewrite E6. reflexivity.
Qed.

Lemma name2tensor_err d e :
  name2tensor (by_name tname gt) d = Err e -> e = EKey /\ exists k nm, In (k, nm) d /\ ~ In nm (map tname gt).
Proof.
  unfold name2tensor. induction d as [|[k nm] d IH]; [discriminate|]. cbn [mapM fst snd]. intros H.
  destruct (by_name tname gt nm) eqn:E; cbn [bind] in H.
  - destruct (mapM _ d) eqn:E2; cbn [bind] in H; [discriminate|]. injection H as <-.
    destruct (IH eq_refl) as (Q & k' & nm' & I & N). split; auto. exists k', nm'. split; auto. right; auto.
  - injection H as <-. apply by_name_err in E. destruct E as [-> N]. split; auto. exists k, nm. split; auto. left; auto.
Qed.

Lemma init_attach_err i e :
  init_attach (by_name tname gt) (by_name oname go) i = Err e ->
  e = EKey /\ ((exists nm, In nm (init_tensors i) /\ ~ In nm (map tname gt))
               \/ (exists nm, In nm (init_ops i) /\ ~ In nm (map oname go))).
Proof.
  destruct i as [op|p ix vs up]; cbn [init_attach init_tensors init_ops]; intros H.
  - destruct (by_name oname go op) eqn:E; cbn [bind] in H; [discriminate|]. injection H as <-. apply by_name_err in E.
    destruct E as [-> N]. split; auto. right. exists op. simpl. auto.
  - destruct (by_name tname gt ix) eqn:E; cbn [bind] in H.
    + destruct (by_name tname gt vs) eqn:E2; cbn [bind] in H.
      * destruct (by_name tname gt up) eqn:E3; cbn [bind] in H; [discriminate|]. injection H as <-. apply by_name_err in E3.
        destruct E3 as [-> N]. split; auto. left. exists up. simpl. auto.
      * injection H as <-. apply by_name_err in E2. destruct E2 as [-> N]. split; auto. left. exists vs. simpl. auto.
    + injection H as <-. apply by_name_err in E. destruct E as [-> N]. split; auto. left. exists ix. simpl. auto.
Qed.

Lemma inits_attach_err l e :
  mapM (init_attach (by_name tname gt) (by_name oname go)) l = Err e ->
  e = EKey /\ ((exists nm, In nm (flat_map init_tensors l) /\ ~ In nm (map tname gt))
               \/ (exists nm, In nm (flat_map init_ops l) /\ ~ In nm (map oname go))).
Proof.
  induction l as [|i l IH]; [discriminate|]. cbn [mapM flat_map]. intros H.
  destruct (init_attach (by_name tname gt) (by_name oname go) i) eqn:E; cbn [bind] in H.
  - destruct (mapM _ l) eqn:E2; cbn [bind] in H; [discriminate|]. injection H as <-.
    destruct (IH eq_refl) as (Q & [(nm & I & N)|(nm & I & N)]); split; auto; [left|right]; exists nm; split; auto;
      apply in_or_app; auto.
  - injection H as <-. apply init_attach_err in E.
    destruct E as (Q & [(nm & I & N)|(nm & I & N)]); split; auto; [left|right]; exists nm; split; auto;
      apply in_or_app; auto.
Qed.

Lemma attach_err m e :
  attach (by_name tname gt) (by_name oname go) m = Err e ->
  e = EKey /\ ((exists nm, In nm (tensors_of m) /\ ~ In nm (map tname gt))
               \/ (exists nm, In nm (ops_of m) /\ ~ In nm (map oname go))).
Proof.
  unfold attach, tensors_of, ops_of. destruct m as [mi mo mg mop ml mis].
  cbn [n_inputs n_outputs n_gold n_optimizer n_loss n_initializers]. intros H.
  assert (X : forall d e', name2tensor (by_name tname gt) d = Err e' ->
                           e' = EKey /\ exists nm, In nm (map snd d) /\ ~ In nm (map tname gt)).
  { intros d e' E. apply name2tensor_err in E. destruct E as (Q & k & nm & I & N). split; auto. exists nm. split; auto.
    apply (in_map snd) in I. exact I. }
  destruct (name2tensor _ mi) eqn:E1; cbn [bind] in H.
  2:{ injection H as <-. apply X in E1. destruct E1 as (Q & nm & I & N). split; auto. left. exists nm. split; auto.
      apply in_or_app. auto. }
  destruct (name2tensor _ mo) eqn:E2; cbn [bind] in H.
  2:{ injection H as <-. apply X in E2. destruct E2 as (Q & nm & I & N). split; auto. left. exists nm. split; auto.
      rewrite !in_app_iff. auto. }
  destruct (name2tensor _ mg) eqn:E3; cbn [bind] in H.
  2:{ injection H as <-. apply X in E3. destruct E3 as (Q & nm & I & N). split; auto. left. exists nm. split; auto.
      rewrite !in_app_iff. auto. }
  destruct (by_name oname go mop) eqn:E4; cbn [bind] in H.
  2:{ injection H as <-. apply by_name_err in E4. destruct E4 as [-> N]. split; auto. right. exists mop. split; auto.
      left; auto. }
  destruct (by_name tname gt ml) eqn:E5; cbn [bind] in H.
  2:{ injection H as <-. apply by_name_err in E5. destruct E5 as [-> N]. split; auto. left. exists ml. split; auto.
      rewrite !in_app_iff. right; right; right; left; auto. }
  destruct (mapM _ mis) eqn:E6; cbn [bind] in H; [discriminate|]. injection H as <-. apply inits_attach_err in E6.
  destruct E6 as (Q & [(nm & I & N)|(nm & I & N)]); split; auto; [left|right]; exists nm; split; auto.
  - rewrite !in_app_iff. right; right; right; right; auto.
  - right; auto.
Qed.
End Attach.

(* ------------------------------------------------------------------ *)
(* mapping as an equality of names at every place *)

Lemma same_dict_iff {T T'} (tname : T -> str) (tname' : T' -> str) (d : dict T) (d' : dict T') :
  same_dict tname tname' d d' <-> tensor2name tname d = tensor2name tname' d'.
Proof.
  unfold same_dict, tensor2name. revert d'. induction d as [|[k t] d IH]; intros d'; split; intros H.
  - inversion H; auto.
  - destruct d'; [constructor|discriminate].
  - inversion H as [|? [k' t'] ? ? [A B] F]; subst. cbn [map fst snd] in *. apply IH in F. congruence.
  - destruct d' as [|[k' t'] d']; [discriminate|]. cbn [map fst snd] in H. injection H as A B C.
    constructor; [auto|]. apply IH, C.
Qed.

Lemma same_init_iff {T O T' O'} (tname : T -> str) (oname : O -> str) (tname' : T' -> str) (oname' : O' -> str) i i' :
  same_init tname oname tname' oname' i i' <-> init_mapping tname oname i = init_mapping tname' oname' i'.
Proof.
  split.
  - intros H. inversion H; subst; cbn; congruence.
  - destruct i, i'; cbn; intros H; try discriminate; injection H; intros; subst; constructor; auto.
Qed.

Lemma same_network_iff {T O T' O'} (tname : T -> str) (oname : O -> str) (tname' : T' -> str) (oname' : O' -> str) n n' :
  same_network tname oname tname' oname' n n' <-> mapping tname oname n = mapping tname' oname' n'.
Proof.
  unfold same_network, mapping. destruct n, n'. cbn. rewrite !same_dict_iff.
  assert (X : forall l l', Forall2 (same_init tname oname tname' oname') l l'
                           <-> map (init_mapping tname oname) l = map (init_mapping tname' oname') l').
  { induction l as [|i l IH]; intros l'; split; intros H.
    - inversion H; auto.
    - destruct l'; [constructor|discriminate].
    - inversion H as [|? i' ? ? A F]; subst. apply same_init_iff in A. apply IH in F. cbn [map]. congruence.
    - destruct l' as [|i' l']; [discriminate|]. cbn [map] in H. injection H as A B. constructor.
      + apply same_init_iff, A.
      + apply IH, B. }
  rewrite X. split.
  - intros (A & B & C & D & E & F). f_equal; assumption.
  - intros H. injection H as A B C D E F. tauto.
Qed.

(* ------------------------------------------------------------------ *)
(* Feeding                                                             *)

Section Feed.
Context {T V : Type} (teqb : T -> T -> bool) (D : identity_test teqb).

Lemma teqb_refl t : teqb t t = true.
Proof. apply D; auto. Qed.
Lemma teqb_neq a b : a <> b -> teqb a b = false.
Proof. intros N. destruct (teqb a b) eqn:E; auto. apply D in E. congruence. Qed.

Fixpoint feed_get (f : feed T V) (t : T) : option V :=
  match f with [] => None | (t', v) :: f' => if teqb t t' then Some v else feed_get f' t end.

Lemma feed_get_set f t v t2 : feed_get (feed_set teqb f t v) t2 = if teqb t2 t then Some v else feed_get f t2.
Proof.
  induction f as [|[t' v'] f IH].
  - reflexivity.
  - cbn [feed_set]. destruct (teqb t t') eqn:E.
    + apply D in E. subst t'. cbn [feed_get]. destruct (teqb t2 t) eqn:E2; auto.
    + cbn [feed_get]. destruct (teqb t2 t') eqn:E2.
      * apply D in E2. subst t'. rewrite teqb_neq; auto. intros ->. rewrite teqb_refl in E. discriminate.
      * apply IH.
Qed.

Lemma feed_set_keys (f : feed T V) t v : forall x, In x (map fst (feed_set teqb f t v)) <-> x = t \/ In x (map fst f).
Proof.
  intros x. induction f as [|[t' v'] f IH]; [simpl; intuition|]. cbn [feed_set]. destruct (teqb t t') eqn:E.
  - apply D in E. subst. cbn [map fst In]. intuition.
  - cbn [map fst In]. rewrite IH. intuition.
Qed.

Lemma feed_set_nodup (f : feed T V) t v : NoDup (map fst f) -> NoDup (map fst (feed_set teqb f t v)).
Proof.
  induction f as [|[t' v'] f IH]; intros N.
  - simpl. constructor; [simpl; tauto|constructor].
  - cbn [feed_set]. destruct (teqb t t') eqn:E; [exact N|]. cbn [map fst] in *. inversion N; subst. constructor; auto.
    rewrite feed_set_keys. intros [->|I]; [|tauto]. rewrite teqb_refl in E. discriminate.
Qed.

Lemma feed_get_In (f : feed T V) t v : NoDup (map fst f) -> (feed_get f t = Some v <-> In (t, v) f).
Proof.
  induction f as [|[t' v'] f IH]; intros N; [simpl; split; [discriminate|tauto]|].
  cbn [map fst] in N. inversion N; subst. cbn [feed_get In]. destruct (teqb t t') eqn:E.
  - apply D in E. subst t'. split.
    + intros H. injection H as <-. auto.
    + intros [H|H]; [congruence|]. exfalso. apply (in_map fst) in H. auto.
  - rewrite IH by auto. split; auto. intros [H|H]; auto. injection H as -> ->. rewrite teqb_refl in E. discriminate.
Qed.

(* filling from a given feed *)
Definition fill_from (keys : dict T) (f : feed T V) (values : dict V) : result (feed T V) :=
  foldM (fun r kv => do t <- of_option EKey (dict_get keys (fst kv)); Ok (feed_set teqb r t (snd kv))) f values.

Lemma fill_from_total keys (f : feed T V) values :
  match fill_from keys f values with
  | Ok _ => incl (dict_keys values) (dict_keys keys)
  | Err e => e = EKey /\ exists k, In k (dict_keys values) /\ ~ In k (dict_keys keys)
  end.
Proof.
  unfold fill_from. revert f. induction values as [|[k v] values IH]; intros f.
  - simpl. intros x [].
  - cbn [foldM fst snd]. destruct (dict_get keys k) as [t|] eqn:E; cbn [of_option bind].
    + specialize (IH (feed_set teqb f t v)). destruct (foldM _ _ values) as [r|e]; cbn [dict_keys map fst].
      * intros x [<-|I]; [|apply IH, I]. apply dict_get_In in E. apply (in_map fst) in E. exact E.
      * destruct IH as (Q & k' & I & N). split; auto. exists k'. split; auto. right; auto.
    + split; auto. exists k. split; [left; auto|]. apply dict_get_None, E.
Qed.

(* with different placeholders for different names *)
Lemma fill_from_get keys values : dict_ok values -> NoDup (map snd keys) -> forall f r t v,
  fill_from keys f values = Ok r ->
  (feed_get r t = Some v <-> given keys values t v
                             \/ (feed_get f t = Some v /\ forall k, dict_get keys k = Some t -> dict_get values k = None)).
Proof.
  intros OKv ND. unfold fill_from.
  assert (INJ : forall k k' t, dict_get keys k = Some t -> dict_get keys k' = Some t -> k = k').
  { clear OKv. induction keys as [|[k0 t0] keys IH]; [discriminate|]. cbn [map snd] in ND. inversion ND; subst.
    intros k k' t H H'. cbn [dict_get] in H, H'.
    destruct (str_eqb_spec k k0) as [->|Nk]; destruct (str_eqb_spec k' k0) as [->|Nk']; auto.
    - injection H as ->. apply dict_get_In in H'. apply (in_map snd) in H'. tauto.
    - injection H' as ->. apply dict_get_In in H. apply (in_map snd) in H. tauto.
    - eapply IH; eauto. }
  induction values as [|[k0 v0] values IH]; intros f r t v.
  - cbn [foldM]. intros H. injection H as <-. split.
    + intros H. right. split; auto.
    + intros [(k & _ & H)|[H _]]; [discriminate|auto].
  - cbn [foldM fst snd]. destruct (dict_get keys k0) as [t0|] eqn:E; cbn [of_option bind]; [|discriminate].
    intros H. unfold dict_ok in OKv. cbn [dict_keys map fst] in OKv. inversion OKv as [|? ? N0 OK']; subst.
    rewrite (IH OK' _ _ t v H). rewrite feed_get_set. unfold given. destruct (teqb t t0) eqn:Et.
    + apply D in Et. subst t0. split.
      * intros [(k & A & B)|[A B]].
        -- exfalso. assert (k = k0) by (eapply INJ; eauto). subst k. apply N0. apply dict_get_In in B.
           apply (in_map fst) in B. exact B.
        -- left. exists k0. split; auto. cbn [dict_get]. rewrite str_eqb_refl. auto.
      * intros [(k & A & B)|[A B]].
        -- assert (k = k0) by (eapply INJ; eauto). subst k. cbn [dict_get] in B. rewrite str_eqb_refl in B.
           right. split; auto. intros k Hk. assert (k = k0) by (eapply INJ; eauto). subst k. apply dict_get_None, N0.
        -- specialize (B k0 E). cbn [dict_get] in B. rewrite str_eqb_refl in B. discriminate.
    + assert (Nt : t <> t0). { intros ->. rewrite teqb_refl in Et. discriminate. }
      assert (G : forall k, dict_get keys k = Some t -> dict_get ((k0, v0) :: values) k = dict_get values k).
      { intros k Hk. cbn [dict_get]. destruct (str_eqb_spec k k0) as [->|]; auto. congruence. }
      split.
      * intros [(k & A & B)|[A B]].
        -- left. exists k. split; auto. rewrite G; auto.
        -- right. split; auto. intros k Hk. rewrite G; auto.
      * intros [(k & A & B)|[A B]].
        -- left. exists k. split; auto. rewrite <- G; auto.
        -- right. split; auto. intros k Hk. rewrite <- G; auto.
Qed.

Lemma fill_from_nodup keys (values : dict V) : forall f r : feed T V, NoDup (map fst f) -> fill_from keys f values = Ok r -> NoDup (map fst r).
Proof.
  unfold fill_from. induction values as [|[k v] values IH]; intros f r N; cbn [foldM fst snd].
  - intros H. injection H as <-. auto.
  - destruct (dict_get keys k) as [t|]; cbn [of_option bind]; [|discriminate]. apply IH, feed_set_nodup, N.
Qed.

Lemma merge_nodup (h : feed T V) : forall f : feed T V, NoDup (map fst f) ->
  NoDup (map fst (fold_left (fun acc tv => feed_set teqb acc (fst tv) (snd tv)) h f)).
Proof. induction h as [|[t v] h IH]; intros f N; auto. cbn [fold_left fst snd]. apply IH, feed_set_nodup, N. Qed.

Lemma merge_get (h : feed T V) : forall (f : feed T V) t, NoDup (map fst h) ->
  feed_get (fold_left (fun acc tv => feed_set teqb acc (fst tv) (snd tv)) h f) t
  = match feed_get h t with Some v => Some v | None => feed_get f t end.
Proof.
  induction h as [|[t0 v0] h IH]; intros f t N; [reflexivity|]. cbn [map fst] in N. inversion N; subst.
  cbn [fold_left fst snd feed_get]. rewrite IH by auto. rewrite feed_get_set. destruct (teqb t t0) eqn:E; auto.
  apply D in E. subst t0. destruct (feed_get h t) eqn:E2; auto. exfalso. apply feed_get_In in E2; auto.
  apply (in_map fst) in E2. auto.
Qed.

Lemma given_In (keys : dict T) (values : dict V) t v : given keys values t v -> In t (map snd keys).
Proof. intros (k & A & _). apply dict_get_In in A. apply (in_map snd) in A. exact A. Qed.
End Feed.

Lemma feed_total {T O V} (teqb : T -> T -> bool) (n : network T O) (input : dict V) gold :
  match get_feed_dict teqb n input gold with
  | Ok _ => incl (dict_keys input) (dict_keys (n_inputs n))
            /\ (forall g, gold = Some g -> incl (dict_keys g) (dict_keys (n_gold n)))
  | Err e => e = EKey /\ ((exists k, In k (dict_keys input) /\ ~ In k (dict_keys (n_inputs n)))
                          \/ (exists g k, gold = Some g /\ In k (dict_keys g) /\ ~ In k (dict_keys (n_gold n))))
  end.
Proof.
  unfold get_feed_dict. pose proof (fill_from_total teqb (n_inputs n) [] input) as A.
  unfold fill_from in A. fold (fill_dict teqb (n_inputs n) input) in A.
  destruct (fill_dict teqb (n_inputs n) input) as [f|e]; cbn [bind].
  2:{ destruct A as [Q H]. auto. }
  destruct gold as [g|].
  - pose proof (fill_from_total teqb (n_gold n) [] g) as B. unfold fill_from in B. fold (fill_dict teqb (n_gold n) g) in B.
    destruct (fill_dict teqb (n_gold n) g) as [h|e]; cbn [bind].
    + split; auto. intros g' H. injection H as <-. auto.
    + destruct B as [Q (k & I & N)]. split; auto. right. exists g, k. auto.
  - split; auto. discriminate.
Qed.

Lemma feed_values {T O V} (teqb : T -> T -> bool) (n : network T O) (input : dict V) gold f :
  identity_test teqb -> NoDup (map snd (n_inputs n) ++ map snd (n_gold n)) -> dict_ok input ->
  (forall g, gold = Some g -> dict_ok g) ->
  get_feed_dict teqb n input gold = Ok f ->
  NoDup (map fst f)
  /\ forall t v, In (t, v) f <-> given (n_inputs n) input t v \/ (exists g, gold = Some g /\ given (n_gold n) g t v).
Proof.
  intros D ND OKi OKg H. unfold get_feed_dict in H. apply bind_ok_iff in H. destruct H as (f0 & Hf & H).
  assert (ND1 : NoDup (map snd (n_inputs n))). { clear - ND. induction (map snd (n_inputs n)); [constructor|].
    cbn [app] in ND. inversion ND; subst. constructor; auto. rewrite in_app_iff in *. tauto. }
  assert (ND2 : NoDup (map snd (n_gold n))). { clear - ND. induction (map snd (n_inputs n)); auto. inversion ND; auto. }
  assert (NC : forall t, In t (map snd (n_inputs n)) -> ~ In t (map snd (n_gold n))).
  { clear - ND. induction (map snd (n_inputs n)) as [|x l IH]; [tauto|]. cbn [app] in ND. inversion ND; subst.
    intros t [->|I]; auto. rewrite in_app_iff in *. tauto. }
  assert (N0 : NoDup (map fst f0)). { eapply (fill_from_nodup teqb D (n_inputs n) input []); [constructor|exact Hf]. }
  assert (G0 : forall t v, feed_get teqb f0 t = Some v <-> given (n_inputs n) input t v).
  { intros t v. rewrite (fill_from_get teqb D (n_inputs n) input OKi ND1 [] f0 t v Hf). split; auto.
    intros [A|[A _]]; auto. discriminate. }
  destruct gold as [g|].
  - apply bind_ok_iff in H. destruct H as (h & Hh & H). injection H as <-.
    assert (N1 : NoDup (map fst h)). { eapply (fill_from_nodup teqb D (n_gold n) g []); [constructor|exact Hh]. }
    assert (G1 : forall t v, feed_get teqb h t = Some v <-> given (n_gold n) g t v).
    { intros t v. rewrite (fill_from_get teqb D (n_gold n) g (OKg g eq_refl) ND2 [] h t v Hh). split; auto.
      intros [A|[A _]]; auto. discriminate. }
    pose proof (merge_nodup teqb D h f0 N0) as NM. split; [exact NM|]. intros t v.
    rewrite <- (feed_get_In teqb D _ t v NM). rewrite (merge_get teqb D h f0 t N1).
    destruct (feed_get teqb h t) as [w|] eqn:E.
    + split.
      * intros H. injection H as ->. right. exists g. split; auto. apply G1, E.
      * intros [A|(g' & Q & A)].
        -- exfalso. apply given_In in A. apply G1, given_In in E. eapply NC; eauto.
        -- injection Q as <-. apply G1 in A. congruence.
    + rewrite G0. split; auto. intros [A|(g' & Q & A)]; auto. injection Q as <-. apply G1 in A. congruence.
  - injection H as <-. split; [exact N0|]. intros t v. rewrite <- (feed_get_In teqb D _ t v N0). rewrite G0.
    split; auto. intros [A|(g' & Q & _)]; auto. discriminate.
Qed.
