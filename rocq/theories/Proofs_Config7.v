(* Configurations: merged builders. *)
From Coq Require Import String Ascii ZArith NArith QArith Bool List Lia Permutation.
From Verif Require Import Base BaseFacts Proofs_Datamodel Model_Datamodel Spec_Datamodel Model_Vocab Model_Lemma Model_Features Model_Builder Spec_Builder
  Proofs_Features Proofs_Builder3 Proofs_Builder4 Proofs_Builder5 Proofs_Labels3.
Import ListNotations.
Open Scope Z_scope.

(* the initializers of a builder are those of its basic builders *)
Section Initial.
Variables (B T : Type) (init : B -> result (dict T)).
Hypothesis init_ok : forall b d, init b = Ok d -> dict_ok d.

Lemma initial_leaves b : forall d, initial B T init b = Ok d ->
  exists es, Forall2 (fun wl e => init (snd wl) = Ok e) (leaves b) es /\ d = concat es.
Proof.
  assert (M : forall (w : wrapper) (l : list (list wrapper * B)) es, Forall2 (fun wl e => init (snd wl) = Ok e) l es ->
     Forall2 (fun wl e => init (snd wl) = Ok e) (map (fun wl => (w :: fst wl, snd wl)) l) es).
  { intros w l es F. apply Forall2_map_l. eapply Forall2_impl; [|exact F]. auto. }
  induction b as [b| |b IH|b IH|b IH|bs IH] using (builder_ind' B); intros d H; cbn [leaves].
  - exists [d]. cbn [concat]. rewrite app_nil_r. split; auto.
  - injection H as <-. exists []. split; auto.
  - destruct (IH d H) as (es & F & E). eauto.
  - destruct (IH d H) as (es & F & E). eauto.
  - destruct (IH d H) as (es & F & E). eauto.
  - destruct bs as [|b0 bs0] eqn:Eb; [discriminate|]. rewrite <- Eb in *.
    apply (initial_comp_inv B T init init_ok) in H; [|rewrite Eb; discriminate]. destruct H as (ds & Em & ->). apply mapM_ok in Em.
    clear Eb b0 bs0. induction Em as [|b d bs ds Hd _ IHm]; [exists []; split; auto; constructor|]. inversion IH as [|? ? Hb Hbs]; subst.
    destruct (Hb d Hd) as (es & F & E). destruct (IHm Hbs) as (es' & F' & E'). exists (es ++ es'). cbn [map concat]. split; [apply Forall2_app; auto|].
    rewrite concat_app. congruence.
Qed.
End Initial.

(* builders that are empty or wrapped basic ones *)
Section Parts.
Variables (B : Type) (cls : B -> Z) (wrap : B -> builder B).
Inductive parts : list (builder B) -> list B -> Prop :=
| parts_nil : parts [] []
| parts_empty bs l : parts bs l -> parts (BEmpty B :: bs) l
| parts_wrap x bs l : parts bs l -> parts (wrap x :: bs) (x :: l).

Lemma parts_app bs l bs' l' : parts bs l -> parts bs' l' -> parts (bs ++ bs') (l ++ l').
Proof. induction 1; intros H'; cbn [app]; auto; constructor; auto. Qed.

Hypothesis wrap_ok : forall x, buildable (wrap x) /\ exists ws, leaves (wrap x) = [(ws, x)].
Lemma parts_buildable bs l : parts bs l -> Forall buildable bs.
Proof. induction 1; constructor; auto; [constructor|apply wrap_ok]. Qed.
Lemma parts_leaves bs l : parts bs l -> map snd (concat (map leaves bs)) = l.
Proof.
  induction 1; cbn [map concat app leaves]; auto. destruct (wrap_ok x) as (_ & ws & ->). cbn [app map snd]. congruence.
Qed.

Lemma parts_initial T (init : B -> result (dict T)) bs l b d : (forall x d, init x = Ok d -> dict_ok d) -> bs <> [] -> parts bs l ->
  merge_builders B cls bs = Ok b -> initial B T init b = Ok d ->
  dict_ok d /\ exists es, Forall2 (fun x e => init x = Ok e) l es /\ Permutation d (concat es).
Proof.
  intros Ok' Ne P Em Ei. split; [eapply initial_dict_ok; eauto|].
  destruct (merge_structure B cls bs Ne (parts_buildable _ _ P)) as (b' & Em' & _ & Pm). rewrite Em in Em'. injection Em' as <-.
  destruct (initial_leaves B T init Ok' b d Ei) as (es & F & ->).
  assert (F' : mapM (fun wl => init (snd wl)) (leaves b) = Ok es) by (apply mapM_ok; exact F).
  destruct (Proofs_Builder5.mapM_perm (fun wl => init (snd wl)) _ _ Pm _ F') as (es' & F2 & P2). exists es'. split.
  - rewrite <- (parts_leaves _ _ P). apply mapM_ok in F2. apply Forall2_map_l. exact F2.
  - apply concat_perm. exact P2.
Qed.

Variables (O : Type) (elements : O -> result (list O)) (basic : B -> O -> result (dict nested)) (sparsify : O -> str -> Q -> nested -> nested) (name : B -> str).
Hypothesis basic_ok : forall x o d, basic x o = Ok d -> dict_ok d.
Notation features := (features B O elements basic sparsify).

Lemma parts_features bs l b rate o (P : B -> nested -> Prop) : bs <> [] -> parts bs l -> NoDup (map name l) -> merge_builders B cls bs = Ok b ->
  (forall x, In x l -> exists y, features (wrap x) rate o = Ok [(name x, y)] /\ P x y) ->
  exists d, features b rate o = Ok d /\ dict_ok d /\ (forall k, In k (dict_keys d) <-> In k (map name l)) /\
    forall x, In x l -> exists y, dict_get d (name x) = Some y /\ P x y.
Proof.
  intros Ne Pt Nd Em H.
  destruct (merge_features' B cls O elements basic sparsify basic_ok bs Ne (parts_buildable _ _ Pt)) as (b' & Em' & Hf).
  rewrite Em in Em'. injection Em' as <-.
  assert (G : exists dd, Forall2 (fun c d => features c rate o = Ok d) bs dd /\ map fst (concat dd) = map name l /\
     Forall2 (fun x kv => fst kv = name x /\ P x (snd kv)) l (concat dd)).
  { clear Ne Nd Em Hf. induction Pt as [|bs l Pt IH|x bs l Pt IH].
    - exists []. repeat split; constructor.
    - destruct (IH H) as (dd & F & K & G). exists ([] :: dd). split; [constructor; auto|auto].
    - destruct IH as (dd & F & K & G); [intros; apply H; right; auto|]. destruct (H x) as (y & Ey & Py); [left; auto|].
      exists ([(name x, y)] :: dd). split; [constructor; auto|]. cbn [concat app map fst]. split; [congruence|]. constructor; auto. }
  destruct G as (dd & F & K & G). assert (Fd : Forall dict_ok dd).
  { clear -F wrap_ok basic_ok. induction F; constructor; auto. eapply features_dict_ok; eauto. }
  assert (Ok' : dict_ok (concat dd)) by (unfold dict_ok, dict_keys; rewrite K; exact Nd).
  destruct (Hf rate o dd F) as (d & Ed & Od & U). { apply disjoint_iff; auto. }
  exists d. split; auto. split; auto.
  destruct (concat_union dd Fd Ok') as (_ & U2).
  assert (Q : forall k v, dict_get d k = Some v <-> In (k, v) (concat dd)).
  { intros k v. rewrite U, <- U2. split; [apply dict_get_In|apply In_dict_get; auto]. }
  split.
  - intros k. rewrite <- K. split; intros I.
    + apply in_map_iff in I. destruct I as ([k' v] & E & I). cbn [fst] in E. subst k'. apply (in_map fst) in I as I'. 
      apply In_dict_get in I; auto. apply Q in I. apply (in_map fst) in I. exact I.
    + apply in_map_iff in I. destruct I as ([k' v] & E & I). cbn [fst] in E. subst k'. apply Q in I. apply dict_get_In in I. apply (in_map fst) in I. exact I.
  - intros x I. destruct (In_nth_error _ _ I) as (i & Hi). destruct (Forall2_nth _ _ _ _ _ G Hi) as ([k v] & Hk & E & Pv). cbn [fst snd] in *. subst k.
    exists v. split; auto. apply Q. eapply nth_error_In; eauto.
Qed.
End Parts.
