(* What Pos and TokenExtras report. *)
From Coq Require Import ZArith NArith Bool Lia List.
From Verif Require Import Base BaseFacts Proofs_Datamodel Model_Heap Spec_Heap Proofs_Heap Proofs_Heap2.
Import ListNotations.
Open Scope nat_scope.

Lemma look_app h o v path : heap_wf h -> val_in (fun a => a < length h) v -> look (h ++ [o]) v path = look h v path.
Proof.
  intros W V. apply (look_frame _ _ (fun a => a < length h)); auto.
  - intros a o' La N. apply (W a o' N).
  - intros a La. apply nth_error_app1; auto.
Qed.

(* the shallow copy of a dictionary *)
Lemma look_dict h d a path : heap_wf h -> nth_error h a = Some (HDict d) -> look (h ++ [HDict d]) (HRef (length h)) path = look h (HRef a) path.
Proof.
  intros W N. assert (Nn : nth_error (h ++ [HDict d]) (length h) = Some (HDict d)) by (rewrite nth_error_app2, Nat.sub_diag; auto).
  destruct path as [|[k|i] path]; cbn [look shape_of inside]; rewrite Nn, N; auto.
  destruct (dict_get d k) as [v|] eqn:G; auto. apply look_app; auto. eapply dict_get_vals; [|exact G]. exact (proj1 (W _ _ N)).
Qed.

Definition lt_heap (h : heap) (v : hval) : Prop := val_in (fun a => a < length h) v.

Lemma vars_lt w Pub Pri v : inv w Pub Pri -> In v (w_vars w) -> lt_heap (w_heap w) v.
Proof.
  intros I H. assert (F := iv_vars _ _ _ I). rewrite Forall_forall in F. eapply val_in_impl; [apply (iv_pub _ _ _ I)|]. auto.
Qed.
Lemma extras_lt w Pub Pri v : inv w Pub Pri -> In v (w_extras w) -> lt_heap (w_heap w) v.
Proof.
  intros I H. assert (F := iv_extras _ _ _ I). rewrite Forall_forall in F. eapply val_in_impl; [apply (iv_pri _ _ _ I)|]. auto.
Qed.

Lemma feats_reported w i p : reached w -> nth_error (w_poses w) i = Some p ->
  exists w' v, attempt w (OFeats i) = Ok w' /\ w_vars w' = w_vars w ++ [v] /\
    forall path, look (w_heap w') v path = look (w_heap w) (hp_feats p) path.
Proof.
  intros R Hi. destruct (reached_inv w R) as (Pub & Pri & I). assert (F := iv_poses _ _ _ I). rewrite Forall_forall in F.
  destruct (F p (nth_error_In _ _ Hi)) as (a & d & E & Pa & N & _).
  do 2 eexists. cbn [attempt]. rewrite Hi. cbn [of_option bind]. unfold pos_feats, dict_copy. rewrite E. cbn [get_dict]. rewrite N. cbn [bind snd].
  split; [reflexivity|]. split; [reflexivity|]. intros path. cbn [push w_heap fst new_obj]. apply look_dict; auto. apply (iv_wf _ _ _ I).
Qed.

Lemma feature_reported w i p k : reached w -> nth_error (w_poses w) i = Some p ->
  exists v, attempt w (OFeature i k) = Ok (push w (w_heap w, v)) /\
    v = match inside (w_heap w) (hp_feats p) (AtKey k) with Some v => v | None => HAtom ANone end /\ exists x, v = HAtom x.
Proof.
  intros R Hi. destruct (reached_inv w R) as (Pub & Pri & I). assert (F := iv_poses _ _ _ I). rewrite Forall_forall in F.
  destruct (F p (nth_error_In _ _ Hi)) as (a & d & E & Pa & N & At).
  eexists. cbn [attempt]. rewrite Hi. cbn [of_option bind]. unfold pos_feature. rewrite E. cbn [get_dict]. rewrite N. cbn [bind snd].
  split; [reflexivity|]. cbn [inside]. rewrite N. split; auto. destruct (dict_get d k) as [v|] eqn:G; [|eauto].
  rewrite Forall_forall in At. apply (At (k, v)). apply dict_get_In. auto.
Qed.

Lemma extras_reported w i e : reached w -> nth_error (w_extras w) i = Some e ->
  exists w' v, attempt w (OExtrasDict i) = Ok w' /\ w_vars w' = w_vars w ++ [v] /\
    forall path, look (w_heap w') v path = look (w_heap w) e path.
Proof.
  intros R Hi. destruct (reached_inv w R) as (Pub & Pri & I).
  destruct (deepcopy_ok (w_heap w) e (iv_wf _ _ _ I) (extras_lt _ _ _ _ I (nth_error_In _ _ Hi))) as (h' & v' & E & _ & _ & _ & _ & _ & L).
  exists (push w (h', v')), v'. cbn [attempt]. rewrite Hi. cbn [of_option bind]. unfold extras_dict. rewrite E. cbn [bind]. auto.
Qed.

Lemma item_reported w i e k v : reached w -> nth_error (w_extras w) i = Some e -> inside (w_heap w) e (AtKey k) = Some v ->
  exists w' v', attempt w (OExtrasGet i k) = Ok w' /\ w_vars w' = w_vars w ++ [v'] /\
    forall path, look (w_heap w') v' path = look (w_heap w) e (AtKey k :: path).
Proof.
  intros R Hi In_. destruct (reached_inv w R) as (Pub & Pri & I). assert (V := extras_lt _ _ _ _ I (nth_error_In _ _ Hi)).
  destruct e as [x|a]; [discriminate|]. unfold inside in In_. destruct (nth_error (w_heap w) a) as [[d|l]|] eqn:N; try discriminate.
  assert (Vv : lt_heap (w_heap w) v) by (eapply dict_get_vals; [|exact In_]; exact (proj1 (iv_wf _ _ _ I _ _ N))).
  destruct (deepcopy_ok (w_heap w) v (iv_wf _ _ _ I) Vv) as (h' & v' & E & _ & _ & _ & _ & _ & L).
  exists (push w (h', v')), v'. cbn [attempt]. rewrite Hi. cbn [of_option bind]. unfold extras_get. cbn [get_dict]. rewrite N. cbn [bind snd].
  rewrite In_. cbn [of_option bind]. rewrite E. cbn [bind]. split; auto. split; auto. intros path. cbn [look inside]. rewrite N, In_. apply L.
Qed.

Lemma pos_created w u x f fv w' : reached w -> nth_error (w_vars w) f = Some fv -> attempt w (OPos u x f) = Ok w' ->
  exists p, w_poses w' = w_poses w ++ [p] /\ hp_upos p = u /\ hp_xpos p = x /\ w_vars w' = w_vars w /\
    forall path, look (w_heap w') (hp_feats p) path =
      match fv with HAtom ANone => match path with [] => Some (ShDict []) | _ => None end | _ => look (w_heap w) fv path end.
Proof.
  intros R Hf H. destruct (reached_inv w R) as (Pub & Pri & I). cbn [attempt] in H. unfold var in H. rewrite Hf in H. cbn [of_option bind] in H.
  open1 H r E. injection H as <-. unfold new_pos in E. open1 E q E1. injection E as <-. cbn [fst snd w_poses w_vars w_heap].
  eexists. split; [reflexivity|]. cbn [hp_upos hp_xpos hp_feats]. split; auto. split; auto. split; auto. intros path.
  assert (Cp : dict_copy (w_heap w) fv = Ok q -> look (fst q) (snd q) path = look (w_heap w) fv path).
  { unfold dict_copy. intros E. open1 E ad E2. destruct ad as [a d]. apply get_dict_ok in E2. destruct E2 as [-> N]. cbn [snd] in E. injection E as <-.
    cbn [new_obj fst snd]. apply look_dict; auto. apply (iv_wf _ _ _ I). }
  destruct fv as [[| | |]|a]; auto; try discriminate. injection E1 as <-. cbn [new_obj fst snd].
  assert (Nn : nth_error (w_heap w ++ [HDict []]) (length (w_heap w)) = Some (HDict [])) by (rewrite nth_error_app2, Nat.sub_diag; auto).
  destruct path as [|[k|i] path]; cbn [look shape_of inside]; rewrite Nn; auto.
Qed.

Lemma extras_created w f fv : reached w -> nth_error (w_vars w) f = Some fv ->
  exists w' e, attempt w (OExtras f) = Ok w' /\ w_extras w' = w_extras w ++ [e] /\ w_vars w' = w_vars w /\
    forall path, look (w_heap w') e path = look (w_heap w) fv path.
Proof.
  intros R Hf. destruct (reached_inv w R) as (Pub & Pri & I).
  destruct (deepcopy_ok (w_heap w) fv (iv_wf _ _ _ I) (vars_lt _ _ _ _ I (nth_error_In _ _ Hf))) as (h' & v' & E & _ & _ & _ & _ & _ & L).
  do 2 eexists. cbn [attempt]. unfold var. rewrite Hf. cbn [of_option bind]. unfold new_extras. rewrite E. cbn [bind fst snd].
  split; [reflexivity|]. cbn [w_extras w_vars w_heap]. auto.
Qed.

Lemma extras_updated w i e f fv w' : reached w -> nth_error (w_extras w) i = Some e -> nth_error (w_vars w) f = Some fv ->
  attempt w (OExtrasUpdate i f) = Ok w' ->
  exists e', w_extras w' = w_extras w ++ [e'] /\ w_vars w' = w_vars w /\
    forall k path, look (w_heap w') e' (AtKey k :: path) =
      match inside (w_heap w) fv (AtKey k) with
      | Some _ => look (w_heap w) fv (AtKey k :: path)
      | None => look (w_heap w) e (AtKey k :: path)
      end.
Proof.
  intros R Hi Hf H. destruct (reached_inv w R) as (Pub & Pri & I). cbn [attempt] in H. unfold var in H. rewrite Hi, Hf in H. cbn [of_option bind] in H.
  open1 H r E. injection H as <-. destruct r as [h' e']. cbn [fst snd w_extras w_vars w_heap]. exists e'. split; auto. split; auto. intros k path.
  assert (Le := extras_lt _ _ _ _ I (nth_error_In _ _ Hi)). assert (Lf := vars_lt _ _ _ _ I (nth_error_In _ _ Hf)). assert (W := iv_wf _ _ _ I).
  unfold extras_update in E. destruct (falsy (w_heap w) fv) eqn:Fy.
  - injection E as <- <-. destruct fv as [x|a]; auto. unfold falsy in Fy. cbn [inside]. destruct (nth_error (w_heap w) a) as [[[|]|[|]]|]; auto; discriminate.
  - open1 E r1 E2. open1 E r2 E3. open1 E r3 E4. unfold dict_copy in E2. open1 E2 r4 E5. destruct r4 as [ae de]. cbn [snd] in E2. injection E2 as <-. cbn [fst snd new_obj] in *.
    apply get_dict_ok in E5. destruct E5 as [-> Ne].
    destruct r2 as [a2 d2]. apply get_dict_ok in E3. destruct E3 as [X N2]. injection X as <-.
    rewrite nth_error_app2, Nat.sub_diag in N2 by auto. injection N2 as <-.
    destruct r3 as [au du]. apply get_dict_ok in E4. destruct E4 as [-> Nu]. cbn [fst snd] in *. unfold lt_heap in Lf. cbn [val_in] in Lf.
    rewrite nth_error_app1 in Nu by auto.
    assert (Wr : write (w_heap w ++ [HDict de]) (length (w_heap w)) (HDict (dict_update de du)) = w_heap w ++ [HDict (dict_update de du)]).
    { clear. induction (w_heap w) as [|y h IHh]; simpl; auto. rewrite IHh. auto. }
    rewrite Wr in E. unfold new_extras in E. set (h1 := w_heap w ++ [HDict (dict_update de du)]) in *.
    assert (W1 : heap_wf h1).
    { apply heap_wf_app; auto.
      - unfold obj_in. cbn [vals]. apply dict_update_vals; [exact (proj1 (W _ _ Ne))|exact (proj1 (W _ _ Nu))].
      - apply dict_update_ok. exact (proj2 (W _ _ Ne)). }
    destruct (deepcopy_ok h1 (HRef (length (w_heap w))) W1) as (h2 & v2 & E2 & _ & _ & _ & _ & _ & L).
    { simpl. unfold h1. rewrite app_length. simpl. lia. }
    rewrite E in E2. injection E2 as <- <-. rewrite L. cbn [look inside].
    assert (Nn : nth_error h1 (length (w_heap w)) = Some (HDict (dict_update de du))) by (unfold h1; rewrite nth_error_app2, Nat.sub_diag; auto).
    rewrite Nn, Nu, Ne, dict_get_update by exact (proj2 (W _ _ Nu)). destruct (dict_get du k) as [v|] eqn:Gu.
    + apply look_app; auto. eapply dict_get_vals; [|exact Gu]. exact (proj1 (W _ _ Nu)).
    + destruct (dict_get de k) as [v|] eqn:Ge; auto. apply look_app; auto. eapply dict_get_vals; [|exact Ge]. exact (proj1 (W _ _ Ne)).
Qed.
