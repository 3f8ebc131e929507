(* No program changes an existing Pos or TokenExtras. *)
From Coq Require Import ZArith NArith Bool Lia List.
From Verif Require Import Base BaseFacts Proofs_Datamodel Model_Heap Spec_Heap Proofs_Heap.
Import ListNotations.
Open Scope nat_scope.

(* [Pub]: what the program can reach; [Pri]: what belongs to a Pos or TokenExtras *)
Record inv (w : world) (Pub Pri : nat -> Prop) : Prop := {
  iv_wf : heap_wf (w_heap w);
  iv_pub : forall a, Pub a -> a < length (w_heap w);
  iv_pri : forall a, Pri a -> a < length (w_heap w);
  iv_dis : forall a, Pub a -> Pri a -> False;
  iv_cpub : closed (w_heap w) Pub;
  iv_cpri : closed (w_heap w) Pri;
  iv_vars : Forall (val_in Pub) (w_vars w);
  iv_poses : Forall (fun p => exists a d, hp_feats p = HRef a /\ Pri a /\ nth_error (w_heap w) a = Some (HDict d) /\
               Forall (fun kv => exists x, snd kv = HAtom x) d) (w_poses w);
  iv_extras : Forall (val_in Pri) (w_extras w) }.

(* nothing private changes *)
Definition keeps (w w' : world) (Pri Pri' : nat -> Prop) : Prop :=
  (forall a, Pri a -> Pri' a /\ nth_error (w_heap w') a = nth_error (w_heap w) a) /\
  (exists ps, w_poses w' = w_poses w ++ ps) /\ (exists es, w_extras w' = w_extras w ++ es).

Lemma poses_mono h h' (Pri Pri' : nat -> Prop) (ps : list hpos) : (forall a, Pri a -> Pri' a /\ nth_error h' a = nth_error h a) ->
  Forall (fun p => exists a d, hp_feats p = HRef a /\ Pri a /\ nth_error h a = Some (HDict d) /\
               Forall (fun kv => exists x, snd kv = HAtom x) d) ps ->
  Forall (fun p => exists a d, hp_feats p = HRef a /\ Pri' a /\ nth_error h' a = Some (HDict d) /\
               Forall (fun kv => exists x, snd kv = HAtom x) d) ps.
Proof.
  intros H. apply Forall_impl. intros p (a & d & E & Pa & N & F). destruct (H a Pa) as [Pa' E']. exists a, d. rewrite E'. auto.
Qed.

(* [Pub] or [Pri] grow by new addresses, the old part of the heap stays *)
Lemma grow w h' (Q : nat -> Prop) Pub Pri : inv w Pub Pri -> heap_wf h' -> length (w_heap w) <= length h' ->
  (forall a, a < length (w_heap w) -> nth_error h' a = nth_error (w_heap w) a) ->
  (forall a, Q a -> length (w_heap w) <= a < length h') ->
  (closed h' Q -> inv (in_heap w h') (fun a => Pub a \/ Q a) Pri) /\ (closed h' Q -> inv (in_heap w h') Pub (fun a => Pri a \/ Q a)).
Proof.
  intros I W L F HQ. destruct I as [I1 I2 I3 I4 I5 I6 I7 I8 I9].
  assert (Co : forall P : nat -> Prop, (forall a, P a -> a < length (w_heap w)) -> closed (w_heap w) P -> closed h' P).
  { intros P HP C a o Pa N. rewrite F in N by auto. eapply C; eauto. }
  assert (Cu : forall P : nat -> Prop, closed h' P -> closed h' Q -> closed h' (fun a => P a \/ Q a)).
  { intros P C1 C2 a o [Pa|Qa] N; (eapply obj_in_impl; [|eauto]; cbv beta; auto). }
  assert (Pk : forall a, Pri a -> Pri a /\ nth_error h' a = nth_error (w_heap w) a) by (intros a Pa; split; auto).
  split; intros CQ; constructor; cbn [w_heap w_vars w_poses w_extras in_heap]; auto.
  - intros a [Pa|Qa]; [apply I2 in Pa; lia|apply HQ in Qa; lia].
  - intros a Pa. apply I3 in Pa. lia.
  - intros a [Pa|Qa] Ra; [eauto|]. apply HQ in Qa. apply I3 in Ra. lia.
  - eapply Forall_impl; [|exact I7]. intros v. apply val_in_impl. auto.
  - eapply poses_mono; eauto.
  - intros a Pa. apply I2 in Pa. lia.
  - intros a [Pa|Qa]; [apply I3 in Pa; lia|apply HQ in Qa; lia].
  - intros a Pa [Ra|Qa]; [eauto|]. apply HQ in Qa. apply I2 in Pa. lia.
  - eapply poses_mono; [|exact I8]. intros a Pa. split; auto.
  - eapply Forall_impl; [|exact I9]. intros v. apply val_in_impl. auto.
Qed.

Lemma add_var w Pub Pri v : inv w Pub Pri -> val_in Pub v -> inv (push w (w_heap w, v)) Pub Pri.
Proof.
  intros [I1 I2 I3 I4 I5 I6 I7 I8 I9] Hv. constructor; cbn [push w_heap w_vars w_poses w_extras fst snd]; auto.
  apply Forall_app. split; auto.
Qed.

Lemma heap_wf_app h o : heap_wf h -> obj_in (fun a => a < length h) o -> keys_ok o -> heap_wf (h ++ [o]).
Proof.
  intros W O K a o' N. rewrite app_length. simpl. destruct (Nat.lt_ge_cases a (length h)) as [L|G].
  - rewrite nth_error_app1 in N by auto. destruct (W a o' N) as [A B]. split; auto. eapply obj_in_impl; [|exact A]. cbv beta. intros; lia.
  - rewrite nth_error_app2 in N by auto. destruct (a - length h) as [|k] eqn:E; [|destruct k; discriminate]. injection N as <-.
    split; auto. eapply obj_in_impl; [|exact O]. cbv beta. intros; lia.
Qed.

(* a new object of the program *)
Lemma alloc_pub w Pub Pri o : inv w Pub Pri -> obj_in Pub o -> keys_ok o ->
  exists Pub', inv (push w (new_obj (w_heap w) o)) Pub' Pri /\ forall a, Pub a -> Pub' a.
Proof.
  intros I O K. assert (Ob : obj_in (fun a => a < length (w_heap w)) o) by (eapply obj_in_impl; [|exact O]; apply (iv_pub _ _ _ I)).
  exists (fun a => Pub a \/ a = length (w_heap w)). split; auto.
  assert (W := heap_wf_app _ _ (iv_wf _ _ _ I) Ob K).
  destruct I as [I1 I2 I3 I4 I5 I6 I7 I8 I9].
  constructor; cbn [push new_obj w_heap w_vars w_poses w_extras fst snd]; auto.
  - rewrite app_length. simpl. intros a [Pa| ->]; [apply I2 in Pa|]; lia.
  - rewrite app_length. simpl. intros a Pa. apply I3 in Pa. lia.
  - intros a [Pa| ->] Ra; [eauto|]. apply I3 in Ra. lia.
  - intros a o' [Pa| ->] N.
    + rewrite nth_error_app1 in N by auto. eapply obj_in_impl; [|exact (I5 _ _ Pa N)]. cbv beta. auto.
    + rewrite nth_error_app2, Nat.sub_diag in N by auto. injection N as <-. eapply obj_in_impl; [|exact O]. cbv beta. auto.
  - intros a o' Pa N. rewrite nth_error_app1 in N by auto. exact (I6 _ _ Pa N).
  - apply Forall_app. split; [|constructor; [simpl; auto|constructor]]. eapply Forall_impl; [|exact I7]. intros v. apply val_in_impl. auto.
  - eapply poses_mono; [|exact I8]. intros a Pa. split; auto. rewrite nth_error_app1; auto.
Qed.

(* the program changes one of its objects *)
Lemma write_pub w Pub Pri a o : inv w Pub Pri -> Pub a -> obj_in Pub o -> keys_ok o ->
  inv (in_heap w (write (w_heap w) a o)) Pub Pri /\ keeps w (in_heap w (write (w_heap w) a o)) Pri Pri.
Proof.
  intros I Pa O K.
  assert (Ob : obj_in (fun x => x < length (w_heap w)) o) by (eapply obj_in_impl; [|exact O]; apply (iv_pub _ _ _ I)).
  destruct I as [I1 I2 I3 I4 I5 I6 I7 I8 I9].
  assert (Pk : forall b, Pri b -> Pri b /\ nth_error (write (w_heap w) a o) b = nth_error (w_heap w) b).
  { intros b Pb. split; auto. apply write_other. intros ->. eauto. }
  split.
  - constructor; cbn [w_heap w_vars w_poses w_extras in_heap]; rewrite ?write_length; auto.
    + intros b o' N. rewrite write_length. destruct (Nat.eq_dec b a) as [->|Nb].
      * rewrite write_same in N by auto. injection N as <-. auto.
      * rewrite write_other in N by auto. exact (I1 _ _ N).
    + intros b o' Pb N. destruct (Nat.eq_dec b a) as [->|Nb].
      * rewrite write_same in N by auto. injection N as <-. auto.
      * rewrite write_other in N by auto. exact (I5 _ _ Pb N).
    + intros b o' Pb N. destruct (Pk b Pb) as [_ E]. rewrite E in N. exact (I6 _ _ Pb N).
    + eapply poses_mono; eauto.
  - split; [exact Pk|]. split; exists []; rewrite app_nil_r; auto.
Qed.

Lemma keeps_refl w h' vs (Pri : nat -> Prop) : (forall a, Pri a -> nth_error h' a = nth_error (w_heap w) a) ->
  keeps w (mkW h' vs (w_poses w) (w_extras w)) Pri Pri.
Proof. intros H. split; [intros a Pa; auto|]. split; exists []; rewrite app_nil_r; auto. Qed.

Lemma get_dict_ok h v a d : get_dict h v = Ok (a, d) -> v = HRef a /\ nth_error h a = Some (HDict d).
Proof. destruct v as [x|b]; simpl; [discriminate|]. destruct (nth_error h b) as [[d'|l]|] eqn:E; try discriminate. intros H. injection H as <- <-. auto. Qed.
Lemma get_list_ok h v a l : get_list h v = Ok (a, l) -> v = HRef a /\ nth_error h a = Some (HList l).
Proof. destruct v as [x|b]; simpl; [discriminate|]. destruct (nth_error h b) as [[d'|l']|] eqn:E; try discriminate. intros H. injection H as <- <-. auto. Qed.

Lemma var_ok w i v (P : hval -> Prop) : Forall P (w_vars w) -> var w i = Ok v -> P v.
Proof.
  unfold var. intros F H. destruct (nth_error (w_vars w) i) eqn:E; [|discriminate]. injection H as <-.
  rewrite Forall_forall in F. apply F. eapply nth_error_In; eauto.
Qed.
Lemma nth_ok {A} (l : list A) i v e (P : A -> Prop) : Forall P l -> of_option e (nth_error l i) = Ok v -> P v.
Proof. intros F H. destruct (nth_error l i) eqn:E; [|discriminate]. injection H as <-. rewrite Forall_forall in F. apply F. eapply nth_error_In; eauto. Qed.

Lemma dict_set_vals (P : hval -> Prop) (d : dict hval) k v : Forall P (map snd d) -> P v -> Forall P (map snd (dict_set d k v)).
Proof.
  induction d as [|[k' v'] d IH]; intros F Hv; simpl in *; auto. inversion F; subst. destruct (str_eqb k k'); simpl; constructor; auto.
Qed.
Lemma dict_set_keys (d : dict hval) k v : dict_ok d -> dict_ok (dict_set d k v).
Proof. intros H. apply dict_set_ok. auto. Qed.
Lemma dict_update_vals (P : hval -> Prop) e : forall d : dict hval, Forall P (map snd d) -> Forall P (map snd e) -> Forall P (map snd (dict_update d e)).
Proof.
  unfold dict_update. induction e as [|[k v] e IH]; intros d F G; simpl in *; auto. inversion G; subst. apply IH; auto. apply dict_set_vals; auto.
Qed.
Lemma dict_del_vals (P : hval -> Prop) (d : dict hval) k : Forall P (map snd d) -> Forall P (map snd (dict_del d k)).
Proof. induction d as [|[k' v'] d IH]; intros F; simpl in *; auto. inversion F; subst. destruct (negb _); simpl; auto. Qed.
Lemma dict_del_ok (d : dict hval) k : dict_ok d -> dict_ok (dict_del d k).
Proof.
  unfold dict_ok, dict_keys, dict_del. induction d as [|[k' v'] d IH]; intros F; simpl in *; auto. inversion F; subst.
  destruct (negb _); simpl; auto. constructor; auto. intros H. apply H1. apply in_map_iff in H. destruct H as (x & E & Hx).
  apply filter_In in Hx. apply in_map_iff. exists x. tauto.
Qed.
Lemma set_nth_vals (P : hval -> Prop) l : forall i v, Forall P l -> P v -> Forall P (set_nth l i v).
Proof. induction l as [|x l IH]; intros [|i] v F Hv; simpl; auto; inversion F; subst; constructor; auto. Qed.
Lemma removelast_vals (P : hval -> Prop) l : Forall P l -> Forall P (removelast l).
Proof.
  intros F. destruct l as [|x l] using rev_ind; auto. rewrite removelast_last. apply Forall_app in F. tauto.
Qed.
Lemma last_vals (P : hval -> Prop) l v : Forall P l -> hd_error (rev l) = Some v -> P v.
Proof.
  intros F. destruct l as [|x l] using rev_ind; simpl; [discriminate|]. rewrite rev_app_distr. simpl. intros H. injection H as <-.
  apply Forall_app in F. destruct F as [_ F]. inversion F; auto.
Qed.

Lemma atoms_vals P (d : dict hval) : Forall (fun kv => exists x, snd kv = HAtom x) d -> Forall (val_in P) (map snd d).
Proof. intros F. apply Forall_map. eapply Forall_impl; [|exact F]. intros kv (x & ->). exact I. Qed.

(* a fresh copy for the program *)
Lemma copy_pub w Pub Pri v h' v' : inv w Pub Pri -> val_in (fun a => a < length (w_heap w)) v -> deepcopy (w_heap w) v = Ok (h', v') ->
  exists Pub', inv (push w (h', v')) Pub' Pri /\ keeps w (push w (h', v')) Pri Pri.
Proof.
  intros I Hv E. destruct (deepcopy_ok _ _ (iv_wf _ _ _ I) Hv) as (h1 & v1 & E1 & W & L & F & V & C & _). rewrite E in E1. injection E1 as <- <-.
  destruct (grow w h' (fresh (w_heap w) h') Pub Pri I W L F (fun a H => H)) as [G _]. specialize (G C).
  exists (fun a => Pub a \/ fresh (w_heap w) h' a). split.
  - apply (add_var _ _ _ v') in G; [exact G|]. eapply val_in_impl; [|exact V]. auto.
  - apply keeps_refl. intros a Pa. apply F, (iv_pri _ _ _ I), Pa.
Qed.

(* a fresh copy for a new TokenExtras *)
Lemma copy_pri w Pub Pri h1 v h' v' : inv w Pub Pri -> heap_wf h1 -> length (w_heap w) <= length h1 ->
  (forall a, a < length (w_heap w) -> nth_error h1 a = nth_error (w_heap w) a) ->
  val_in (fun a => a < length h1) v -> deepcopy h1 v = Ok (h', v') ->
  exists Pri', inv (mkW h' (w_vars w) (w_poses w) (w_extras w ++ [v'])) Pub Pri' /\ keeps w (mkW h' (w_vars w) (w_poses w) (w_extras w ++ [v'])) Pri Pri'.
Proof.
  intros I W1 L1 F1 Hv E. destruct (deepcopy_ok _ _ W1 Hv) as (h2 & v2 & E2 & W & L & F & V & C & _). rewrite E in E2. injection E2 as <- <-.
  assert (F' : forall a, a < length (w_heap w) -> nth_error h' a = nth_error (w_heap w) a) by (intros a Ha; rewrite F by lia; auto).
  destruct (grow w h' (fresh h1 h') Pub Pri I W) as [_ G]; auto; [lia|unfold fresh; intros; lia|]. specialize (G C).
  exists (fun a => Pri a \/ fresh h1 h' a). split.
  - destruct G as [I1 I2 I3 I4 I5 I6 I7 I8 I9]. constructor; cbn [w_heap w_vars w_poses w_extras in_heap] in *; auto.
    apply Forall_app. split; auto. constructor; [|constructor]. eapply val_in_impl; [|exact V]. auto.
  - split; [|split]; cbn [w_heap w_poses w_extras].
    + intros a Pa. split; auto. apply F'. apply (iv_pri _ _ _ I), Pa.
    + exists []. rewrite app_nil_r. auto.
    + exists [v']. auto.
Qed.

Lemma new_pri_dict w Pub Pri d u x : inv w Pub Pri -> Forall (fun kv => exists y, snd kv = HAtom y) d -> dict_ok d ->
  let w' := mkW (w_heap w ++ [HDict d]) (w_vars w) (w_poses w ++ [mkHPos u x (HRef (length (w_heap w)))]) (w_extras w) in
  exists Pri', inv w' Pub Pri' /\ keeps w w' Pri Pri'.
Proof.
  intros I F K w'. set (n := length (w_heap w)).
  assert (W := heap_wf_app _ (HDict d) (iv_wf _ _ _ I) (atoms_vals _ d F) K).
  assert (Fr : forall a, a < n -> nth_error (w_heap w ++ [HDict d]) a = nth_error (w_heap w) a) by (intros; apply nth_error_app1; auto).
  assert (Nn : nth_error (w_heap w ++ [HDict d]) n = Some (HDict d)) by (unfold n; rewrite nth_error_app2, Nat.sub_diag; auto).
  destruct (grow w (w_heap w ++ [HDict d]) (fun a => a = n) Pub Pri I W) as [_ G]; auto; try (rewrite app_length; simpl; fold n; intros; lia).
  assert (C : closed (w_heap w ++ [HDict d]) (fun a => a = n)).
  { intros a o -> N. rewrite Nn in N. injection N as <-. apply atoms_vals. auto. }
  specialize (G C). exists (fun a => Pri a \/ a = n). split.
  - destruct G as [I1 I2 I3 I4 I5 I6 I7 I8 I9]. constructor; cbn [w_heap w_vars w_poses w_extras in_heap w'] in *; auto.
    apply Forall_app. split; auto. constructor; [|constructor]. exists n, d. auto.
  - split; [|split]; cbn [w_heap w_poses w_extras w'].
    + intros a Pa. split; auto. apply Fr. apply (iv_pri _ _ _ I), Pa.
    + eexists. reflexivity.
    + exists []. rewrite app_nil_r. auto.
Qed.

Ltac open1 H x E := apply bind_ok_iff in H; destruct H as (x & E & H).
Ltac opened H := repeat (let x := fresh "r" in let E := fresh "E" in apply bind_ok_iff in H; destruct H as (x & E & H)).

Lemma keeps_same w (Pri : nat -> Prop) : keeps w w Pri Pri.
Proof. split; [auto|]. split; exists []; rewrite app_nil_r; auto. Qed.

Lemma attempt_inv w Pub Pri o w' : inv w Pub Pri -> well_typed w o -> attempt w o = Ok w' ->
  exists Pub' Pri', inv w' Pub' Pri' /\ keeps w w' Pri Pri'.
Proof.
  intros I T H. assert (Iv := iv_vars _ _ _ I). assert (Wf := iv_wf _ _ _ I).
  assert (DP : forall dv a d, val_in Pub dv -> get_dict (w_heap w) dv = Ok (a, d) -> Pub a /\ Forall (val_in Pub) (map snd d) /\ dict_ok d).
  { intros dv a d V G. apply get_dict_ok in G. destruct G as [-> N]. simpl in V. split; auto. split; [exact (iv_cpub _ _ _ I _ _ V N)|].
    exact (proj2 (Wf _ _ N)). }
  assert (LP : forall dv a l, val_in Pub dv -> get_list (w_heap w) dv = Ok (a, l) -> Pub a /\ Forall (val_in Pub) l).
  { intros dv a l V G. apply get_list_ok in G. destruct G as [-> N]. simpl in V. split; auto. exact (iv_cpub _ _ _ I _ _ V N). }
  assert (VP : forall i v, var w i = Ok v -> val_in Pub v) by (intros i v; apply var_ok; auto).
  assert (PO : forall v, val_in Pub v -> inv (push w (w_heap w, v)) Pub Pri /\ keeps w (push w (w_heap w, v)) Pri Pri).
  { intros v V. split; [apply add_var; auto|apply keeps_refl; auto]. }
  assert (AL : forall o0, obj_in Pub o0 -> keys_ok o0 -> exists Pub' Pri', inv (push w (new_obj (w_heap w) o0)) Pub' Pri' /\ keeps w (push w (new_obj (w_heap w) o0)) Pri Pri').
  { intros o0 A B. destruct (alloc_pub _ _ _ _ I A B) as (Pub' & J & _). exists Pub', Pri. split; auto. apply keeps_refl.
    intros a Pa. cbn [new_obj fst]. apply nth_error_app1, (iv_pri _ _ _ I), Pa. }
  destruct o; cbn [attempt] in H.
  - injection H as <-. exists Pub, Pri. apply PO. exact Logic.I.
  - injection H as <-. apply AL; constructor.
  - injection H as <-. apply AL; constructor.
  - (* x = d[k] *) opened H. destruct r0 as [a dd]. cbn [snd] in *. injection H as <-. exists Pub, Pri. apply PO.
    destruct (DP _ _ _ (VP _ _ E) E0) as (_ & Fd & _). destruct (dict_get dd k) as [v|] eqn:G; [|discriminate]. injection E1 as <-.
    eapply dict_get_vals; eauto.
  - (* d[k] = v *) opened H. destruct r0 as [a dd]. cbn [fst snd] in *. injection H as <-. exists Pub, Pri.
    destruct (DP _ _ _ (VP _ _ E) E0) as (Pa & Fd & Kd). apply write_pub; auto.
    + apply dict_set_vals; eauto.
    + apply dict_set_keys; auto.
  - opened H. destruct r0 as [a dd]. cbn [fst snd] in *. injection H as <-. exists Pub, Pri.
    destruct (DP _ _ _ (VP _ _ E) E0) as (Pa & Fd & Kd). apply write_pub; auto.
    + apply dict_del_vals; eauto.
    + apply dict_del_ok; auto.
  - opened H. destruct r0 as [a dd]. cbn [fst snd] in *. injection H as <-. exists Pub, Pri.
    destruct (DP _ _ _ (VP _ _ E) E0) as (Pa & Fd & Kd). apply write_pub; auto; constructor.
  - opened H. destruct r0 as [a dd], r2 as [a2 d2]. cbn [fst snd] in *. injection H as <-. exists Pub, Pri.
    destruct (DP _ _ _ (VP _ _ E) E0) as (Pa & Fd & Kd). destruct (DP _ _ _ (VP _ _ E1) E2) as (_ & Fd2 & _). apply write_pub; auto.
    + apply dict_update_vals; auto.
    + apply dict_update_ok; auto.
  - opened H. destruct r0 as [a ll]. cbn [fst snd] in *. injection H as <-. exists Pub, Pri. apply PO.
    destruct (LP _ _ _ (VP _ _ E) E0) as (_ & Fl). eapply nth_ok; eauto.
  - opened H. destruct r0 as [a ll]. cbn [fst snd] in *. injection H as <-. exists Pub, Pri.
    destruct (LP _ _ _ (VP _ _ E) E0) as (Pa & Fl). apply write_pub; auto; try exact Logic.I. apply set_nth_vals; eauto.
  - opened H. destruct r0 as [a ll]. cbn [fst snd] in *. injection H as <-. exists Pub, Pri.
    destruct (LP _ _ _ (VP _ _ E) E0) as (Pa & Fl). apply write_pub; auto; try exact Logic.I. apply Forall_app. split; eauto.
  - opened H. destruct r0 as [a ll]. cbn [fst snd] in *. injection H as <-. exists Pub, Pri.
    destruct (LP _ _ _ (VP _ _ E) E0) as (Pa & Fl). destruct (hd_error (rev ll)) as [v|] eqn:Hv; [|discriminate]. injection E1 as <-.
    destruct (write_pub w Pub Pri a (HList (removelast ll)) I Pa (removelast_vals _ _ Fl) Logic.I) as [J Kp]. split.
    + apply (add_var _ _ _ v) in J; [exact J|]. eapply last_vals; eauto.
    + destruct Kp as (A & B & C). split; auto.
  - (* Pos *) opened H. destruct r0 as [h1 p1]. cbn [fst snd] in *. injection H as <-. unfold new_pos in E0. opened E0. destruct r0 as [h2 v2]. cbn [fst snd] in *.
    injection E0 as <- <-. exists Pub.
    assert (X : exists d, (h2, v2) = new_obj (w_heap w) (HDict d) /\ Forall (fun kv => exists y, snd kv = HAtom y) d /\ dict_ok d).
    { unfold var in E. destruct (nth_error (w_vars w) feats) as [fv|] eqn:Nf; [|discriminate]. injection E as <-.
      assert (Y : dict_copy (w_heap w) fv = Ok (h2, v2) -> exists d, (h2, v2) = new_obj (w_heap w) (HDict d) /\ Forall (fun kv => exists y, snd kv = HAtom y) d /\ dict_ok d).
      { intros Y. unfold dict_copy in Y. opened Y. destruct r as [a d]. apply get_dict_ok in E. destruct E as [-> Na]. cbn [snd] in Y.
        exists d. split; [congruence|]. split; [|exact (proj2 (Wf _ _ Na))]. apply Forall_forall. intros [k v] Hkv. eapply T; eauto. }
      destruct fv as [[| | |]|a]; auto. injection E1 as <- <-. exists []. repeat split; constructor. }
    destruct X as (d & X & Fd & Kd). injection X as -> ->. apply (new_pri_dict w Pub Pri d u x I Fd Kd).
  - (* feats *) opened H. injection H as <-. unfold pos_feats, dict_copy in E0. opened E0. destruct r1 as [a d]. cbn [snd] in *.
    injection E0 as <-.
    destruct (nth_ok _ _ _ _ _ (iv_poses _ _ _ I) E) as (a' & d' & Ef & Pa & Na & Fd).
    rewrite Ef in E1. simpl in E1. rewrite Na in E1. injection E1 as <- <-. apply AL; [apply atoms_vals; auto|exact (proj2 (Wf _ _ Na))].
  - (* feature *) opened H. injection H as <-. exists Pub, Pri. apply PO. unfold pos_feature in E0. opened E0. destruct r1 as [a d]. cbn [snd] in *. injection E0 as <-.
    destruct (nth_ok _ _ _ _ _ (iv_poses _ _ _ I) E) as (a' & d' & Ef & Pa & Na & Fd).
    rewrite Ef in E1. simpl in E1. rewrite Na in E1. injection E1 as <- <-. destruct (dict_get d' k) as [v|] eqn:G; [|exact Logic.I].
    eapply dict_get_vals; [|exact G]. apply atoms_vals. auto.
  - (* TokenExtras *) opened H. destruct r0 as [h' v']. cbn [fst snd] in *. injection H as <-. exists Pub.
    apply (copy_pri w Pub Pri (w_heap w) r h' v'); auto. eapply val_in_impl; [apply (iv_pub _ _ _ I)|]. eapply VP; eauto.
  - opened H. destruct r0 as [h' v']. injection H as <-. unfold extras_get in E0. open1 E0 r0 E1. open1 E0 r1 E2. destruct r0 as [a d]. cbn [snd] in *.
    assert (V := nth_ok _ _ _ _ _ (iv_extras _ _ _ I) E). apply get_dict_ok in E1. destruct E1 as [-> Na].
    destruct (dict_get d k) as [v|] eqn:G; [|discriminate]. injection E2 as <-.
    assert (Vv : val_in Pri v) by (eapply dict_get_vals; [exact (iv_cpri _ _ _ I _ _ V Na)|exact G]).
    destruct (copy_pub w Pub Pri v h' v' I (val_in_impl _ _ _ (iv_pri _ _ _ I) Vv) E0) as (Pub' & J). exists Pub', Pri. exact J.
  - opened H. destruct r0 as [h' v']. injection H as <-. assert (V := nth_ok _ _ _ _ _ (iv_extras _ _ _ I) E).
    destruct (copy_pub w Pub Pri r h' v' I (val_in_impl _ _ _ (iv_pri _ _ _ I) V) E0) as (Pub' & J). exists Pub', Pri. exact J.
  - (* update *) opened H. destruct r1 as [h' v']. cbn [fst snd] in *. injection H as <-. exists Pub.
    assert (V := nth_ok _ _ _ _ _ (iv_extras _ _ _ I) E). assert (Vu := VP _ _ E0).
    unfold extras_update in E1. destruct (falsy (w_heap w) r0) eqn:Fy.
    + injection E1 as <- <-. exists Pri. split.
      * destruct I as [I1 I2 I3 I4 I5 I6 I7 I8 I9]. constructor; cbn [w_heap w_vars w_poses w_extras]; auto.
        apply Forall_app. split; auto.
      * split; [auto|]. split; [exists []; rewrite app_nil_r; auto|exists [r]; auto].
    + open1 E1 r1 E2. open1 E1 r2 E3. open1 E1 r3 E4. unfold dict_copy in E2. open1 E2 r4 E5. destruct r4 as [ae de]. cbn [snd] in E2. injection E2 as <-. cbn [fst snd new_obj] in *.
      apply get_dict_ok in E5. destruct E5 as [-> Ne]. simpl in V.
      destruct r2 as [a2 d2]. apply get_dict_ok in E3. destruct E3 as [X N2]. injection X as <-.
      rewrite nth_error_app2, Nat.sub_diag in N2 by auto. injection N2 as <-.
      destruct r3 as [au du]. apply get_dict_ok in E4. destruct E4 as [-> Nu]. cbn [fst snd] in *. simpl in Vu.
      assert (Lu := iv_pub _ _ _ I _ Vu). rewrite nth_error_app1 in Nu by auto.
      assert (Wr : write (w_heap w ++ [HDict de]) (length (w_heap w)) (HDict (dict_update de du)) = w_heap w ++ [HDict (dict_update de du)]).
      { clear. induction (w_heap w) as [|y h IHh]; simpl; auto. rewrite IHh. auto. }
      rewrite Wr in E1. eapply (copy_pri w Pub Pri _ _ h' v' I); [| | | |exact E1].
      * apply heap_wf_app; auto.
        -- unfold obj_in. cbn [vals]. apply dict_update_vals; [exact (proj1 (Wf _ _ Ne))|exact (proj1 (Wf _ _ Nu))].
        -- apply dict_update_ok. exact (proj2 (Wf _ _ Ne)).
      * rewrite app_length. lia.
      * intros a Ha. apply nth_error_app1; auto.
      * simpl. rewrite app_length. simpl. lia.
Qed.

Lemma step_inv w Pub Pri o : inv w Pub Pri -> well_typed w o -> exists Pub' Pri', inv (step w o) Pub' Pri' /\ keeps w (step w o) Pri Pri'.
Proof.
  intros I T. unfold step. destruct (attempt w o) as [w'|e] eqn:E; [eapply attempt_inv; eauto|].
  exists Pub, Pri. split; auto. apply keeps_same.
Qed.

Lemma keeps_trans w1 w2 w3 P1 P2 P3 : keeps w1 w2 P1 P2 -> keeps w2 w3 P2 P3 -> keeps w1 w3 P1 P3.
Proof.
  intros (A1 & (p1 & B1) & (e1 & C1)) (A2 & (p2 & B2) & (e2 & C2)). split; [|split].
  - intros a Pa. destruct (A1 a Pa) as [X1 Y1]. destruct (A2 a X1) as [X2 Y2]. split; auto. congruence.
  - exists (p1 ++ p2). rewrite B2, B1, app_assoc. auto.
  - exists (e1 ++ e2). rewrite C2, C1, app_assoc. auto.
Qed.

Lemma run_inv ops : forall w Pub Pri, inv w Pub Pri -> typed w ops -> exists Pub' Pri', inv (run w ops) Pub' Pri' /\ keeps w (run w ops) Pri Pri'.
Proof.
  unfold run. induction ops as [|o ops IH]; intros w Pub Pri I T; cbn [fold_left].
  - exists Pub, Pri. split; auto. apply keeps_same.
  - destruct T as [T1 T2]. destruct (step_inv w Pub Pri o I T1) as (Pub1 & Pri1 & I1 & K1).
    destruct (IH _ _ _ I1 T2) as (Pub2 & Pri2 & I2 & K2). exists Pub2, Pri2. split; auto. eapply keeps_trans; eauto.
Qed.

Lemma empty_inv : inv empty_world (fun _ => False) (fun _ => False).
Proof.
  constructor; cbn; auto; try tauto; try (intros a o H; destruct a; discriminate); try (intros a o []).
Qed.

Lemma reached_inv w : reached w -> exists Pub Pri, inv w Pub Pri.
Proof. intros (ops & T & ->). destruct (run_inv ops _ _ _ empty_inv T) as (Pub & Pri & I & _). eauto. Qed.

Lemma frozen w ops : reached w -> typed w ops ->
  (forall i p, nth_error (w_poses w) i = Some p -> nth_error (w_poses (run w ops)) i = Some p /\
     forall path, look (w_heap (run w ops)) (hp_feats p) path = look (w_heap w) (hp_feats p) path) /\
  (forall i e, nth_error (w_extras w) i = Some e -> nth_error (w_extras (run w ops)) i = Some e /\
     forall path, look (w_heap (run w ops)) e path = look (w_heap w) e path).
Proof.
  intros R T. destruct (reached_inv w R) as (Pub & Pri & I). destruct (run_inv ops w Pub Pri I T) as (Pub' & Pri' & I' & (A & (ps & B) & (es & C))).
  assert (L : forall v, val_in Pri v -> forall path, look (w_heap (run w ops)) v path = look (w_heap w) v path).
  { intros v V path. apply (look_frame _ _ Pri); auto; [apply (iv_cpri _ _ _ I)|]. intros a Pa. apply A. auto. }
  split; intros i x Hi.
  - split.
    + rewrite B, nth_error_app1; auto. apply nth_error_Some. congruence.
    + intros path. apply L. assert (F := iv_poses _ _ _ I). rewrite Forall_forall in F. destruct (F x (nth_error_In _ _ Hi)) as (a & d & -> & Pa & _). exact Pa.
  - split.
    + rewrite C, nth_error_app1; auto. apply nth_error_Some. congruence.
    + intros path. apply L. assert (F := iv_extras _ _ _ I). rewrite Forall_forall in F. apply F. eapply nth_error_In; eauto.
Qed.
