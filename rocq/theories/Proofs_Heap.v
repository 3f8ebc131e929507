(* deepcopy makes a separate equal copy. *)
From Coq Require Import ZArith NArith Bool Lia List.
From Verif Require Import Base BaseFacts Proofs_Datamodel Model_Heap Spec_Heap.
Import ListNotations.
Open Scope nat_scope.

(* ---- heaps ---- *)

Definition vals (o : hobj) : list hval := match o with HDict d => map snd d | HList l => l end.
Definition val_in (P : nat -> Prop) (v : hval) : Prop := match v with HRef a => P a | HAtom _ => True end.
Definition obj_in (P : nat -> Prop) (o : hobj) : Prop := Forall (val_in P) (vals o).
Definition keys_ok (o : hobj) : Prop := match o with HDict d => dict_ok d | HList _ => True end.
Definition heap_wf (h : heap) : Prop :=
  forall a o, nth_error h a = Some o -> obj_in (fun x => x < length h) o /\ keys_ok o.
Definition closed (h : heap) (P : nat -> Prop) : Prop := forall a o, P a -> nth_error h a = Some o -> obj_in P o.

Lemma val_in_impl (P Q : nat -> Prop) v : (forall a, P a -> Q a) -> val_in P v -> val_in Q v.
Proof. destruct v; simpl; auto. Qed.
Lemma obj_in_impl (P Q : nat -> Prop) o : (forall a, P a -> Q a) -> obj_in P o -> obj_in Q o.
Proof. intros H. apply Forall_impl. intros v. apply val_in_impl. auto. Qed.

Lemma write_length h a o : length (write h a o) = length h.
Proof. revert a. induction h as [|x h IH]; intros [|a]; simpl; auto. Qed.
Lemma write_same h a o : a < length h -> nth_error (write h a o) a = Some o.
Proof. revert a. induction h as [|x h IH]; intros [|a] H; simpl in *; auto; try lia. apply IH. lia. Qed.
Lemma write_other h a o b : b <> a -> nth_error (write h a o) b = nth_error h b.
Proof. revert a b. induction h as [|x h IH]; intros [|a] [|b] H; simpl; auto; try congruence. Qed.

Lemma dict_get_vals (d : dict hval) k v P : Forall (val_in P) (map snd d) -> dict_get d k = Some v -> val_in P v.
Proof.
  intros H G. apply dict_get_In in G. rewrite Forall_forall in H. apply H. apply in_map_iff. exists (k, v). auto.
Qed.

Lemma look_frame h h' (P : nat -> Prop) : closed h P -> (forall a, P a -> nth_error h' a = nth_error h a) ->
  forall path v, val_in P v -> look h' v path = look h v path.
Proof.
  intros C F. induction path as [|s path IH]; intros v Hv; cbn [look].
  - destruct v as [x|a]; auto. simpl in *. rewrite F; auto.
  - assert (E : inside h' v s = inside h v s) by (destruct v as [x|a]; auto; simpl in *; rewrite F; auto).
    rewrite E. destruct (inside h v s) as [v'|] eqn:I; auto. apply IH. destruct v as [x|a]; [discriminate|]. simpl in Hv.
    unfold inside in I. destruct s as [k|i]; destruct (nth_error h a) as [[d|l]|] eqn:N; try discriminate.
    + apply (dict_get_vals d k); auto. exact (C _ _ Hv N).
    + assert (X := C _ _ Hv N). unfold obj_in in X. simpl in X. rewrite Forall_forall in X. apply X. eapply nth_error_In; eauto.
Qed.

(* ---- deepcopy ---- *)

Definition ext (m m' : memo) : Prop := forall a b, memo_get m a = Some b -> memo_get m' a = Some b.

Definition rval (m : memo) (v v' : hval) : Prop :=
  match v, v' with
  | HAtom x, HAtom y => x = y
  | HRef a, HRef b => memo_get m a = Some b
  | _, _ => False
  end.
Definition robj (m : memo) (o o' : hobj) : Prop :=
  match o, o' with
  | HDict d, HDict d' => Forall2 (fun kv kv' => fst kv = fst kv' /\ rval m (snd kv) (snd kv')) d d'
  | HList l, HList l' => Forall2 (rval m) l l'
  | _, _ => False
  end.

Lemma rval_ext m m' v v' : ext m m' -> rval m v v' -> rval m' v v'.
Proof. destruct v, v'; simpl; auto. Qed.
Lemma robj_ext m m' o o' : ext m m' -> robj m o o' -> robj m' o o'.
Proof.
  intros E. destruct o, o'; simpl; auto; intros H; eapply Forall2_impl; try exact H.
  - intros x y [A B]. split; auto. eapply rval_ext; eauto.
  - intros x y. apply rval_ext. auto.
Qed.
Lemma ext_refl m : ext m m.
Proof. intros a b H. auto. Qed.
Lemma ext_trans m1 m2 m3 : ext m1 m2 -> ext m2 m3 -> ext m1 m3.
Proof. intros A B a b H. auto. Qed.

Section Deep.
Variable h0 : heap.
Hypothesis wf0 : heap_wf h0.
Let n0 := length h0.

Record state_ok (s : copy_state) : Prop := {
  so_frame : forall a, a < n0 -> nth_error (snd s) a = nth_error h0 a;
  so_len : n0 <= length (snd s);
  so_memo : forall a b, memo_get (fst s) a = Some b -> a < n0 /\ n0 <= b < length (snd s);
  so_nodup : NoDup (map fst (fst s)) }.

Definition complete (s' : copy_state) (a b : nat) : Prop :=
  exists o o', nth_error h0 a = Some o /\ nth_error (snd s') b = Some o' /\ robj (fst s') o o'.

(* what a part of the copying does, apart from the object [hole] *)
Record progress (hole : nat -> Prop) (s s' : copy_state) : Prop := {
  pr_ok : state_ok s';
  pr_ext : ext (fst s) (fst s');
  pr_len : length (snd s) <= length (snd s');
  pr_memo_len : length (fst s) <= length (fst s');
  pr_same : forall x, x < length (snd s) -> ~ hole x -> nth_error (snd s') x = nth_error (snd s) x;
  pr_new : forall a b, memo_get (fst s') a = Some b -> memo_get (fst s) a = Some b \/ (length (snd s) <= b /\ complete s' a b);
  pr_all : forall x, length (snd s) <= x < length (snd s') -> exists a, memo_get (fst s') a = Some x }.

Lemma memo_get_in m a : memo_get m a = None <-> ~ In a (map fst m).
Proof.
  induction m as [|[x y] m IH]; simpl; [tauto|]. destruct (Nat.eqb_spec a x); [subst; split; [discriminate|tauto]|].
  rewrite IH. split; intros H; [intros [E|E]; [congruence|tauto]|tauto].
Qed.

Lemma memo_short s : state_ok s -> forall a, memo_get (fst s) a = None -> a < n0 -> length (fst s) < n0.
Proof.
  intros O a N L. assert (H : incl (a :: map fst (fst s)) (seq 0 n0)).
  { intros x [<-|Hx]; apply in_seq; [lia|]. destruct (memo_get (fst s) x) eqn:E; [|apply memo_get_in in E; tauto].
    apply (so_memo _ O) in E. lia. }
  apply NoDup_incl_length in H.
  - simpl in H. rewrite map_length, seq_length in H. lia.
  - constructor; [apply memo_get_in; auto|apply (so_nodup _ O)].
Qed.

Section Loop.
Context {A : Type} (copy : copy_state -> hval -> result (copy_state * hval)) (val : A -> hval) (put : heap -> A -> hval -> heap).
Variables (build : list (A * hval) -> hobj) (b : nat) (items : list A) (bound : nat).
Hypothesis copy_ok : forall s v, state_ok s -> val_in (fun x => x < n0) v -> bound <= length (fst s) ->
  exists s' v', copy s v = Ok (s', v') /\ progress (fun _ => False) s s' /\ rval (fst s') v v'.
Hypothesis put_ok : forall h done x v rest, items = map fst done ++ x :: rest -> nth_error h b = Some (build done) ->
  put h x v = write h b (build (done ++ [(x, v)])).
Hypothesis items_in : Forall (fun x => val_in (fun y => y < n0) (val x)) items.

Lemma loop_ok : forall rest done s, items = map fst done ++ rest -> state_ok s -> n0 <= b < length (snd s) ->
  nth_error (snd s) b = Some (build done) -> bound <= length (fst s) -> Forall (fun xv => rval (fst s) (val (fst xv)) (snd xv)) done ->
  exists s' done', copy_loop copy val put s rest = Ok s' /\ progress (fun x => x = b) s s' /\
    nth_error (snd s') b = Some (build done') /\ map fst done' = items /\
    Forall (fun xv => rval (fst s') (val (fst xv)) (snd xv)) done'.
Proof.
  induction rest as [|x rest IH]; intros done s E O Hb Hd Bd Rd; cbn [copy_loop].
  - exists s, done. rewrite app_nil_r in E. split; auto. split; [|auto].
    constructor; auto using ext_refl; try lia.
  - assert (Hx : val_in (fun y => y < n0) (val x)).
    { rewrite Forall_forall in items_in. apply items_in. rewrite E. apply in_app_iff. right. left. auto. }
    destruct (copy_ok s (val x) O Hx Bd) as (s1 & v' & -> & P1 & R1).
    assert (Hb1 : nth_error (snd s1) b = Some (build done)) by (rewrite (pr_same _ _ _ P1); auto; lia).
    rewrite (put_ok _ done x v' rest E Hb1).
    set (s2 := (fst s1, write (snd s1) b (build (done ++ [(x, v')])))).
    assert (L1 : b < length (snd s1)) by (assert (Y := pr_len _ _ _ P1); lia).
    assert (O2 : state_ok s2).
    { destruct (pr_ok _ _ _ P1) as [F1 F2 F3 F4]. constructor; unfold s2; cbn [fst snd]; try rewrite write_length; auto.
      intros a Ha. rewrite write_other by lia. auto. }
    destruct (IH (done ++ [(x, v')]) s2) as (s' & done' & Ec & P2 & Hb' & Em & Rd').
    + rewrite map_app, <- app_assoc. exact E.
    + exact O2.
    + unfold s2. cbn [snd]. rewrite write_length. lia.
    + unfold s2. cbn [snd]. apply write_same. auto.
    + assert (X := pr_memo_len _ _ _ P1). unfold s2. cbn [fst]. lia.
    + apply Forall_app. split.
      * eapply Forall_impl; [|exact Rd]. intros y. apply rval_ext. apply (pr_ext _ _ _ P1).
      * repeat constructor. exact R1.
    + exists s', done'. split; [exact Ec|]. split; [|auto].
      assert (Hs2 : length (snd s2) = length (snd s1)) by (unfold s2; cbn [snd]; apply write_length).
      constructor.
      * apply (pr_ok _ _ _ P2).
      * eapply ext_trans; [apply (pr_ext _ _ _ P1)|apply (pr_ext _ _ _ P2)].
      * assert (X := pr_len _ _ _ P1). assert (Y := pr_len _ _ _ P2). lia.
      * assert (X := pr_memo_len _ _ _ P1). assert (Y := pr_memo_len _ _ _ P2). unfold s2 in Y. cbn [fst] in Y. lia.
      * intros y Hy Ny. rewrite (pr_same _ _ _ P2); auto; [|assert (X := pr_len _ _ _ P1); lia].
        unfold s2. cbn [snd]. rewrite write_other by auto. apply (pr_same _ _ _ P1); auto.
      * intros a c Hc. destruct (pr_new _ _ _ P2 a c Hc) as [Hc1|[Lc Cc]].
        -- destruct (pr_new _ _ _ P1 a c Hc1) as [Hc0|[Lc Cc]]; auto. right. split; auto.
           destruct Cc as (o & o' & N1 & N2 & R). exists o, o'. split; auto.
           assert (Lc' : c < length (snd s1)) by (apply nth_error_Some; congruence). split.
           ++ rewrite (pr_same _ _ _ P2) by lia. unfold s2. cbn [snd]. rewrite write_other by lia. auto.
           ++ eapply robj_ext; [|exact R]. apply (pr_ext _ _ _ P2).
        -- right. split; auto. assert (X := pr_len _ _ _ P1). lia.
      * intros y Hy. destruct (Nat.lt_ge_cases y (length (snd s1))) as [L|G].
        -- destruct (pr_all _ _ _ P1 y) as (a & Ha); [lia|]. exists a. apply (pr_ext _ _ _ P2). exact Ha.
        -- apply (pr_all _ _ _ P2). lia.
Qed.
End Loop.

Lemma alloc_ok s a : state_ok s -> memo_get (fst s) a = None -> a < n0 -> forall o, state_ok ((a, length (snd s)) :: fst s, snd s ++ [o]).
Proof.
  intros O N L o. destruct O as [F1 F2 F3 F4]. constructor; cbn [fst snd].
  - intros x Hx. rewrite nth_error_app1 by lia. auto.
  - rewrite app_length. lia.
  - intros x y. cbn [memo_get]. rewrite app_length. simpl length. destruct (Nat.eqb_spec x a).
    + intros E. injection E as <-. subst. lia.
    + intros E. apply F3 in E. lia.
  - simpl. constructor; auto. apply memo_get_in. auto.
Qed.

Lemma finish (hole_obj : hobj) s a s' o o' : state_ok s -> memo_get (fst s) a = None -> nth_error h0 a = Some o ->
  progress (fun x => x = length (snd s)) ((a, length (snd s)) :: fst s, snd s ++ [hole_obj]) s' ->
  nth_error (snd s') (length (snd s)) = Some o' -> robj (fst s') o o' ->
  progress (fun _ => False) s s' /\ memo_get (fst s') a = Some (length (snd s)).
Proof.
  intros O N No P Nb R. assert (G : memo_get (fst s') a = Some (length (snd s))).
  { apply (pr_ext _ _ _ P). cbn [fst memo_get]. rewrite Nat.eqb_refl. auto. }
  split; auto. assert (Lp := pr_len _ _ _ P). cbn [snd] in Lp. rewrite app_length in Lp. simpl in Lp. constructor.
  - apply (pr_ok _ _ _ P).
  - intros x y Hx. apply (pr_ext _ _ _ P). cbn [fst memo_get]. destruct (Nat.eqb_spec x a); auto. subst. congruence.
  - lia.
  - assert (X := pr_memo_len _ _ _ P). cbn [fst length] in X. lia.
  - intros x Hx _. rewrite (pr_same _ _ _ P); cbn [snd]; [|rewrite app_length; lia|lia]. apply nth_error_app1. auto.
  - intros x y Hy. destruct (pr_new _ _ _ P x y Hy) as [H1|[L C]].
    + cbn [fst memo_get] in H1. destruct (Nat.eqb_spec x a); auto. injection H1 as <-. subst. right. split; auto. exists o, o'. auto.
    + right. cbn [snd] in L. rewrite app_length in L. split; auto. lia.
  - intros x Hx. destruct (Nat.eq_dec x (length (snd s))) as [->|Nx]; [eauto|].
    apply (pr_all _ _ _ P). cbn [snd]. rewrite app_length. simpl. lia.
Qed.

Lemma progress_refl s : state_ok s -> progress (fun _ => False) s s.
Proof. intros O. constructor; auto using ext_refl; lia. Qed.

Lemma deep_ok : forall fuel s v, state_ok s -> val_in (fun x => x < n0) v -> n0 <= fuel + length (fst s) ->
  exists s' v', deep fuel s v = Ok (s', v') /\ progress (fun _ => False) s s' /\ rval (fst s') v v'.
Proof.
  induction fuel as [|f IH]; intros s v O Hv B.
  - destruct v as [x|a]; cbn [deep].
    + exists s, (HAtom x). split; auto. split; [apply progress_refl; auto|simpl; auto].
    + destruct (memo_get (fst s) a) as [b|] eqn:M.
      * exists s, (HRef b). split; auto. split; [apply progress_refl; auto|simpl; auto].
      * exfalso. assert (X := memo_short s O a M Hv). simpl in B. lia.
  - destruct v as [x|a]; cbn [deep].
    + exists s, (HAtom x). split; auto. split; [apply progress_refl; auto|simpl; auto].
    + destruct (memo_get (fst s) a) as [b|] eqn:M.
      * exists s, (HRef b). split; auto. split; [apply progress_refl; auto|simpl; auto].
      * simpl in Hv. rewrite (so_frame _ O a Hv). destruct (nth_error h0 a) as [o|] eqn:No; [|apply nth_error_None in No; unfold n0 in Hv; lia].
        destruct (wf0 a o No) as [Oin Ok_]. fold n0 in Oin.
        assert (Lb : n0 <= length (snd s)) by apply (so_len _ O).
        destruct o as [d|l].
        -- destruct (loop_ok (deep f) (@snd str hval) (fun h kv v' => put_key h (length (snd s)) (fst kv) v')
             (fun dn => HDict (map (fun xv => (fst (fst xv), snd xv)) dn)) (length (snd s)) d (Datatypes.S (length (fst s)))) with
             (rest := d) (done := @nil (str * hval * hval)) (s := ((a, length (snd s)) :: fst s, snd s ++ [HDict []]))
             as (s' & dn & E & P & Nb & Em & R).
           ++ intros s1 v1 O1 V1 B1. apply IH; auto. lia.
           ++ intros h dn x v rest Ed Nh. unfold put_key. rewrite Nh. f_equal. f_equal. rewrite map_app. cbn [map fst snd].
              assert (Nk : ~ In (fst x) (dict_keys (map (fun xv : str * hval * hval => (fst (fst xv), snd xv)) dn))).
              { unfold dict_keys. rewrite map_map. cbn [fst]. intros Hk. unfold keys_ok, dict_ok, dict_keys in Ok_. rewrite Ed, map_app in Ok_.
                cbn [map] in Ok_. apply NoDup_remove_2 in Ok_. apply Ok_. apply in_app_iff. left. rewrite map_map. exact Hk. }
              clear -Nk. induction (map (fun xv : str * hval * hval => (fst (fst xv), snd xv)) dn) as [|[k' v'] l IHl]; auto.
              cbn [dict_set dict_keys map fst] in *. destruct (str_eqb (fst x) k') eqn:E; [apply str_eqb_eq in E; subst; exfalso; apply Nk; left; auto|].
              simpl. f_equal. apply IHl. intros H. apply Nk. right. exact H.
           ++ unfold obj_in in Oin. cbn [vals] in Oin. apply (proj1 (Forall_map _ _ _)) in Oin. exact Oin.
           ++ reflexivity.
           ++ apply alloc_ok; auto.
           ++ cbn [snd]. rewrite app_length. simpl. lia.
           ++ cbn [snd]. rewrite nth_error_app2, Nat.sub_diag by lia. reflexivity.
           ++ cbn [fst length]. lia.
           ++ constructor.
           ++ match goal with |- context [copy_loop ?c ?v0 ?p ?s0 ?l0] => replace (copy_loop c v0 p s0 l0) with (Ok s') by (symmetry; exact E) end.
              destruct (finish (HDict []) s a s' (HDict d) _ O M No P Nb) as [P' G].
              { simpl. clear -Em R. subst d. induction R as [|[[k v] v'] dn Hr R IHR]; cbn [map]; constructor; auto. }
              exists s', (HRef (length (snd s))). auto.
        -- destruct (loop_ok (deep f) (fun v : hval => v) (fun h _ v' => put_last h (length (snd s)) v')
             (fun dn => HList (map snd dn)) (length (snd s)) l (Datatypes.S (length (fst s)))) with
             (rest := l) (done := @nil (hval * hval)) (s := ((a, length (snd s)) :: fst s, snd s ++ [HList []]))
             as (s' & dn & E & P & Nb & Em & R).
           ++ intros s1 v1 O1 V1 B1. apply IH; auto. lia.
           ++ intros h dn x v rest Ed Nh. unfold put_last. rewrite Nh. f_equal. f_equal. rewrite map_app. reflexivity.
           ++ exact Oin.
           ++ reflexivity.
           ++ apply alloc_ok; auto.
           ++ cbn [snd]. rewrite app_length. simpl. lia.
           ++ cbn [snd]. rewrite nth_error_app2, Nat.sub_diag by lia. reflexivity.
           ++ cbn [fst length]. lia.
           ++ constructor.
           ++ match goal with |- context [copy_loop ?c ?v0 ?p ?s0 ?l0] => replace (copy_loop c v0 p s0 l0) with (Ok s') by (symmetry; exact E) end.
              destruct (finish (HList []) s a s' (HList l) _ O M No P Nb) as [P' G].
              { simpl. clear -Em R. subst l. induction R as [|[v v'] dn Hr R IHR]; cbn [map]; constructor; auto. }
              exists s', (HRef (length (snd s))). auto.
Qed.
End Deep.

(* ---- the copy ---- *)

Definition fresh (h h' : heap) (a : nat) : Prop := length h <= a < length h'.

Lemma look_copied h h' m : (forall a b, memo_get m a = Some b -> exists o o', nth_error h a = Some o /\ nth_error h' b = Some o' /\ robj m o o') ->
  forall path v v', rval m v v' -> look h' v' path = look h v path.
Proof.
  intros C. induction path as [|s path IH]; intros v v' R; cbn [look].
  - destruct v as [x|a], v' as [y|b]; simpl in R; try tauto; [subst; auto|].
    destruct (C a b R) as (o & o' & N & N' & Ro). simpl. rewrite N, N'. destruct o as [d|l], o' as [d'|l']; simpl in Ro; try tauto.
    + f_equal. f_equal. clear -Ro. induction Ro as [|kv kv' d d' [E _] F IHF]; auto. unfold dict_keys in *. cbn [map]. rewrite IHF, E. auto.
    + f_equal. f_equal. symmetry. eapply Forall2_length'. exact Ro.
  - assert (X : match inside h v s, inside h' v' s with Some w, Some w' => rval m w w' | None, None => True | _, _ => False end).
    { destruct v as [x|a], v' as [y|b]; simpl in R; try tauto; [simpl; auto|].
      destruct (C a b R) as (o & o' & N & N' & Ro). unfold inside. rewrite N, N'. destruct s as [k|i], o as [d|l], o' as [d'|l']; simpl in Ro; try tauto.
      - clear -Ro. induction Ro as [|[k1 v1] [k2 v2] d d' [E Rv] F IHF]; cbn [dict_get]; auto. simpl in E, Rv. subst. destruct (str_eqb k k2); auto.
      - clear -Ro. revert i. induction Ro as [|v1 v2 l l' Rv F IHF]; intros [|i]; simpl; auto. apply IHF. }
    destruct (inside h v s) as [w|], (inside h' v' s) as [w'|]; try tauto. apply IH. auto.
Qed.

Lemma deepcopy_ok h v : heap_wf h -> val_in (fun a => a < length h) v ->
  exists h' v', deepcopy h v = Ok (h', v') /\ heap_wf h' /\ length h <= length h' /\
    (forall a, a < length h -> nth_error h' a = nth_error h a) /\
    val_in (fresh h h') v' /\ closed h' (fresh h h') /\
    forall path, look h' v' path = look h v path.
Proof.
  intros W Hv. unfold deepcopy.
  destruct (deep_ok h W (length h) ([], h) v) as (s' & v' & -> & P & R); auto.
  { constructor; cbn [fst snd]; auto; [intros a b H; discriminate|constructor]. }
  { simpl. lia. }
  cbn [bind fst snd]. exists (snd s'), v'. split; auto.
  assert (C : forall a b, memo_get (fst s') a = Some b -> complete h s' a b).
  { intros a b H. destruct (pr_new _ _ _ _ P a b H) as [H1|[_ H1]]; auto. discriminate. }
  assert (M := so_memo _ _ (pr_ok _ _ _ _ P)). cbn [fst snd] in M.
  assert (V : forall w w', rval (fst s') w w' -> val_in (fresh h (snd s')) w').
  { intros w w' Rw. destruct w, w'; simpl in *; try tauto. apply M in Rw. unfold fresh. lia. }
  assert (Cl : forall a o, fresh h (snd s') a -> nth_error (snd s') a = Some o -> obj_in (fresh h (snd s')) o /\ keys_ok o).
  { intros a o Ha Na. destruct (pr_all _ _ _ _ P a Ha) as (a0 & H0). destruct (C _ _ H0) as (o1 & o2 & N1 & N2 & Ro).
    rewrite Na in N2. injection N2 as <-. destruct o1 as [d|l], o as [d'|l']; simpl in Ro; try tauto.
    - split.
      + unfold obj_in. simpl. apply Forall_map. clear -Ro V. induction Ro as [|x y d d' [_ Rx] F IHF]; constructor; eauto.
      + destruct (W a0 _ N1) as [_ Kd]. simpl in Kd |- *. unfold dict_ok in *. replace (dict_keys d') with (dict_keys d); auto.
        clear -Ro. unfold dict_keys. induction Ro as [|x y d d' [E _] F IHF]; cbn [map]; auto. rewrite E, IHF. auto.
    - split; [|exact I]. unfold obj_in. simpl. clear -Ro V. induction Ro; constructor; eauto. }
  assert (L := pr_len _ _ _ _ P). cbn [snd] in L.
  assert (S1 : forall a, a < length h -> nth_error (snd s') a = nth_error h a) by (intros a Ha; apply (pr_same _ _ _ _ P); auto).
  split; [|split; [|split; [|split; [|split]]]]; auto.
  - intros a o Na. destruct (Nat.lt_ge_cases a (length h)) as [La|Ga].
    + rewrite S1 in Na by auto. destruct (W a o Na) as [A B]. split; auto. eapply obj_in_impl; [|exact A]. cbv beta. intros; lia.
    + assert (Fa : fresh h (snd s') a) by (split; auto; apply nth_error_Some; congruence).
      destruct (Cl a o Fa Na) as [A B]. split; auto. eapply obj_in_impl; [|exact A]. unfold fresh. intros; lia.
  - eauto.
  - intros a o Ha Na. apply (Cl a o Ha Na).
  - intros path. apply (look_copied h (snd s') (fst s')); auto.
Qed.
