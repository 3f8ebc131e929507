(* Nested dictionaries as objects: loading, copying and merging *)
From Coq Require Import String ZArith NArith Bool Lia Permutation List.
From Verif Require Import Base BaseFacts Proofs_Builder3 Model_Grid Spec_Grid Proofs_Grid.
Import ListNotations.

Open Scope nat_scope.

Section Heap.
Context {L : Type}.
Implicit Types (h : jheap L) (v : jval L) (j g b r : json L) (d e : list (str * json L)) (o : dict (jval L)).

Scheme owns_ind2 := Minimality for owns Sort Prop
  with owns_list_ind2 := Minimality for owns_list Sort Prop.
Combined Scheme owns_both from owns_ind2, owns_list_ind2.

Lemma put_length {A} (l : list A) i x : length (put l i x) = length l.
Proof. revert i. induction l as [|y l IH]; intros [|i]; cbn; auto. Qed.
Lemma put_same {A} (l : list A) i x y : nth_error l i = Some y -> nth_error (put l i x) i = Some x.
Proof. revert i. induction l as [|z l IH]; intros [|i] H; cbn in *; try discriminate; auto. Qed.
Lemma put_other {A} (l : list A) i k x : i <> k -> nth_error (put l i x) k = nth_error l k.
Proof. revert i k. induction l as [|z l IH]; intros [|i] [|k] H; cbn in *; auto; congruence. Qed.

Lemma frame_both h h' :
  (forall v j fp, owns h v j fp -> (forall a, In a fp -> nth_error h' a = nth_error h a) -> owns h' v j fp) /\
  (forall o d fp, owns_list h o d fp -> (forall a, In a fp -> nth_error h' a = nth_error h a) -> owns_list h' o d fp).
Proof.
  apply (owns_both L h (fun v j fp => (forall a, In a fp -> nth_error h' a = nth_error h a) -> owns h' v j fp)
                       (fun o d fp => (forall a, In a fp -> nth_error h' a = nth_error h a) -> owns_list h' o d fp)).
  - intros x _. constructor.
  - intros a o d fp E _ IH F. econstructor; [rewrite F by (left; auto); exact E|]. apply IH. intros b I. apply F. right. auto.
  - intros _. constructor.
  - intros k v j o d fp fp' _ IH1 _ IH2 F. constructor; [apply IH1|apply IH2]; intros a I; apply F, in_app_iff; auto.
Qed.
Definition frame h h' := proj1 (frame_both h h').
Definition frame_list h h' := proj2 (frame_both h h').

Lemma owns_stands h : (forall v j fp, owns h v j fp -> stands h v j) /\
  (forall o d fp, owns_list h o d fp -> (fix all o d {struct d} : Prop :=
         match d with
         | [] => o = []
         | (k, j) :: d' => exists w o', o = (k, w) :: o' /\ stands h w j /\ all o' d'
         end) o d).
Proof.
  apply (owns_both L h (fun v j fp => stands h v j) (fun o d fp => (fix all o d {struct d} : Prop :=
         match d with
         | [] => o = []
         | (k, j) :: d' => exists w o', o = (k, w) :: o' /\ stands h w j /\ all o' d'
         end) o d)).
  - intros x. reflexivity.
  - intros a o d fp E _ IH. exists a, o. auto.
  - reflexivity.
  - intros k v j o d fp fp' _ IH1 _ IH2. exists v, o. auto.
Qed.

Lemma owns_bound h : (forall v j fp, owns h v j fp -> Forall (fun a => a < length h) fp) /\
  (forall o d fp, owns_list h o d fp -> Forall (fun a => a < length h) fp).
Proof.
  apply (owns_both L h (fun v j fp => Forall (fun a => a < length h) fp) (fun o d fp => Forall (fun a => a < length h) fp)).
  - constructor.
  - intros a o d fp E _ IH. constructor; auto. apply nth_error_Some. congruence.
  - constructor.
  - intros. apply Forall_app. auto.
Qed.

Lemma owns_list_keys h o d fp : owns_list h o d fp -> map fst o = map fst d.
Proof. induction 1; cbn; congruence. Qed.

Lemma owns_small h v j fp : owns h v j fp -> NoDup fp -> length fp <= length h.
Proof.
  intros O N. apply (proj1 (owns_bound h)) in O. rewrite <- (seq_length (length h) 0). apply NoDup_incl_length; auto.
  intros a I. rewrite Forall_forall in O. apply in_seq. specialize (O a I). lia.
Qed.

(* the entry of a key, and replacing it *)
Lemma owns_split h o d fp k j : owns_list h o d fp -> dict_get d k = Some j ->
  exists v fpk rest, dict_get o k = Some v /\ owns h v j fpk /\ Permutation fp (fpk ++ rest) /\
    forall h' v' j' fpk', (forall a, In a rest -> nth_error h' a = nth_error h a) -> owns h' v' j' fpk' ->
      exists fp2, owns_list h' (dict_set o k v') (dict_set d k j') fp2 /\ Permutation fp2 (fpk' ++ rest).
Proof.
  intros O. induction O as [|k0 v0 j0 o d fp fp' O1 O2 IH]; intros E; [discriminate|].
  rewrite dict_get_cons in E. destruct (str_eqb_spec k k0) as [->|NE].
  - injection E as <-. exists v0, fp, fp'. split; [rewrite dict_get_cons; destruct (str_eqb_spec k0 k0); congruence|]. split; auto. split; auto.
    intros h' v' j' fpk' F O'. exists (fpk' ++ fp'). split; auto. cbn [dict_set]. destruct (str_eqb_spec k0 k0); [|congruence].
    constructor; auto. eapply frame_list; eauto.
  - destruct (IH E) as (v & fpk & rest & E1 & E2 & PM & R). exists v, fpk, (fp ++ rest).
    split; [rewrite dict_get_cons; destruct (str_eqb_spec k k0); congruence|]. split; auto. split.
    { rewrite PM. rewrite !app_assoc. apply Permutation_app_tail. apply Permutation_app_comm. }
    intros h' v' j' fpk' F O'. destruct (R h' v' j' fpk') as (fp2 & O'' & P2); auto.
    { intros a I. apply F, in_app_iff. auto. }
    exists (fp ++ fp2). split.
    + cbn [dict_set]. destruct (str_eqb_spec k k0); [congruence|]. constructor; auto. eapply frame; eauto. intros a I. apply F, in_app_iff. auto.
    + rewrite P2. rewrite !app_assoc. apply Permutation_app_tail. apply Permutation_app_comm.
Qed.

Lemma owns_get_none h o d fp k : owns_list h o d fp -> dict_get d k = None -> dict_get o k = None.
Proof. intros O. rewrite !dict_get_None. change (dict_keys o) with (map fst o). rewrite (owns_list_keys _ _ _ _ O). auto. Qed.

Lemma dict_set_id (V : Type) (x : dict V) k (v : V) : dict_get x k = Some v -> dict_set x k v = x.
Proof.
  induction x as [|[k0 v0] x IH]; intros E; [discriminate|]. rewrite dict_get_cons in E. cbn [dict_set].
  destruct (str_eqb_spec k k0) as [->|]; [injection E as <-; auto|]. rewrite IH; auto.
Qed.

(* ---- loading ---- *)

Definition fresh (h : jheap L) (fp : list nat) (n : nat) : Prop := NoDup fp /\ Forall (fun a => length h <= a < n) fp.

Lemma load_owns j : forall h, exists fp ext, owns (h ++ ext) (fst (load j h)) j fp /\ snd (load j h) = h ++ ext /\
  fresh h fp (length (h ++ ext)).
Proof.
  induction j as [x|d IH] using json_ind2; intros h.
  - exists [], []. rewrite app_nil_r. split; [constructor|]. split; auto. split; constructor.
  - cbn [load]. match goal with |- context [let (_, _) := ?go d h in _] => set (goL := go) end.
    assert (G : exists fp ext, owns_list (h ++ ext) (fst (goL d h)) d fp /\ snd (goL d h) = h ++ ext /\ fresh h fp (length (h ++ ext))).
    { revert h. induction IH as [|[k j] d IH1 IH2 IH3]; intros h.
      - exists [], []. rewrite app_nil_r. split; [constructor|]. split; auto. split; constructor.
      - cbn [snd] in IH1. destruct (IH1 h) as (fp1 & ext1 & O1 & S1 & N1 & B1). cbn [goL]. destruct (load j h) as [v1 h1]. cbn [fst snd] in *. subst h1.
        fold goL. destruct (IH3 (h ++ ext1)) as (fp2 & ext2 & O2 & S2 & N2 & B2). destruct (goL d (h ++ ext1)) as [o2 h2]. cbn [fst snd] in *. subst h2.
        exists (fp1 ++ fp2), (ext1 ++ ext2). rewrite app_assoc. split; [|split; [reflexivity|split]].
        + constructor; auto. eapply frame; eauto. intros a I. rewrite Forall_forall in B1. specialize (B1 a I).
          rewrite nth_error_app1 by lia. reflexivity.
        + apply NoDup_app_iff. split; auto. split; auto. intros a I J. rewrite Forall_forall in B1, B2. specialize (B1 a I). specialize (B2 a J). lia.
        + rewrite Forall_forall in *. intros a I. apply in_app_iff in I. rewrite !app_length in *. destruct I as [I|I]; [specialize (B1 a I)|specialize (B2 a I)]; lia. }
    destruct G as (fp & ext & O & S & N & B). destruct (goL d h) as [o h']. cbn [fst snd] in *. subst h'.
    exists (length (h ++ ext) :: fp), (ext ++ [o]). rewrite app_assoc. split; [|split; [reflexivity|split]].
    + econstructor; [rewrite nth_error_app2, Nat.sub_diag by lia; reflexivity|]. eapply frame_list; eauto.
      intros a I. rewrite Forall_forall in B. specialize (B a I). rewrite nth_error_app1 by lia. reflexivity.
    + constructor; auto. intros I. rewrite Forall_forall in B. specialize (B _ I). lia.
    + rewrite (app_length (h ++ ext) [o]). cbn [length]. constructor; [rewrite app_length; lia|]. eapply Forall_impl; [|exact B]. cbn. intros; lia.
Qed.

(* ---- copying ---- *)

Lemma deepcopy_owns h0 :
  (forall v j fp, owns h0 v j fp -> forall ext0 fuel, length fp <= fuel ->
     exists v' fp' ext, deepcopy fuel v (h0 ++ ext0) = Ok (v', (h0 ++ ext0) ++ ext) /\ owns ((h0 ++ ext0) ++ ext) v' j fp' /\
       fresh (h0 ++ ext0) fp' (length ((h0 ++ ext0) ++ ext))) /\
  (forall o d fp, owns_list h0 o d fp -> forall ext0 fuel pre, length fp <= fuel ->
     exists o' fp' ext,
       foldM (fun s kv => do c <- deepcopy fuel (snd kv) (snd s); Ok (fst s ++ [(fst kv, fst c)], snd c)) (pre, h0 ++ ext0) o
         = Ok (pre ++ o', (h0 ++ ext0) ++ ext) /\ owns_list ((h0 ++ ext0) ++ ext) o' d fp' /\
       fresh (h0 ++ ext0) fp' (length ((h0 ++ ext0) ++ ext))).
Proof.
  apply (owns_both L h0
    (fun v j fp => forall ext0 fuel, length fp <= fuel ->
     exists v' fp' ext, deepcopy fuel v (h0 ++ ext0) = Ok (v', (h0 ++ ext0) ++ ext) /\ owns ((h0 ++ ext0) ++ ext) v' j fp' /\
       fresh (h0 ++ ext0) fp' (length ((h0 ++ ext0) ++ ext)))
    (fun o d fp => forall ext0 fuel pre, length fp <= fuel ->
     exists o' fp' ext,
       foldM (fun s kv => do c <- deepcopy fuel (snd kv) (snd s); Ok (fst s ++ [(fst kv, fst c)], snd c)) (pre, h0 ++ ext0) o
         = Ok (pre ++ o', (h0 ++ ext0) ++ ext) /\ owns_list ((h0 ++ ext0) ++ ext) o' d fp' /\
       fresh (h0 ++ ext0) fp' (length ((h0 ++ ext0) ++ ext)))).
  - intros x ext0 fuel _. exists (VLeaf x), [], []. rewrite app_nil_r. split; [destruct fuel; reflexivity|]. split; [constructor|]. split; constructor.
  - intros a o d fp E _ IH ext0 [|fuel] LE; [cbn in LE; lia|]. cbn [length] in LE. cbn [deepcopy].
    rewrite nth_error_app1 by (apply nth_error_Some; congruence). rewrite E. cbn [of_option bind].
    destruct (IH ext0 fuel [] ltac:(lia)) as (o' & fp' & ext & EF & O & N & B). match goal with |- context [bind ?x _] => replace x with (@Ok (list (str * jval L) * jheap L) ([] ++ o', (h0 ++ ext0) ++ ext)) by (symmetry; exact EF) end.
    cbn [bind fst snd app].
    set (h1 := h0 ++ ext0) in *.
    exists (VRef (length (h1 ++ ext))), (length (h1 ++ ext) :: fp'), (ext ++ [o']). rewrite app_assoc. split; [reflexivity|]. split; [|split].
    + econstructor; [rewrite nth_error_app2, Nat.sub_diag by lia; reflexivity|]. eapply frame_list; eauto.
      intros b I. rewrite Forall_forall in B. specialize (B b I). rewrite nth_error_app1 by lia. reflexivity.
    + constructor; auto. intros I. rewrite Forall_forall in B. specialize (B _ I). lia.
    + rewrite (app_length (h1 ++ ext) [o']). cbn [length]. constructor; [rewrite app_length; lia|]. eapply Forall_impl; [|exact B]. cbn. intros; lia.
  - intros ext0 fuel pre _. exists [], [], []. rewrite !app_nil_r. split; [reflexivity|]. split; [constructor|]. split; constructor.
  - intros k v j o d fp fp' _ IH1 _ IH2 ext0 fuel pre LE. rewrite app_length in LE.
    destruct (IH1 ext0 fuel ltac:(lia)) as (v' & fp1 & ext1 & E1 & O1 & N1 & B1). cbn [foldM fst snd]. rewrite E1. cbn [bind fst snd].
    destruct (IH2 (ext0 ++ ext1) fuel (pre ++ [(k, v')]) ltac:(lia)) as (o2 & fp2 & ext2 & E2 & O2 & N2 & B2).
    set (h1 := h0 ++ ext0) in *. exists ((k, v') :: o2), (fp1 ++ fp2), (ext1 ++ ext2).
    replace (h0 ++ ext0 ++ ext1) with (h1 ++ ext1) in * by (unfold h1; rewrite app_assoc; auto). rewrite app_assoc.
    split; [etransitivity; [exact E2|]; rewrite <- app_assoc; reflexivity|]. split; [|split].
    + constructor; auto. eapply frame; eauto. intros a I. rewrite Forall_forall in B1. specialize (B1 a I).
      rewrite nth_error_app1 by lia. reflexivity.
    + apply NoDup_app_iff. split; auto. split; auto. intros a I J. rewrite Forall_forall in B1, B2. specialize (B1 a I). specialize (B2 a J). lia.
    + rewrite Forall_forall in *. intros a I. apply in_app_iff in I. rewrite !app_length in *. destruct I as [I|I]; [specialize (B1 a I)|specialize (B2 a I)]; lia.
Qed.
End Heap.
