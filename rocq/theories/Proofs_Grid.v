(* Merging nested dictionaries as values *)
From Coq Require Import String ZArith NArith Bool Lia Permutation List.
From Verif Require Import Base BaseFacts Model_Grid Spec_Grid.
Import ListNotations.

Section Json.
Context {L : Type}.
Implicit Types (j g b r : json L) (d e : list (str * json L)).

Section Ind.
Variable P : json L -> Prop.
Hypothesis Hleaf : forall x, P (JLeaf x).
Hypothesis Hdict : forall d, Forall (fun kv => P (snd kv)) d -> P (JDict d).
Fixpoint json_ind2 j : P j :=
  match j with
  | JLeaf x => Hleaf x
  | JDict d => Hdict d ((fix all d : Forall (fun kv => P (snd kv)) d :=
                           match d with
                           | [] => Forall_nil _
                           | kv :: d' => Forall_cons kv (json_ind2 (snd kv)) (all d')
                           end) d)
  end.
End Ind.

Lemma json_ok_dict d : json_ok (JDict d) <-> NoDup (map fst d) /\ forall k v, In (k, v) d -> json_ok v.
Proof.
  cbn [json_ok]. split; intros [N H]; split; auto; clear N.
  - induction d as [|[k v] d IH]; intros k' v' I; [destruct I|]. destruct H as [H1 H2]. destruct I as [E|I]; [injection E as <- <-; auto|eauto].
  - induction d as [|[k v] d IH]; [exact I|]. split; [apply (H k v); left; auto|]. apply IH. intros k' v' J. apply (H k' v'). right. auto.
Qed.

(* the value-level merge *)
Fixpoint mergej g b {struct g} : option (json L) :=
  match g, b with
  | JDict d, JDict e =>
      option_map JDict
        ((fix go d e :=
            match d with
            | [] => Some e
            | (k, g') :: d' =>
                match dict_get e k with
                | None => None
                | Some b' => match mergej g' b' with Some r => go d' (dict_set e k r) | None => None end
                end
            end) d e)
  | _, _ => Some g
  end.
Fixpoint go d e : option (list (str * json L)) :=
  match d with
  | [] => Some e
  | (k, g') :: d' =>
      match dict_get e k with
      | None => None
      | Some b' => match mergej g' b' with Some r => go d' (dict_set e k r) | None => None end
      end
  end.
Lemma mergej_dict d e : mergej (JDict d) (JDict e) = option_map JDict (go d e).
Proof.
  reflexivity.
Qed.

Lemma dict_set_keys_same (V : Type) (e : dict V) k v w : dict_get e k = Some w -> map fst (dict_set e k v) = map fst e.
Proof.
  intros E. change (map fst (dict_set e k v)) with (dict_keys (dict_set e k v)). rewrite dict_keys_set. unfold dict_mem. rewrite E. reflexivity.
Qed.

Lemma dict_get_cons (V : Type) (d : dict V) k v k' : dict_get ((k, v) :: d) k' = if str_eqb k' k then Some v else dict_get d k'.
Proof. reflexivity. Qed.

Lemma get_some_key (V : Type) (d : dict V) k v : dict_get d k = Some v -> In k (map fst d).
Proof. intros E. apply dict_get_In in E. apply (in_map fst) in E. exact E. Qed.

Lemma go_some d : forall e e', NoDup (map fst d) -> go d e = Some e' ->
  map fst e' = map fst e /\
  forall k, match dict_get d k with
            | None => dict_get e' k = dict_get e k
            | Some g' => exists b' r, dict_get e k = Some b' /\ mergej g' b' = Some r /\ dict_get e' k = Some r
            end.
Proof.
  induction d as [|[k0 g0] d IH]; cbn [go map fst]; intros e e' N H.
  - injection H as <-. split; auto. intros k. reflexivity.
  - destruct (dict_get e k0) as [b0|] eqn:E0; [|discriminate]. destruct (mergej g0 b0) as [r0|] eqn:E1; [|discriminate].
    inversion N as [|? ? N1 N2]; subst. destruct (IH _ _ N2 H) as [K G]. split.
    + rewrite K. eapply dict_set_keys_same; eauto.
    + intros k. rewrite dict_get_cons. specialize (G k). destruct (str_eqb_spec k k0) as [->|NE].
      * assert (E : dict_get d k0 = None) by (apply dict_get_None; exact N1). rewrite E in G. rewrite dict_get_set_same in G.
        exists b0, r0. auto.
      * destruct (dict_get d k) as [g'|]; rewrite dict_get_set_other in G by auto; auto.
Qed.

Lemma go_total d : forall e, NoDup (map fst d) ->
  (forall k g', dict_get d k = Some g' -> exists b' r, dict_get e k = Some b' /\ mergej g' b' = Some r) -> exists e', go d e = Some e'.
Proof.
  induction d as [|[k0 g0] d IH]; cbn [go map fst]; intros e N H.
  - eauto.
  - inversion N as [|? ? N1 N2]; subst. destruct (H k0 g0) as (b0 & r0 & -> & ->).
    { rewrite dict_get_cons. destruct (str_eqb_spec k0 k0); congruence. }
    apply IH; auto. intros k g' E. destruct (H k g') as (b' & r & E1 & E2).
    + rewrite dict_get_cons. destruct (str_eqb_spec k k0) as [->|]; auto. apply get_some_key in E. contradiction.
    + exists b', r. split; auto. rewrite dict_get_set_other; auto. intros ->. apply get_some_key in E. contradiction.
Qed.

Lemma ok_get d k v : json_ok (JDict d) -> dict_get d k = Some v -> json_ok v.
Proof. rewrite json_ok_dict. intros [_ H] E. apply dict_get_In in E. eauto. Qed.

(* which merges are refused *)
Lemma unknown_cons d e : unknown_key (JDict e) (JDict d) <->
  (exists k, In k (map fst d) /\ ~ In k (map fst e)) \/
  exists k g' b', dict_get d k = Some g' /\ dict_get e k = Some b' /\ unknown_key b' g'.
Proof.
  split.
  - intros (p & k & e0 & d0 & A & B & C & D). destruct p as [|k0 p]; cbn [at_path] in A, B.
    + injection A as <-. injection B as <-. left. eauto.
    + destruct (dict_get e k0) as [b'|] eqn:E1; [|discriminate]. destruct (dict_get d k0) as [g'|] eqn:E2; [|discriminate].
      right. exists k0, g', b'. split; auto. split; auto. exists p, k, e0, d0. auto.
  - intros [(k & I & N)|(k & g' & b' & E1 & E2 & (p & k0 & e0 & d0 & A & B & C & D))].
    + exists [], k, e, d. auto.
    + exists (k :: p), k0, e0, d0. cbn [at_path]. rewrite E1, E2. auto.
Qed.

Lemma unknown_leaf_l x g : ~ unknown_key (JLeaf x) g.
Proof. intros (p & k & e & d & A & _). destruct p; discriminate. Qed.
Lemma unknown_leaf_r b x : ~ unknown_key b (JLeaf x).
Proof. intros (p & k & e & d & _ & A & _). destruct p; discriminate. Qed.

Lemma mergej_none g : json_ok g -> forall b, mergej g b = None <-> unknown_key b g.
Proof.
  induction g as [x|d IH] using json_ind2; intros O b.
  - split; [discriminate|]. intros U. destruct (unknown_leaf_r _ _ U).
  - destruct b as [x|e]; [split; [discriminate|intros U; destruct (unknown_leaf_l _ _ U)]|].
    rewrite mergej_dict, unknown_cons. pose proof O as O'. apply json_ok_dict in O'. destruct O' as [N A]. rewrite Forall_forall in IH. split.
    + intros H. destruct (go d e) as [e'|] eqn:EG; [discriminate|]. clear H.
      assert (NT : ~ forall k g', dict_get d k = Some g' -> exists b' r, dict_get e k = Some b' /\ mergej g' b' = Some r).
      { intros H. destruct (go_total d e N H) as (e' & E). congruence. }
      (* find the bad key *)
      assert (F : forall d', incl d' d -> (forall k g', In (k, g') d' -> exists b' r, dict_get e k = Some b' /\ mergej g' b' = Some r) \/
                  exists k g', In (k, g') d' /\ (dict_get e k = None \/ exists b', dict_get e k = Some b' /\ mergej g' b' = None)).
      { induction d' as [|[k g'] d' IHd]; intros I; [left; intros k g' []|].
        destruct (dict_get e k) as [b'|] eqn:EB; [|right; exists k, g'; split; [left; auto|auto]].
        destruct (mergej g' b') as [r|] eqn:ER; [|right; exists k, g'; split; [left; auto|eauto]].
        destruct IHd as [H|(k1 & g1 & H1 & H2)]; [intros y Y; apply I; right; auto| |right; exists k1, g1; split; [right; auto|auto]].
        left. intros k1 g1 [E|J]; [injection E as <- <-; eauto|eauto]. }
      destruct (F d (incl_refl _)) as [H|(k & g' & I & [H|(b' & H1 & H2)])].
      * exfalso. apply NT. intros k g' E. apply H. apply dict_get_In. auto.
      * left. exists k. split; [apply (in_map fst) in I; exact I|]. apply dict_get_None. auto.
      * right. exists k, g', b'. split; [apply In_dict_get; auto|]. split; auto. apply (IH (k, g') I); eauto.
    + intros H. destruct (go d e) as [e'|] eqn:EG; [|reflexivity]. exfalso. destruct (go_some _ _ _ N EG) as [K G].
      destruct H as [(k & I & NI)|(k & g' & b' & E1 & E2 & U)].
      * specialize (G k). destruct (dict_get d k) as [g'|] eqn:ED; [|apply dict_get_None in ED; contradiction].
        destruct G as (b' & r & E & _). apply get_some_key in E. contradiction.
      * specialize (G k). rewrite E1 in G. destruct G as (b1 & r & E & M & _). rewrite E2 in E. injection E as <-.
        apply dict_get_In in E1. apply (IH (k, g') E1) in U; [|eauto]. cbn [snd] in U. congruence.
Qed.

(* what a merge gives, by paths *)
Lemma mergej_merged g : json_ok g -> forall b r, mergej g b = Some r -> merged b g r.
Proof.
  induction g as [x|d IH] using json_ind2; intros O b r H.
  - injection H as <-. split; [|split; [|split]].
    + intros p y E. exact E.
    + intros p y d E. destruct p; discriminate.
    + intros p d e E. destruct p; discriminate.
    + intros p k q d e E. destruct p; discriminate.
  - pose proof O as O'. apply json_ok_dict in O'. destruct O' as [N A]. rewrite Forall_forall in IH.
    destruct b as [y|e].
    + injection H as <-. split; [|split; [|split]].
      * intros p x E. exact E.
      * intros p x d' E1 E2. exact E1.
      * intros p d' e' E1 E2. destruct p; discriminate.
      * intros p k q d' e' E1 E2. destruct p; discriminate.
    + rewrite mergej_dict in H. destruct (go d e) as [e'|] eqn:EG; [|discriminate]. injection H as <-. destruct (go_some _ _ _ N EG) as [K G].
      assert (SUB : forall k g', dict_get d k = Some g' -> exists b' r, dict_get e k = Some b' /\ dict_get e' k = Some r /\ merged b' g' r).
      { intros k g' E. specialize (G k). rewrite E in G. destruct G as (b' & r & E1 & E2 & E3). exists b', r. split; auto. split; auto.
        pose proof (dict_get_In _ _ _ E) as I. apply (IH (k, g') I); eauto. }
      split; [|split; [|split]].
      * intros [|k p] x E; [discriminate|]. cbn [at_path] in *. destruct (dict_get d k) as [g'|] eqn:ED; [|discriminate].
        destruct (SUB _ _ ED) as (b' & r & E1 & E2 & (M1 & _)). rewrite E2. apply M1. auto.
      * intros [|k p] x d' E EB; [discriminate|]. cbn [at_path] in *. destruct (dict_get d k) as [g'|] eqn:ED; [|discriminate].
        destruct (SUB _ _ ED) as (b' & r & E1 & E2 & (_ & M2 & _)). rewrite E2. rewrite E1 in EB. eapply M2; eauto.
      * intros [|k p] d' e0 E EB; cbn [at_path] in *.
        { injection E as <-. injection EB as <-. eauto. }
        destruct (dict_get d k) as [g'|] eqn:ED; [|discriminate].
        destruct (SUB _ _ ED) as (b' & r & E1 & E2 & (_ & _ & M3 & _)). rewrite E2. rewrite E1 in EB. eapply M3; eauto.
      * intros [|k p] k0 q d' e0 E EB NI; cbn [at_path app] in *.
        { injection E as <-. injection EB as <-. specialize (G k0). destruct (dict_get d k0) as [g'|] eqn:ED.
          - apply get_some_key in ED. contradiction.
          - rewrite G. reflexivity. }
        destruct (dict_get d k) as [g'|] eqn:ED; [|discriminate].
        destruct (SUB _ _ ED) as (b' & r & E1 & E2 & (_ & _ & _ & M4)). rewrite E2, E1. rewrite E1 in EB. eapply M4; eauto.
Qed.

End Json.
