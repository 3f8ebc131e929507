(* The tables of the parts of speech are the counts over the tokens. *)
From Coq Require Import ZArith NArith Bool Lia Permutation List Sorted.
From Verif Require Import Base BaseFacts Model_Datamodel Model_Vocab Model_Features Model_Lemma Spec_Datamodel Spec_Vocab Spec_Features
  Spec_Labels Proofs_Datamodel Proofs_Datamodel3 Proofs_Datamodel4 Proofs_Vocab Proofs_Lemma Proofs_Lemma2 Proofs_Features Proofs_Features2
  Proofs_Features3 Proofs_Labels.
Import ListNotations.
Open Scope Z_scope.

(* ------------------------------------------------------------------ *)
(* adding to tables *)

Lemma gadd_cons {K} (eqb : K -> K -> bool) d k k' v n : gadd eqb ((k', v) :: d) k n = if eqb k k' then (k', v + n) :: d else (k', v) :: gadd eqb d k n.
Proof. unfold gadd. cbn [gget gset]. destruct (eqb k k'); auto. Qed.

Section Add.
Context {K : Type} (eqb : K -> K -> bool) (HE : equivalence eqb).

Lemma gadd_twice d k n m : gadd eqb (gadd eqb d k n) k m = gadd eqb d k (n + m).
Proof.
  induction d as [|[k' v] d IH].
  - unfold gadd. cbn. rewrite (eqv_refl eqb HE). auto.
  - rewrite !gadd_cons. destruct (eqb k k') eqn:E; rewrite gadd_cons, E; [f_equal; f_equal; lia|rewrite IH; auto].
Qed.

Lemma gadd_same d k k' n : eqb k k' = true -> gget eqb d k <> None -> gadd eqb d k n = gadd eqb d k' n.
Proof.
  intros E. induction d as [|[k0 v] d IH]; cbn [gget]; [congruence|]. rewrite !gadd_cons.
  rewrite <- (eqv_subst eqb HE k k' k0 E). destruct (eqb k k0); auto. intros H. rewrite IH; auto.
Qed.

Lemma gget_gadd d k k' n : gget eqb d k' <> None -> gget eqb (gadd eqb d k n) k' <> None.
Proof.
  intros H. unfold gadd. destruct (eqb k' k) eqn:E; [rewrite (gget_gset_same eqb HE _ _ _ _ E); discriminate|].
  rewrite (gget_gset_other eqb HE _ _ _ _ E). auto.
Qed.

Lemma gget_gadd_same d k k' n : eqb k' k = true -> gget eqb (gadd eqb d k n) k' <> None.
Proof. intros E. unfold gadd. rewrite (gget_gset_same eqb HE _ _ _ _ E). discriminate. Qed.

Lemma gadd_swap d k k' n m : gget eqb d k <> None -> gadd eqb (gadd eqb d k n) k' m = gadd eqb (gadd eqb d k' m) k n.
Proof.
  induction d as [|[k0 v] d IH]; cbn [gget]; [congruence|]. intros H. rewrite !gadd_cons.
  destruct (eqb k k0) eqn:E, (eqb k' k0) eqn:E'; rewrite !gadd_cons, ?E, ?E'; auto.
  - f_equal. f_equal. lia.
  - rewrite IH; auto.
Qed.

(* a list of labels with weights *)
Definition weigh {A} (f : A -> K) (d : list (K * Z)) (l : list (A * Z)) : list (K * Z) :=
  fold_left (fun d an => gadd eqb d (f (fst an)) (snd an)) l d.

Lemma weigh_more {A} (f : A -> K) l : forall d k n, gget eqb d k <> None ->
  weigh f (gadd eqb d k n) l = gadd eqb (weigh f d l) k n.
Proof.
  unfold weigh. induction l as [|[a m] l IH]; intros d k n H; cbn [fold_left fst snd]; auto.
  rewrite gadd_swap, IH by auto using gget_gadd. auto.
Qed.

(* counting labels first, and then what a function makes of them *)
Lemma weigh_count {A} (eqa : A -> A -> bool) (HA : equivalence eqa) (f : A -> K) :
  forall l, (forall a b, In a l -> In b l -> eqa a b = true -> eqb (f a) (f b) = true) ->
  weigh f [] (count_list eqa l) = count_list eqb (map f l).
Proof.
  intros l. induction l as [|x l IH] using rev_ind; intros R; [reflexivity|].
  unfold count_list. rewrite map_app, !fold_left_app. cbn [map fold_left].
  change (fold_left (fun d k => gadd eqa d k 1) l []) with (count_list eqa l).
  change (fold_left (fun d k => gadd eqb d k 1) (map f l) []) with (count_list eqb (map f l)).
  rewrite <- IH by (intros a b Ha Hb; apply R; apply in_app_iff; auto).
  assert (Hk : forall k n, In (k, n) (count_list eqa l) -> In k (l ++ [x])).
  { intros k n H. apply count_list_In in H; auto. apply in_app_iff. left. apply H. }
  assert (Hx : In x (l ++ [x])) by (apply in_app_iff; right; left; auto).
  revert Hk. generalize (count_list eqa l). generalize (@nil (K * Z)). clear IH.
  intros d t. revert d. induction t as [|[k n] t IH]; intros d Hk.
  - reflexivity.
  - rewrite gadd_cons. destruct (eqa x k) eqn:E.
    + unfold weigh. cbn [fold_left fst snd]. rewrite <- gadd_twice.
      change (weigh f (gadd eqb (gadd eqb d (f k) n) (f k) 1) t = gadd eqb (weigh f (gadd eqb d (f k) n) t) (f x) 1).
      assert (Ef : eqb (f x) (f k) = true) by (apply R; auto; apply (Hk k n); left; auto).
      rewrite weigh_more by (apply gget_gadd_same, (eqv_refl eqb HE)).
      symmetry. apply gadd_same; auto.
      assert (G : forall l d k, gget eqb d k <> None -> gget eqb (weigh f d l) k <> None).
      { clear -HE. unfold weigh. induction l as [|a l IH]; intros d k H; cbn [fold_left]; auto. apply IH, gget_gadd, H. }
      apply G. apply gget_gadd_same. auto.
    + unfold weigh. cbn [fold_left fst snd]. apply IH. intros k0 n0 H. apply (Hk k0 n0). right; auto.
Qed.
End Add.

(* ------------------------------------------------------------------ *)
(* the tables of _count_parts *)

(* the i-th part of a Pos *)
Definition part_at (s : splitter) (i : nat) (p : option pos) : part :=
  match split_pos s p with
  | Ok sp => match nth_error sp i with Some (_, v) => v | None => PaStr None end
  | Err _ => PaStr None
  end.

Definition table (s : splitter) (i : nat) (labels : list (option pos * Z)) : list (part * Z) :=
  weigh part_eqb (part_at s i) [] labels.

Lemma dict_get_index {V} (names : list str) (g : nat -> V) : NoDup names -> forall j k i, nth_error names i = Some k ->
  dict_get (map (fun ik => (snd ik, g (fst ik))) (combine (seq j (length names)) names)) k = Some (g (j + i)%nat) /\
  forall v, dict_set (map (fun ik => (snd ik, g (fst ik))) (combine (seq j (length names)) names)) k v =
    map (fun ik => (snd ik, if (fst ik =? j + i)%nat then v else g (fst ik))) (combine (seq j (length names)) names).
Proof.
  induction 1 as [|n names Hn ND IH]; intros j k i Hi; [destruct i; discriminate|]. cbn [length seq combine map fst snd dict_get dict_set].
  destruct i as [|i].
  - injection Hi as ->. rewrite str_eqb_refl, Nat.add_0_r. split; auto. intros v. rewrite Nat.eqb_refl. f_equal.
    apply map_ext_in. intros [a b] H. apply in_combine_l, in_seq in H. cbn [fst snd].
    destruct (a =? j)%nat eqn:E; auto. apply Nat.eqb_eq in E. lia.
  - cbn in Hi. assert (str_eqb k n = false).
    { destruct (str_eqb k n) eqn:E; auto. apply str_eqb_eq in E. subst. exfalso. apply Hn. eapply nth_error_In; eauto. }
    rewrite H. destruct (IH (Datatypes.S j) k i Hi) as [G D]. replace (j + Datatypes.S i)%nat with (Datatypes.S j + i)%nat by lia.
    split; auto. intros v. rewrite D. f_equal. destruct (j =? Datatypes.S j + i)%nat eqn:E; auto. apply Nat.eqb_eq in E. lia.
Qed.

Definition tables (names : list str) (g : nat -> list (part * Z)) : dict (list (part * Z)) :=
  map (fun ik => (snd ik, g (fst ik))) (combine (seq 0 (length names)) names).

(* one label adds its parts to their tables *)
Lemma add_label names c : NoDup names -> forall sp i g, (forall j nv, nth_error sp j = Some nv -> nth_error names (i + j) = Some (fst nv)) ->
  foldM (fun counts nv => add_part counts (fst nv) (snd nv) c) (tables names g) sp =
    Ok (tables names (fun j => if (i <=? j)%nat then match nth_error sp (j - i) with Some nv => gadd part_eqb (g j) (snd nv) c | None => g j end else g j)).
Proof.
  intros ND. induction sp as [|[n v] sp IH]; intros i g H; cbn [foldM].
  - f_equal. unfold tables. apply map_ext. intros [j k]. cbn [fst snd]. destruct (i <=? j)%nat; auto. rewrite (proj2 (nth_error_None _ _)); auto. simpl. lia.
  - assert (Hn := H 0%nat (n, v) eq_refl). rewrite Nat.add_0_r in Hn. cbn [fst] in Hn.
    destruct (dict_get_index names g ND 0 n i Hn) as [G D]. cbn [fst snd]. unfold add_part at 1, tables at 1 2. rewrite G. cbn [of_option bind].
    rewrite D. cbn [bind].
    change (map (fun ik : nat * str => (snd ik, if (fst ik =? 0 + i)%nat then gadd part_eqb (g (0 + i)%nat) v c else g (fst ik)))
      (combine (seq 0 (length names)) names)) with (tables names (fun j => if (j =? 0 + i)%nat then gadd part_eqb (g (0 + i)%nat) v c else g j)).
    rewrite (IH (Datatypes.S i)).
    + f_equal. unfold tables. apply map_ext. intros [j k]. cbn [fst snd plus].
      destruct (Nat.eq_dec j i) as [->|N].
      * rewrite Nat.eqb_refl, Nat.leb_refl, Nat.sub_diag. destruct (Datatypes.S i <=? i)%nat eqn:E; auto. apply Nat.leb_le in E. lia.
      * rewrite (proj2 (Nat.eqb_neq _ _) N). destruct (i <=? j)%nat eqn:E.
        -- apply Nat.leb_le in E. rewrite (proj2 (Nat.leb_le (Datatypes.S i) j)) by lia. replace (j - i)%nat with (Datatypes.S (j - Datatypes.S i)) by lia. auto.
        -- apply Nat.leb_gt in E. rewrite (proj2 (Nat.leb_gt (Datatypes.S i) j)) by lia. auto.
    + intros j nv Hj. rewrite Nat.add_succ_l, <- Nat.add_succ_r. apply H. auto.
Qed.

Lemma count_parts_tables s labels counts : count_parts s labels = Ok counts ->
  counts = tables (split_names s) (fun i => table s i labels).
Proof.
  unfold count_parts. destruct labels as [|lc0 labels]; [discriminate|]. cbn [hd_error of_option bind]. intros H.
  apply bind_ok_iff in H. destruct H as (sp0 & E0 & H). destruct (split_names_spec _ _ _ E0) as (K0 & _).
  assert (ND := split_names_nodup s).
  assert (B : map (fun nv : str * part => (fst nv, @nil (part * Z))) sp0 = tables (split_names s) (fun i => weigh part_eqb (part_at s i) [] [])).
  { rewrite <- K0. unfold tables, weigh, dict_keys. cbn [fold_left]. clear. generalize 0%nat as j.
    induction sp0 as [|[n v] sp IH]; intros j; cbn [map length seq combine fst snd]; auto. f_equal. apply IH. }
  rewrite B in H. clear B E0 K0. unfold table.
  assert (X : forall ls seen, foldM (fun counts lc => do sp <- split_pos s (fst lc);
      foldM (fun counts nv => add_part counts (fst nv) (snd nv) (snd lc)) counts sp)
      (tables (split_names s) (fun i => weigh part_eqb (part_at s i) [] seen)) ls = Ok counts ->
      counts = tables (split_names s) (fun i => weigh part_eqb (part_at s i) [] (seen ++ ls))).
  { induction ls as [|lc ls IH]; intros seen F; cbn [foldM] in F.
    - injection F as <-. rewrite app_nil_r. auto.
    - apply bind_ok_iff in F. destruct F as (c1 & F1 & F). apply bind_ok_iff in F1. destruct F1 as (sp & E & F1).
      destruct (split_names_spec _ _ _ E) as (K & _).
      rewrite (add_label _ _ ND sp 0) in F1.
      2:{ intros j nv Hj. rewrite <- K. unfold dict_keys. rewrite nth_error_map. cbn [plus]. rewrite Hj. auto. }
      injection F1 as <-. change (lc :: ls) with ([lc] ++ ls). rewrite app_assoc. apply IH. rewrite <- F. f_equal.
      unfold tables. apply map_ext_in. intros [j k] Hj. cbn [fst snd Nat.leb]. rewrite Nat.sub_0_r. f_equal.
      apply in_combine_l, in_seq in Hj. assert (L : (j < length sp)%nat).
      { rewrite <- K in Hj. unfold dict_keys in Hj. rewrite map_length in Hj. lia. }
      unfold weigh at 1. rewrite fold_left_app. cbn [fold_left].
      destruct (nth_error sp j) as [[n v]|] eqn:Ej; [|apply nth_error_None in Ej; lia].
      assert (Hv : part_at s j (fst lc) = v) by (unfold part_at; rewrite E, Ej; auto). rewrite Hv. reflexivity. }
  apply (X _ [] H).
Qed.

Lemma weigh_ext {A K} (eqb eqb' : K -> K -> bool) (P : K -> Prop) (Heq : forall a b, P a -> P b -> eqb a b = eqb' a b)
  (f : A -> K) l : Forall (fun an => P (f (fst an))) l -> forall d, all_keys P d -> weigh eqb f d l = weigh eqb' f d l.
Proof.
  unfold weigh. induction 1 as [|[a n] l H F IH]; intros d D; cbn [fold_left fst snd] in *; auto.
  rewrite <- (gadd_ext eqb eqb' P Heq d (f a) n) by auto. apply IH. apply gset_all; auto.
Qed.

Lemma part_at_wf s i p : opt_pos_wf p -> part_wf (part_at s i p).
Proof.
  intros W. unfold part_at. destruct (split_pos s p) as [sp|] eqn:E; [|exact I].
  destruct (nth_error sp i) as [[n v]|] eqn:N; [|exact I]. apply split_wf in E; auto. rewrite Forall_forall in E.
  apply (E (n, v)). eapply nth_error_In; eauto.
Qed.

Lemma part_at_same s i p q : opt_pos_wf p -> opt_pos_wf q -> view_eqb p q = true -> part_view_eqb (part_at s i p) (part_at s i q) = true.
Proof.
  intros Wp Wq V. assert (Sm := proj1 (view_same p q Wp Wq) V). unfold part_at.
  destruct (split_pos s p) as [sp|] eqn:E.
  - destruct (split_same s p q sp Wp Wq Sm E) as (sq & E' & F). rewrite E'.
    destruct (nth_error sp i) as [[n v]|] eqn:Ni.
    + destruct (Forall2_nth _ _ _ _ _ F Ni) as ([n' v'] & Nj & (_ & Hv)). rewrite Nj. cbn [snd] in Hv.
      assert (Wv := part_at_wf s i p Wp). assert (Wv' := part_at_wf s i q Wq). unfold part_at in Wv, Wv'. rewrite E, Ni in Wv. rewrite E', Nj in Wv'.
      apply part_view_iff; auto.
    + rewrite (proj2 (nth_error_None _ _)); [reflexivity|]. rewrite <- (Forall2_length' _ _ _ F). apply nth_error_None. auto.
  - assert (E' : exists e, split_pos s q = Err e).
    { destruct (split_pos s q) as [sq|] eqn:E'; [|eauto]. exfalso.
      assert (X : exists sp, split_pos s p = Ok sp); [|destruct X; congruence].
      apply split_ok. destruct (proj1 (split_ok s q) (ex_intro _ sq E')) as [->|N]; auto. right.
      destruct p, q; cbn in Sm; try tauto; congruence. }
    destruct E' as (e2 & ->). reflexivity.
Qed.

(* the table of a part counts the tokens *)
Lemma table_counts s i ds : Forall opt_pos_wf (dataset_poses ds) ->
  table s i (train_labels ds) = count_list part_view_eqb (map (part_at s i) (dataset_poses ds)) /\
  all_keys part_wf (table s i (train_labels ds)).
Proof.
  intros W. unfold table, train_labels, count_labels. fold (dataset_poses ds).
  destruct (count_list_ext _ view_eqb opt_pos_wf view_eqb_same _ W) as (E & A).
  assert (X : weigh part_eqb (part_at s i) [] (count_list (option_eqb pos_eqb) (dataset_poses ds)) =
              count_list part_view_eqb (map (part_at s i) (dataset_poses ds))).
  { rewrite (weigh_ext part_eqb part_view_eqb part_wf part_view_same).
    - rewrite E. apply weigh_count; [apply part_view_equiv|apply view_equiv|].
      intros a b Ha Hb. rewrite Forall_forall in W. apply part_at_same; auto.
    - eapply Forall_impl; [|exact A]. intros an H. apply part_at_wf. auto.
    - constructor. }
  rewrite X. split; auto.
  rewrite <- (proj1 (count_list_ext part_eqb part_view_eqb part_wf part_view_same (map (part_at s i) (dataset_poses ds))
     (proj2 (Forall_map _ _ _) (Forall_impl _ (part_at_wf s i) W)))).
  apply (count_list_ext part_eqb part_view_eqb part_wf part_view_same). apply Forall_map. eapply Forall_impl; [|exact W]. apply part_at_wf.
Qed.

Lemma mapM_tables (f : list (part * Z) -> result (list part)) names (g : nat -> list (part * Z)) ls :
  mapM (fun nc => f (snd nc)) (tables names g) = Ok ls ->
  length ls = length names /\ forall i l, nth_error ls i = Some l -> f (g i) = Ok l.
Proof.
  intros H. split.
  - rewrite (mapM_length _ _ _ H). unfold tables. rewrite map_length, combine_length, seq_length. lia.
  - intros i l Hi. apply mapM_ok in H. destruct (Forall2_nth_r _ _ _ _ _ H Hi) as (nc & Hn & E).
    unfold tables in Hn. rewrite nth_error_map in Hn. destruct (nth_error (combine _ _) i) as [[j k]|] eqn:C in Hn; [|discriminate].
    injection Hn as <-. cbn [snd fst] in E. assert (j = i).
    { clear -C. assert (X : forall n (names : list str) i0, nth_error (combine (seq n (length names)) names) i0 = Some (j, k) -> j = (n + i0)%nat).
      { intros n names0. revert n. induction names0 as [|a names0 IH]; intros n i0 C0; [destruct i0; discriminate|]. cbn in C0.
        destruct i0 as [|i0]; [injection C0 as <- <-; lia|]. apply IH in C0. lia. }
      apply (X 0%nat names i). auto. }
    subst. auto.
Qed.

Lemma labels_built st ds b : Forall opt_pos_wf (dataset_poses ds) -> build_pos_labels st ds = Ok b ->
  make_splitter st (map fst (train_labels ds)) = Ok (pl_splitter b) /\
  length (pl_id2parts b) = length (split_names (pl_splitter b)) /\
  (forall p, In p (dataset_poses ds) -> exists sp, split_pos (pl_splitter b) p = Ok sp) /\
  forall i l, nth_error (pl_id2parts b) i = Some l ->
    id2obj part_view_eqb part_cmp (count_list part_view_eqb (map (part_at (pl_splitter b) i) (dataset_poses ds))) 0 = Ok l.
Proof.
  intros W H. assert (BS := build_spec st ds b W H). destruct BS as (Ms & Ne & Sp & _).
  split; auto. unfold build_pos_labels in H. fold (train_labels ds) in H.
  apply bind_ok_iff in H. destruct H as (s & Es & H). apply bind_ok_iff in H. destruct H as (counts & Ec & H).
  apply bind_ok_iff in H. destruct H as (l & El & H). injection H as <-. cbn [pl_splitter pl_id2parts] in *.
  apply count_parts_tables in Ec. subst counts. apply (mapM_tables (fun d => id2obj part_eqb part_cmp d 0)) in El.
  destruct El as (L & El). split; auto. split.
  - intros p Hp. destruct (train_labels_spec ds W) as (Wl & _ & C & _). destruct (C p Hp) as (q & Hq & Sm).
    apply split_ok. apply in_map_iff in Hq. destruct Hq as (lc & <- & Hl). destruct (Sp lc Hl) as [->|N]; auto. right.
    destruct p, (fst lc); cbn in Sm; try tauto; congruence.
  - intros i l' Hi. destruct (table_counts s i ds W) as [E A]. rewrite <- E.
    rewrite <- (id2obj_ext part_eqb part_view_eqb part_wf part_view_same) by auto. auto.
Qed.

Lemma part_values_at s i poses : (forall p, In p poses -> exists sp, split_pos s p = Ok sp) -> (i < length (split_names s))%nat ->
  part_values s i poses = map (part_at s i) poses.
Proof.
  intros H L. unfold part_values. induction poses as [|p poses IH]; auto. cbn [map concat].
  rewrite IH by (intros; apply H; right; auto). destruct (H p) as (sp & E); [left; auto|]. unfold part_at. rewrite E.
  destruct (split_names_spec _ _ _ E) as (K & _). destruct (nth_error sp i) as [[n v]|] eqn:N; auto.
  apply nth_error_None in N. rewrite <- K in L. unfold dict_keys in L. rewrite map_length in L. lia.
Qed.
