(* Part of speech labels: the vocabulary of every part. *)
From Coq Require Import ZArith NArith Bool Lia Permutation List Sorted.
From Verif Require Import Base BaseFacts Model_Datamodel Model_Vocab Model_Features Spec_Datamodel Spec_Vocab Spec_Features
  Proofs_Datamodel Proofs_Datamodel3 Proofs_Datamodel4 Proofs_Vocab Proofs_Lemma Proofs_Lemma2 Proofs_Features.
Import ListNotations.
Open Scope Z_scope.

(* ------------------------------------------------------------------ *)
(* names of the parts *)

Lemma dict_mem_keys {V W} (d : dict V) (e : dict W) k : dict_keys d = dict_keys e -> dict_mem d k = dict_mem e k.
Proof.
  intros H. apply Bool.eq_iff_eq_true. rewrite !dict_mem_In, H. tauto.
Qed.

Lemma dict_update_keys {V W} (e : dict V) : forall (e' : dict W) (d : dict V) (d' : dict W),
  dict_keys e = dict_keys e' -> dict_keys d = dict_keys d' -> dict_keys (dict_update d e) = dict_keys (dict_update d' e').
Proof.
  unfold dict_update. induction e as [|[k v] e IH]; intros [|[k' v'] e'] d d' He Hd; simpl in *; auto; try discriminate.
  injection He as -> He. apply IH; auto. rewrite !dict_keys_set, (dict_mem_keys d d'), Hd by auto. auto.
Qed.

Definition split_names (s : splitter) : list str :=
  match s with
  | SNo => [n_POS]
  | SUXF => [n_UPOS; n_XPOS; n_FEATS]
  | SXF => [n_UPOS; n_XF]
  | SGran keys => dict_keys (dict_update [(n_UPOS, tt); (n_XPOS, tt)] (map (fun k => (k, tt)) keys))
  end.

Lemma split_names_spec s p sp : split_pos s p = Ok sp -> dict_keys sp = split_names s /\ dict_ok sp.
Proof.
  destruct s as [| | |keys]; cbn [split_pos].
  - intros H; inversion H; subst. split; auto. repeat constructor. simpl; tauto.
  - destruct p; [|discriminate]. intros H; inversion H; subst. split; auto.
    repeat constructor; simpl; intuition discriminate.
  - destruct p; [|discriminate]. intros H; inversion H; subst. split; auto.
    repeat constructor; simpl; intuition discriminate.
  - destruct p; [|discriminate]. cbn [of_option bind]. intros H; inversion H; subst. split.
    + apply dict_update_keys; auto. unfold dict_keys. rewrite !map_map. auto.
    + apply dict_update_ok. repeat constructor; simpl; intuition discriminate.
Qed.

Lemma split_ok s p : (exists sp, split_pos s p = Ok sp) <-> (s = SNo \/ p <> None).
Proof.
  split.
  - intros (sp & H). destruct p; [right; discriminate|]. destruct s; try discriminate. auto.
  - intros [-> |H]; [simpl; eauto|]. destruct p; [|congruence]. destruct s; simpl; eauto.
Qed.

Lemma dict_update_forall {V} (P : str * V -> Prop) (e d : dict V) : Forall P d -> Forall P e -> Forall P (dict_update d e).
Proof.
  unfold dict_update. intros Hd He. revert d Hd. induction He as [|[k v] e Hk He IH]; intros d Hd; simpl; auto.
  apply IH. clear -Hd Hk. induction Hd as [|[k' v'] d H Hd IH]; simpl; auto. destruct (str_eqb k k') eqn:E; constructor; auto.
  apply str_eqb_eq in E. subst. auto.
Qed.

Lemma split_wf s p sp : opt_pos_wf p -> split_pos s p = Ok sp -> Forall (fun nv => part_wf (snd nv)) sp.
Proof.
  intros W. destruct s as [| | |keys]; cbn [split_pos].
  - intros H; inversion H; subst. repeat constructor; auto.
  - destruct p; [|discriminate]. intros H; inversion H; subst. repeat constructor.
  - destruct p; [|discriminate]. intros H; inversion H; subst. repeat constructor.
  - destruct p; [|discriminate]. cbn [of_option bind]. intros H; inversion H; subst. apply dict_update_forall.
    + repeat constructor.
    + apply Forall_map. apply Forall_forall. simpl. auto.
Qed.

(* equal Pos are split into equal parts *)
Definition named_same (a b : str * part) : Prop := fst a = fst b /\ part_same (snd a) (snd b).

Lemma split_same s p q sp : opt_pos_wf p -> opt_pos_wf q -> same_pos p q -> split_pos s p = Ok sp ->
  exists sq, split_pos s q = Ok sq /\ Forall2 named_same sp sq.
Proof.
  intros Wp Wq H E.
  assert (C : p = None /\ q = None \/ exists a b, p = Some a /\ q = Some b /\ pos_same a b /\ pos_wf a /\ pos_wf b).
  { destruct p as [a|], q as [b|]; simpl in *; try tauto. right. exists a, b. auto. }
  destruct C as [[-> ->]|(a & b & -> & -> & Hs & Wa & Wb)].
  - exists sp. split; auto. assert (W := split_wf _ _ _ Wp E). clear -W. induction W; constructor; auto.
    split; auto. apply part_same_refl; auto.
  - destruct Hs as (Hu & Hx & Hf).
    assert (Hi : sorted_items (feats a) = sorted_items (feats b)) by (apply sorted_items_iff; auto).
    destruct s as [| | |keys]; cbn [split_pos of_option bind] in *; inversion E; subst; eexists; (split; [reflexivity|]).
    + repeat constructor; simpl; auto.
    + rewrite Hu, Hx, Hi. repeat constructor.
    + rewrite Hu, Hx, Hi. repeat constructor.
    + rewrite Hu, Hx. replace (map (fun k => (k, PaStr (dict_get (feats a) k))) keys)
        with (map (fun k => (k, PaStr (dict_get (feats b) k))) keys) by (apply map_ext; intros; rewrite Hf; auto).
      set (l := dict_update _ _).
      assert (W : Forall (fun nv => part_wf (snd nv)) l).
      { apply dict_update_forall; [repeat constructor|]. apply Forall_map, Forall_forall. simpl. auto. }
      clear -W. induction W; constructor; auto. split; auto. apply part_same_refl; auto.
Qed.

(* ------------------------------------------------------------------ *)
(* counting parts *)

Definition counts_inv (names : list str) (counts : dict (list (part * Z))) (obs : list (str * part)) : Prop :=
  dict_keys counts = names /\
  forall n d, dict_get counts n = Some d ->
    all_keys part_wf d /\ all_distinct part_view_eqb (map fst d) /\
    (forall v, In v (map fst d) -> In (n, v) obs) /\
    (forall v, In (n, v) obs -> exists v', In v' (map fst d) /\ part_view_eqb v v' = true).

Lemma gset_keys_in {K V} (eqb : K -> K -> bool) (d : list (K * V)) k v x :
  In x (map fst (gset eqb d k v)) <-> In x (map fst d) \/ (x = k /\ gget eqb d k = None).
Proof.
  induction d as [|[k' v'] d IH]; simpl; [intuition|].
  destruct (eqb k k') eqn:E; simpl; [intuition congruence|]. rewrite IH. intuition.
Qed.

Lemma add_part_inv names counts obs n v c : counts_inv names counts obs -> In n names -> part_wf v ->
  exists counts', add_part counts n v c = Ok counts' /\ counts_inv names counts' (obs ++ [(n, v)]).
Proof.
  intros (Hk & H) Hn Wv. unfold add_part. rewrite <- Hk in Hn. 
  destruct (dict_get counts n) as [d|] eqn:G; [|apply dict_get_None in G; contradiction].
  cbn [of_option bind]. eexists. split; [reflexivity|]. destruct (H n d G) as (A & D & S1 & S2).
  split.
  - rewrite dict_keys_set. destruct (dict_mem counts n) eqn:M; auto. unfold dict_mem in M. rewrite G in M. discriminate.
  - intros n' d' G'. destruct (str_eqb n' n) eqn:E.
    + apply str_eqb_eq in E. subst n'. rewrite dict_get_set_same in G'. inversion G'; subst d'; clear G'.
      rewrite (gadd_ext part_eqb part_view_eqb part_wf) by (auto using part_view_same).
      unfold gadd. split; [|split; [|split]].
      * apply gset_all; auto.
      * apply gset_distinct; auto. apply part_view_equiv.
      * intros x Hx. apply gset_keys_in in Hx. apply in_app_iff. destruct Hx as [Hx|[-> _]]; [left; auto|right; left; auto].
      * intros x Hx. apply in_app_iff in Hx. destruct Hx as [Hx|[Hx|[]]].
        -- destruct (S2 x Hx) as (v' & Hv' & Ev'). exists v'. split; auto. apply gset_keys_in. auto.
        -- inversion Hx; subst x. destruct (gget part_view_eqb d v) as [m|] eqn:Gv.
           ++ assert (X := Gv). apply gget_In in X. destruct X as (v' & Hv' & Ev'). exists v'. split; auto.
              apply gset_keys_in. left. apply (in_map fst) in Hv'. auto.
           ++ exists v. split; [apply gset_keys_in; auto|]. apply (eqv_refl _ part_view_equiv).
    + assert (n <> n') by (intros ->; rewrite str_eqb_refl in E; discriminate).
      rewrite dict_get_set_other in G' by auto. destruct (H n' d' G') as (A' & D' & S1' & S2').
      split; [auto|split; [auto|split]].
      * intros x Hx. apply in_app_iff. auto.
      * intros x Hx. apply in_app_iff in Hx. destruct Hx as [Hx|[Hx|[]]]; auto. inversion Hx; subst. congruence.
Qed.

Lemma add_parts_inv names c : forall sp counts obs, counts_inv names counts obs ->
  (forall n v, In (n, v) sp -> In n names /\ part_wf v) ->
  exists counts', foldM (fun counts nv => add_part counts (fst nv) (snd nv) c) counts sp = Ok counts' /\
    counts_inv names counts' (obs ++ sp).
Proof.
  induction sp as [|[n v] sp IH]; intros counts obs Inv Hs; simpl.
  - exists counts. rewrite app_nil_r. auto.
  - destruct (Hs n v) as [Hn Hv]; [left; auto|].
    destruct (add_part_inv names counts obs n v c Inv Hn Hv) as (c1 & E1 & I1). rewrite E1. cbn [bind].
    destruct (IH c1 _ I1) as (c2 & E2 & I2); [intros; apply Hs; right; auto|]. exists c2. split; auto.
    rewrite <- app_assoc in I2. auto.
Qed.

(* all parts of some labels, in order *)
Definition observed (s : splitter) (labels : list (option pos * Z)) : list (str * part) :=
  concat (map (fun lc => match split_pos s (fst lc) with Ok sp => sp | Err _ => [] end) labels).

Lemma In_dict_keys {V} (d : dict V) n v : In (n, v) d -> In n (dict_keys d).
Proof. apply (in_map fst). Qed.

Lemma count_loop s : forall labels counts obs,
  counts_inv (split_names s) counts obs -> Forall (fun lc => opt_pos_wf (fst lc)) labels ->
  (forall lc, In lc labels -> s = SNo \/ fst lc <> None) ->
  exists counts', foldM (fun counts lc => do sp <- split_pos s (fst lc);
      foldM (fun counts nv => add_part counts (fst nv) (snd nv) (snd lc)) counts sp) counts labels = Ok counts' /\
    counts_inv (split_names s) counts' (obs ++ observed s labels).
Proof.
  induction labels as [|lc labels IH]; intros counts obs Inv W Hs; cbn [foldM].
  - exists counts. unfold observed. simpl. rewrite app_nil_r. auto.
  - inversion W; subst. destruct (proj2 (split_ok s (fst lc)) (Hs lc (or_introl eq_refl))) as (sp & E).
    rewrite E. cbn [bind]. destruct (split_names_spec _ _ _ E) as (En & _). assert (Ws := split_wf _ _ _ H1 E).
    destruct (add_parts_inv (split_names s) (snd lc) sp counts obs Inv) as (c1 & E1 & I1).
    { intros n v Hin. split; [rewrite <- En; eapply In_dict_keys; eauto|]. rewrite Forall_forall in Ws. apply (Ws (n, v)). auto. }
    rewrite E1. cbn [bind]. destruct (IH c1 _ I1 H2) as (c2 & E2 & I2); [intros; apply Hs; right; auto|].
    exists c2. split; auto. unfold observed in *. cbn [map concat]. rewrite E. rewrite <- app_assoc in I2. auto.
Qed.

Lemma count_parts_spec s labels : labels <> [] -> Forall (fun lc => opt_pos_wf (fst lc)) labels ->
  (forall lc, In lc labels -> s = SNo \/ fst lc <> None) ->
  exists counts, count_parts s labels = Ok counts /\ counts_inv (split_names s) counts (observed s labels).
Proof.
  intros N W Hs. unfold count_parts. destruct labels as [|lc0 labels]; [congruence|]. cbn [hd_error of_option bind].
  destruct (proj2 (split_ok s (fst lc0)) (Hs lc0 (or_introl eq_refl))) as (sp & E). rewrite E. cbn [bind].
  destruct (split_names_spec _ _ _ E) as (En & _).
  apply (count_loop s (lc0 :: labels) _ []); auto. split.
  - unfold dict_keys. rewrite map_map. simpl. exact En.
  - intros n d G. assert (d = []).
    { apply dict_get_In in G. apply in_map_iff in G. destruct G as (x & X & _). inversion X. auto. }
    subst d. split; [constructor|]. split; [constructor|]. split; [intros v []|intros v []].
Qed.

Lemma count_parts_fails s labels counts : count_parts s labels = Ok counts ->
  labels <> [] /\ forall lc, In lc labels -> s = SNo \/ fst lc <> None.
Proof.
  unfold count_parts. destruct labels as [|lc0 labels]; [discriminate|]. cbn [hd_error of_option bind].
  intros H. split; [discriminate|]. apply bind_ok_iff in H. destruct H as (sp & E & H). clear E.
  revert H. generalize (map (fun nv : str * part => (fst nv, @nil (part * Z))) sp). generalize (lc0 :: labels).
  induction l as [|lc l IH]; intros c0 H lc' Hin; [destruct Hin|]. cbn [foldM] in H.
  apply bind_ok_iff in H. destruct H as (c1 & E & H). apply bind_ok_iff in E. destruct E as (sp' & E & _).
  destruct Hin as [<-|Hin]; [|eapply IH; eauto]. apply split_ok. eauto.
Qed.

(* ------------------------------------------------------------------ *)
(* the training labels *)

Definition train_labels (ds : list document) : list (option pos * Z) :=
  count_labels (option_eqb pos_eqb) (fun x => tpos (dt_tok x)) ds.

Lemma view_same p q : opt_pos_wf p -> opt_pos_wf q -> (view_eqb p q = true <-> same_pos p q).
Proof. intros. rewrite <- view_eqb_same, pos_eqb_opt by auto. tauto. Qed.

Lemma part_view_iff a b : part_wf a -> part_wf b -> (part_view_eqb a b = true <-> part_same a b).
Proof. intros. rewrite <- part_view_same, part_eqb_same by auto. tauto. Qed.

Lemma train_labels_spec ds : Forall opt_pos_wf (dataset_poses ds) ->
  Forall (fun lc => opt_pos_wf (fst lc)) (train_labels ds) /\
  (forall p, In p (map fst (train_labels ds)) -> In p (dataset_poses ds)) /\
  (forall p, In p (dataset_poses ds) -> exists q, In q (map fst (train_labels ds)) /\ same_pos p q) /\
  (train_labels ds = [] <-> dataset_poses ds = []).
Proof.
  intros W. unfold train_labels, count_labels. fold (dataset_poses ds).
  destruct (count_list_ext _ view_eqb opt_pos_wf view_eqb_same _ W) as (E & A). 
  split; [exact A|]. rewrite E in *. split; [|split].
  - intros p Hp. apply in_map_iff in Hp. destruct Hp as ([p' n] & <- & Hp). apply count_list_In in Hp; [|apply view_equiv].
    apply Hp.
  - intros p Hp. destruct (In_count_list view_eqb view_equiv _ _ Hp) as (q & Eq & Hq). exists q.
    split; [apply (in_map fst) in Hq; exact Hq|]. apply view_same; auto.
    + rewrite Forall_forall in W. auto.
    + unfold all_keys in A. rewrite Forall_forall in A. apply (A _ Hq).
  - split; [apply count_list_nil, view_equiv|]. intros ->. reflexivity.
Qed.
