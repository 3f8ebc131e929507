(* Part of speech labels. *)
From Coq Require Import ZArith NArith Bool Lia Permutation List Sorted.
From Verif Require Import Base BaseFacts Model_Datamodel Model_Vocab Model_Features Spec_Datamodel Spec_Vocab Spec_Features
  Proofs_Datamodel Proofs_Datamodel3 Proofs_Datamodel4 Proofs_Vocab Proofs_Lemma.
Import ListNotations.
Open Scope Z_scope.

(* ------------------------------------------------------------------ *)
(* dictionaries depend only on the equality of the keys that occur *)

Section Ext.
Context {K : Type} (eqb eqb' : K -> K -> bool) (P : K -> Prop).
Hypothesis Heq : forall a b, P a -> P b -> eqb a b = eqb' a b.

Definition all_keys {V} (d : list (K * V)) : Prop := Forall (fun kv => P (fst kv)) d.

Lemma gget_ext {V} (d : list (K * V)) k : P k -> all_keys d -> gget eqb d k = gget eqb' d k.
Proof.
  intros Pk. induction 1 as [|[k' v] d Pk' D IH]; simpl; auto. rewrite <- (Heq k k') by auto.
  destruct (eqb k k'); auto.
Qed.

Lemma gset_ext {V} (d : list (K * V)) k v : P k -> all_keys d -> gset eqb d k v = gset eqb' d k v.
Proof.
  intros Pk. induction 1 as [|[k' v'] d Pk' D IH]; simpl; auto. rewrite <- (Heq k k') by auto.
  destruct (eqb k k'); auto. rewrite IH. auto.
Qed.

Lemma gset_all {V} (e : K -> K -> bool) (d : list (K * V)) k v : P k -> all_keys d -> all_keys (gset e d k v).
Proof.
  intros Pk. induction 1 as [|[k' v'] d Pk' D IH]; simpl; [repeat constructor; auto|].
  destruct (e k k'); constructor; auto.
Qed.

Lemma gadd_ext d k n : P k -> all_keys d -> gadd eqb d k n = gadd eqb' d k n.
Proof. intros Pk D. unfold gadd. rewrite (gget_ext d k), (gset_ext d k) by auto. auto. Qed.

Lemma count_list_ext l : Forall P l -> count_list eqb l = count_list eqb' l /\ all_keys (count_list eqb l).
Proof.
  intros F. unfold count_list. assert (H : forall d, all_keys d ->
    fold_left (fun d k => gadd eqb d k 1) l d = fold_left (fun d k => gadd eqb' d k 1) l d /\
    all_keys (fold_left (fun d k => gadd eqb d k 1) l d)).
  { induction F as [|x l Px F IH]; intros d D; simpl; auto. rewrite <- (gadd_ext d x) by auto.
    apply IH. apply gset_all; auto. }
  apply H. constructor.
Qed.

Lemma most_common_all (d : list (K * Z)) mc : all_keys d -> most_common d = Some mc -> P mc.
Proof.
  intros D H. apply most_common_spec in H. destruct H as (b & n & a & -> & _). unfold all_keys in D.
  rewrite Forall_app in D. destruct D as [_ D]. inversion D; auto.
Qed.

Lemma id2obj_ext cmp d t : all_keys d -> id2obj eqb cmp d t = id2obj eqb' cmp d t.
Proof.
  intros D. unfold id2obj. destruct (most_common d) as [mc|] eqn:M; simpl; auto.
  apply most_common_all in M; auto. f_equal. f_equal.
  set (kept := if 0 <? t then filter (fun kv => t <? snd kv) d else d).
  assert (A : all_keys kept).
  { unfold kept. destruct (0 <? t); auto. clear -D. induction D as [|x d Px D IH]; simpl; [constructor|].
    destruct (t <? snd x); auto. constructor; auto. }
  clear -A M Heq. induction A as [|x kept Px A IH]; simpl; auto. rewrite <- (Heq (fst x) mc) by auto. rewrite IH. auto.
Qed.

Lemma obj2id_ext l : Forall P l -> obj2id eqb l = obj2id eqb' l.
Proof.
  intros F. unfold obj2id. assert (H : forall (io : list (Z * K)) d, Forall (fun x => P (snd x)) io -> all_keys d ->
    fold_left (fun d io => gset eqb d (snd io) (fst io)) io d = fold_left (fun d io => gset eqb' d (snd io) (fst io)) io d).
  { induction io as [|x io IH]; intros d Fi D; simpl; auto. inversion Fi; subst.
    rewrite <- (gset_ext d (snd x)) by auto. apply IH; auto. apply gset_all; auto. }
  apply H; [|constructor]. unfold enumerate. apply Forall_forall. intros [i k] Hin.
  apply in_combine_r in Hin. rewrite Forall_forall in F. simpl. auto.
Qed.
End Ext.

(* ------------------------------------------------------------------ *)
(* equality of parts *)

Definition part_wf (a : part) : Prop := match a with PaPos p => opt_pos_wf p | _ => True end.
Definition part_same (a b : part) : Prop :=
  match a, b with
  | PaPos p, PaPos q => same_pos p q
  | PaPos _, _ | _, PaPos _ => False
  | _, _ => a = b
  end.

Lemma item_eqb_eq a b : item_eqb a b = true <-> a = b.
Proof.
  destruct a as [k v], b as [k' v']. unfold item_eqb. simpl. rewrite andb_true_iff, !str_eqb_eq. split.
  - intros [-> ->]. auto.
  - intros E; inversion E; auto.
Qed.

Lemma items_eqb_eq a b : items_eqb a b = true <-> a = b.
Proof. apply list_eqb_eq, item_eqb_eq. Qed.

Lemma pos_eqb_opt p q : opt_pos_wf p -> opt_pos_wf q -> (option_eqb pos_eqb p q = true <-> same_pos p q).
Proof.
  destruct p as [p|], q as [q|]; simpl; intros Wp Wq; try (split; [discriminate|tauto]); [|tauto].
  apply pos_eqb_same; auto.
Qed.

Lemma part_eqb_same a b : part_wf a -> part_wf b -> (part_eqb a b = true <-> part_same a b).
Proof.
  destruct a, b; simpl; intros Wa Wb; try (split; [discriminate|intuition discriminate]).
  - apply pos_eqb_opt; auto.
  - rewrite option_str_eqb. split; [intros ->; auto|intros E; inversion E; auto].
  - rewrite items_eqb_eq. split; [intros ->; auto|intros E; inversion E; auto].
  - rewrite andb_true_iff, option_str_eqb, items_eqb_eq. split; [intros [-> ->]; auto|intros E; inversion E; auto].
Qed.

(* an equivalence that agrees with == on the values that occur *)
Definition view_eqb (a b : option pos) : bool :=
  match a, b with
  | Some p, Some q => option_eqb str_eqb (upos p) (upos q) && option_eqb str_eqb (xpos p) (xpos q)
                      && items_eqb (sorted_items (feats p)) (sorted_items (feats q))
  | None, None => true
  | _, _ => false
  end.
Definition part_view_eqb (a b : part) : bool :=
  match a, b with PaPos p, PaPos q => view_eqb p q | _, _ => part_eqb a b end.

Lemma view_eqb_iff a b : view_eqb a b = true <-> option_map tuple_view a = option_map tuple_view b.
Proof.
  destruct a as [p|], b as [q|]; simpl; try (split; intros; congruence).
  rewrite !andb_true_iff, !option_str_eqb, items_eqb_eq. unfold tuple_view. split.
  - intros [[-> ->] ->]. auto.
  - intros E. injection E as E1 E2 E3. auto.
Qed.

Lemma view_equiv : equivalence view_eqb.
Proof.
  split; [intros a; apply view_eqb_iff; auto|]. split; intros a b; [rewrite !view_eqb_iff; auto|].
  intros c. rewrite !view_eqb_iff. congruence.
Qed.

Lemma view_eqb_same p q : opt_pos_wf p -> opt_pos_wf q -> option_eqb pos_eqb p q = view_eqb p q.
Proof.
  intros Wp Wq. apply Bool.eq_iff_eq_true. rewrite pos_eqb_opt, view_eqb_iff by auto.
  destruct p as [p|], q as [q|]; unfold same_pos, get_rel, option_map.
  - rewrite <- tuple_view_iff by auto. split; [intros ->; auto|congruence].
  - split; [tauto|discriminate].
  - split; [tauto|discriminate].
  - tauto.
Qed.

Lemma part_view_equiv : equivalence part_view_eqb.
Proof.
  destruct view_equiv as (R & Sy & T). split; [|split].
  - intros [p|s|f|x f]; simpl; auto.
    + apply option_str_eqb; auto.
    + apply items_eqb_eq; auto.
    + apply andb_true_iff. rewrite option_str_eqb, items_eqb_eq. auto.
  - intros [p|s|f|x f] [p'|s'|f'|x' f']; simpl; auto; try discriminate.
    + rewrite !option_str_eqb. auto.
    + rewrite !items_eqb_eq. auto.
    + rewrite !andb_true_iff, !option_str_eqb, !items_eqb_eq. intuition.
  - intros [p|s|f|x f] [p'|s'|f'|x' f'] [p2|s2|f2|x2 f2]; simpl; auto; try discriminate.
    + apply T.
    + rewrite !option_str_eqb. congruence.
    + rewrite !items_eqb_eq. congruence.
    + rewrite !andb_true_iff, !option_str_eqb, !items_eqb_eq. intuition congruence.
Qed.

Lemma part_view_same a b : part_wf a -> part_wf b -> part_eqb a b = part_view_eqb a b.
Proof. destruct a, b; simpl; auto. intros. apply view_eqb_same; auto. Qed.

(* ------------------------------------------------------------------ *)
(* splitting and combining *)

Lemma dict_set_fresh {V} (d : dict V) k v : ~ In k (dict_keys d) -> dict_set d k v = d ++ [(k, v)].
Proof.
  induction d as [|[k' v'] d IH]; simpl; auto. intros H. destruct (str_eqb k k') eqn:E.
  - apply str_eqb_eq in E. subst. exfalso. auto.
  - rewrite IH; auto.
Qed.

Lemma dict_update_fresh {V} (e d : dict V) : dict_ok e -> (forall k, In k (dict_keys e) -> ~ In k (dict_keys d)) ->
  dict_update d e = d ++ e.
Proof.
  unfold dict_update, dict_ok, dict_keys. revert d. induction e as [|[k v] e IH]; intros d N H; simpl; [rewrite app_nil_r; auto|].
  inversion N; subst. rewrite dict_set_fresh by (apply H; simpl; auto). rewrite IH; auto.
  - rewrite <- app_assoc. auto.
  - intros k' Hk' X. unfold dict_keys in X. rewrite map_app, in_app_iff in X. simpl in X. destruct X as [X|[X|[]]].
    + apply (H k'); simpl; auto.
    + subst. auto.
Qed.

Lemma items_dict_id f : dict_ok f -> items_dict f = f.
Proof. intros H. unfold items_dict. rewrite dict_update_fresh; auto. Qed.

Lemma sorted_items_get d : dict_ok d -> dict_ok (sorted_items d) /\ forall k, dict_get (sorted_items d) k = dict_get d k.
Proof.
  intros H. assert (O : dict_ok (sorted_items d)).
  { unfold dict_ok, dict_keys. eapply Permutation_NoDup; [apply Permutation_map, sorted_items_perm|exact H]. }
  split; auto. intros k. apply perm_dict_equiv; auto. apply Permutation_sym, sorted_items_perm.
Qed.

(* the feature classes of the granular splitter are usable for p *)
Definition splitter_ok (s : splitter) (p : pos) : Prop :=
  match s with
  | SGran keys => NoDup keys /\ ~ In n_UPOS keys /\ ~ In n_XPOS keys /\
                  forall k, dict_get (feats p) k <> None -> In k keys
  | _ => True
  end.

Lemma gran_names : n_UPOS <> n_XPOS.
Proof. discriminate. Qed.

Lemma split_gran keys p : NoDup keys -> ~ In n_UPOS keys -> ~ In n_XPOS keys ->
  split_pos (SGran keys) (Some p) =
  Ok ([(n_UPOS, PaStr (upos p)); (n_XPOS, PaStr (xpos p))] ++ map (fun k => (k, PaStr (dict_get (feats p) k))) keys).
Proof.
  intros N U X. cbn [split_pos of_option bind]. f_equal.
  assert (E : dict_keys (map (fun k => (k, PaStr (dict_get (feats p) k))) keys) = keys).
  { unfold dict_keys. rewrite map_map. simpl. apply map_id. }
  apply dict_update_fresh.
  - unfold dict_ok. rewrite E. auto.
  - intros k. rewrite E. simpl. intros Hk [<-|[<-|[]]]; auto.
Qed.

Lemma gran_fold (get : str -> option str) keys : NoDup keys -> forall ks pre d, keys = pre ++ ks -> dict_ok d ->
  (forall k, In k (dict_keys d) -> In k pre) ->
  exists d', foldM (fun d iv => do v <- as_str (snd iv);
                    match v with None => Ok d | Some v => do k <- py_index keys (fst iv); Ok (dict_set d k v) end) d
      (combine (map Z.of_nat (seq (length pre) (length ks))) (map (fun k => PaStr (get k)) ks)) = Ok d' /\
    dict_ok d' /\ (forall k, dict_get d' k = if in_dec (list_eq_dec N.eq_dec) k ks then get k else dict_get d k).
Proof.
  intros N. induction ks as [|k ks IH]; intros pre d E O I.
  - exists d. split; [reflexivity|]. split; auto. 
  - cbn [length seq map combine foldM snd as_str bind fst].
    assert (Hi : py_index keys (Z.of_nat (length pre)) = Ok k).
    { rewrite py_index_nonneg by lia. rewrite Nat2Z.id, E, nth_error_app2, Nat.sub_diag by lia. auto. }
    assert (Nk : ~ In k pre /\ ~ In k ks).
    { rewrite E in N. apply NoDup_remove in N. destruct N as [_ N]. rewrite in_app_iff in N. tauto. }
    assert (E' : keys = (pre ++ [k]) ++ ks) by (rewrite <- app_assoc; exact E).
    assert (L : length (pre ++ [k]) = S (length pre)) by (rewrite app_length; simpl; lia).
    destruct (get k) as [v|] eqn:G.
    + rewrite Hi. cbn [bind].
      destruct (IH (pre ++ [k]) (dict_set d k v) E' (dict_set_ok _ _ _ O)) as (d' & F & O' & Hg).
      { intros k' Hk'. rewrite dict_keys_set in Hk'. rewrite in_app_iff. simpl.
        destruct (dict_mem d k) eqn:M; [left; auto|]. apply in_app_iff in Hk'. simpl in Hk'. intuition. }
      rewrite L in F. exists d'. split; [exact F|]. split; auto. intros k'. rewrite Hg.
      destruct (in_dec (list_eq_dec N.eq_dec) k' ks), (in_dec (list_eq_dec N.eq_dec) k' (k :: ks)); simpl in *; auto; try tauto.
      * assert (k' = k) by (intuition congruence). subst. rewrite dict_get_set_same. auto.
      * apply dict_get_set_other. intros ->. tauto.
    + cbn [bind].
      destruct (IH (pre ++ [k]) d E' O) as (d' & F & O' & Hg).
      { intros k' Hk'. apply in_app_iff. auto. }
      rewrite L in F. exists d'. split; [exact F|]. split; auto. intros k'. rewrite Hg.
      destruct (in_dec (list_eq_dec N.eq_dec) k' ks), (in_dec (list_eq_dec N.eq_dec) k' (k :: ks)); simpl in *; auto; try tauto.
      assert (k' = k) by (intuition congruence). subst. rewrite G. apply dict_get_None. intros X. apply I in X. tauto.
Qed.

Lemma part_same_refl a : part_wf a -> part_same a a.
Proof.
  destruct a as [[p|]|s|f|x f]; simpl; auto. intros _. repeat split.
Qed.

Lemma str_parts_eq l parts : Forall2 part_same (map PaStr l) parts -> parts = map PaStr l.
Proof.
  revert parts. induction l as [|s l IH]; intros parts F; inversion F; subst; auto. simpl. f_equal; auto.
  destruct y; simpl in *; try tauto; congruence.
Qed.

(* combining parts that are equal to those of p gives p again *)
Lemma combine_split s p sp parts : opt_pos_wf p -> (forall q, p = Some q -> splitter_ok s q) ->
  split_pos s p = Ok sp -> Forall2 part_same (map snd sp) parts ->
  exists q, combine_pos s parts = Ok q /\ same_pos p q /\ (s <> SNo -> opt_pos_wf q).
Proof.
  intros W K H F. destruct s as [| | |keys].
  - inversion H; subst. inversion F; subst. inversion H4; subst. destruct y; simpl in H2; try tauto.
    exists p0. split; [reflexivity|]. split; [exact H2|congruence].
  - destruct p as [q|]; [|discriminate]. inversion H; subst.
    change (map snd _) with (map PaStr [upos q; xpos q] ++ [PaFeats (sorted_items (feats q))]) in F.
    apply Forall2_app_inv_l in F. destruct F as (l1 & l2 & F1 & F2 & ->). apply str_parts_eq in F1. subst l1.
    inversion F2; subst. inversion H4; subst. destruct y; simpl in H2; try tauto; try discriminate. inversion H2; subst.
    exists (Some (mkPos (upos q) (xpos q) (items_dict (sorted_items (feats q))))). split; [reflexivity|].
    destruct (sorted_items_get _ W) as (O & G). rewrite items_dict_id by auto. split.
    + unfold same_pos, get_rel, pos_same. simpl. split; [reflexivity|]. split; [reflexivity|]. intros k. symmetry. apply G.
    + intros _. exact O.
  - destruct p as [q|]; [|discriminate]. inversion H; subst.
    change (map snd _) with (map PaStr [upos q] ++ [PaXF (xpos q) (sorted_items (feats q))]) in F.
    apply Forall2_app_inv_l in F. destruct F as (l1 & l2 & F1 & F2 & ->). apply str_parts_eq in F1. subst l1.
    inversion F2; subst. inversion H4; subst. destruct y; simpl in H2; try tauto; try discriminate. inversion H2; subst.
    exists (Some (mkPos (upos q) (xpos q) (items_dict (sorted_items (feats q))))). split; [reflexivity|].
    destruct (sorted_items_get _ W) as (O & G). rewrite items_dict_id by auto. split.
    + unfold same_pos, get_rel, pos_same. simpl. split; [reflexivity|]. split; [reflexivity|]. intros k. symmetry. apply G.
    + intros _. exact O.
  - destruct p as [q|]; [|discriminate]. destruct (K q eq_refl) as (N & U & X & C).
    rewrite split_gran in H by auto.
    assert (Es : map snd sp = map PaStr (upos q :: xpos q :: map (dict_get (feats q)) keys)).
    { injection H as <-. simpl. rewrite !map_map. auto. }
    rewrite Es in F. apply str_parts_eq in F. subst parts.
    cbn [combine_pos]. 
    assert (E : py_from (map PaStr (upos q :: xpos q :: map (dict_get (feats q)) keys)) 2 =
                map (fun k => PaStr (dict_get (feats q) k)) keys).
    { cbn [map]. change (PaStr (upos q) :: PaStr (xpos q) :: map PaStr (map (dict_get (feats q)) keys))
        with ([PaStr (upos q); PaStr (xpos q)] ++ map PaStr (map (dict_get (feats q)) keys)).
      replace 2 with (zlen [PaStr (upos q); PaStr (xpos q)]) by reflexivity. rewrite py_from_app. apply map_map. }
    rewrite E. unfold enumerate, zrange, zlen. rewrite map_length, Nat2Z.id.
    destruct (gran_fold (dict_get (feats q)) keys N keys [] [] eq_refl) as (d' & Fd & O & G); [constructor|intros ? []|].
    cbn [length] in Fd. rewrite Fd. cbn [bind map].
    change (py_index (PaStr (upos q) :: ?l) 0) with (Ok (PaStr (upos q))) .
    exists (Some (mkPos (upos q) (xpos q) d')). split; [reflexivity|]. split.
    + unfold same_pos, get_rel, pos_same. simpl. split; [reflexivity|]. split; [reflexivity|]. intros k. rewrite G. destruct (in_dec (list_eq_dec N.eq_dec) k keys) as [Hk|Hk]; auto.
      simpl. destruct (dict_get (feats q) k) eqn:Y; auto. exfalso. apply Hk, C. congruence.
    + intros _. exact O.
Qed.
