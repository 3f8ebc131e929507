(* Part of speech labels: building, round trip, interpretation of predictions. *)
From Coq Require Import ZArith NArith Bool Lia Permutation List Sorted.
From Verif Require Import Base BaseFacts Model_Datamodel Model_Vocab Model_Features Spec_Datamodel Spec_Vocab Spec_Features
  Proofs_Datamodel Proofs_Datamodel3 Proofs_Datamodel4 Proofs_Vocab Proofs_Lemma Proofs_Lemma2 Proofs_Features Proofs_Features2.
Import ListNotations.
Open Scope Z_scope.

(* ------------------------------------------------------------------ *)
(* feature classes of the granular splitter *)

Lemma set_keys (l : list str) : forall d, dict_ok d ->
  dict_ok (fold_left (fun d k => dict_set d k tt) l d) /\
  forall k, In k (dict_keys (fold_left (fun d k => dict_set d k tt) l d)) <-> In k (dict_keys d) \/ In k l.
Proof.
  induction l as [|x l IH]; intros d O; simpl; [intuition|].
  destruct (IH (dict_set d x tt) (dict_set_ok _ _ _ O)) as (O' & H). split; auto. intros k. rewrite H, dict_keys_set.
  destruct (dict_mem d x) eqn:M.
  - apply dict_mem_In in M. intuition; subst; auto.
  - rewrite in_app_iff. simpl. intuition.
Qed.

Lemma feats_keys_spec poses keys : feats_keys poses = Ok keys ->
  (forall p, In p poses -> p <> None) /\ NoDup keys /\ StronglySorted (leR str_le) keys /\
  (forall k, In k keys <-> trained_feature poses k).
Proof.
  unfold feats_keys. intros H. apply bind_ok_iff in H. destruct H as (names & M & H). injection H as <-.
  apply mapM_ok in M.
  assert (P : (forall p, In p poses -> p <> None) /\ forall k, In k (concat names) <-> trained_feature poses k).
  { unfold trained_feature. induction M as [|p ns poses names E M IH]; simpl.
    - split; [tauto|]. intros k. split; [tauto|]. intros (q & [] & _).
    - destruct p as [q|]; simpl in E; [|discriminate]. injection E as <-. destruct IH as [IH1 IH2]. split.
      + intros p [<-|Hp]; [discriminate|auto].
      + intros k. rewrite in_app_iff, IH2. split.
        * intros [Hk|(q' & Hq' & G)]; [|eauto]. exists q. split; auto. intros X. apply dict_get_None in X. auto.
        * intros (q' & [X|Hq'] & G); [|right; eauto]. injection X as ->. left. 
          destruct (in_dec (list_eq_dec N.eq_dec) k (dict_keys (feats q'))); auto. exfalso. apply G, dict_get_None. auto. }
  destruct P as [P1 P2]. split; auto. unfold sorted_strs.
  set (l := dict_keys _). assert (Pm := isort_perm str_le l).
  destruct (set_keys (concat names) []) as (O & Hk); [constructor|]. fold l in Hk.
  split; [|split].
  - eapply Permutation_NoDup; [exact Pm|exact O].
  - apply isort_sorted. exact (leb_of_ok _ str_cmp_ok).
  - intros k. rewrite <- P2. split.
    + intros Hin. apply (Permutation_in _ (Permutation_sym Pm)) in Hin. apply Hk in Hin. simpl in Hin. tauto.
    + intros Hin. apply (Permutation_in _ Pm). apply Hk. auto.
Qed.

Lemma feats_keys_ok poses : (forall p, In p poses -> p <> None) -> exists keys, feats_keys poses = Ok keys.
Proof.
  intros H. unfold feats_keys. assert (M : exists ns, mapM (fun p => do q <- of_option EAttr p; Ok (dict_keys (feats q))) poses = Ok ns).
  { induction poses as [|p poses IH]; simpl; eauto. destruct IH as (ns & E); [intros; apply H; right; auto|].
    destruct p as [q|]; [|exfalso; apply (H None); simpl; auto]. simpl. rewrite E. simpl. eauto. }
  destruct M as (ns & ->). simpl. eauto.
Qed.

(* ------------------------------------------------------------------ *)
(* mapM over enumerate with a list in parallel *)

Lemma mapM_enumerate {A B C} (f : A -> B -> result C) (l : list A) (xs : list B) : (length xs <= length l)%nat ->
  mapM (fun ix => do a <- py_index l (fst ix); f a (snd ix)) (enumerate xs) = mapM (fun ab => f (fst ab) (snd ab)) (combine l xs).
Proof.
  unfold enumerate, zrange, zlen. rewrite Nat2Z.id.
  assert (H : forall xs l pre, (length xs <= length l)%nat ->
    mapM (fun ix => do a <- py_index (pre ++ l) (fst ix); f a (snd ix)) (combine (map Z.of_nat (seq (length pre) (length xs))) xs)
    = mapM (fun ab => f (fst ab) (snd ab)) (combine l xs)).
  { clear l xs. induction xs as [|x xs IH]; intros [|a l] pre L; cbn [length seq map combine mapM] in *; auto; try lia.
    cbn [fst snd]. rewrite py_index_nonneg, Nat2Z.id, nth_error_app2, Nat.sub_diag by lia. cbn [nth_error of_option bind].
    destruct (f a x); cbn [bind]; auto.
    assert (E : pre ++ a :: l = (pre ++ [a]) ++ l) by (rewrite <- app_assoc; auto).
    assert (L' : length (pre ++ [a]) = S (length pre)) by (rewrite app_length; simpl; lia).
    rewrite E, <- L', (IH l (pre ++ [a])) by lia. auto. }
  intros L. exact (H xs l [] L).
Qed.

Lemma Forall2_combine {A B} (R : A -> B -> Prop) la lb : Forall2 R la lb <-> length la = length lb /\ Forall (fun ab => R (fst ab) (snd ab)) (combine la lb).
Proof.
  split.
  - induction 1; simpl; [auto|]. destruct IHForall2. split; [lia|]. constructor; auto.
  - revert lb. induction la as [|a la IH]; intros [|b lb] [L F]; simpl in *; try discriminate; auto.
    inversion F; subst. constructor; auto.
Qed.

(* ------------------------------------------------------------------ *)
(* what is built *)

Lemma counts_nth (names : list str) (counts : dict (list (part * Z))) obs : NoDup names -> counts_inv names counts obs ->
  Forall2 (fun n nd => fst nd = n /\ all_keys part_wf (snd nd) /\ all_distinct part_view_eqb (map fst (snd nd)) /\
     (forall v, In v (map fst (snd nd)) -> In (n, v) obs) /\
     (forall v, In (n, v) obs -> exists v', In v' (map fst (snd nd)) /\ part_view_eqb v v' = true)) names counts.
Proof.
  intros N (Hk & H).
  assert (G : forall n d, In (n, d) counts -> dict_get counts n = Some d).
  { intros n d Hin. apply In_dict_get; auto. unfold dict_ok. rewrite Hk. auto. }
  clear N. revert names Hk. assert (A : forall nd, In nd counts -> dict_get counts (fst nd) = Some (snd nd)).
  { intros [n d] Hin. auto. }
  clear G. revert A. generalize counts at 1 3 4. induction counts0 as [|[n d] c IH]; intros A names Hk; destruct names as [|n' names]; simpl in Hk; try discriminate; constructor.
  - injection Hk as -> _. split; auto. apply H. apply (A (n', d)). simpl; auto.
  - apply IH; [intros; apply A; right; auto|]. injection Hk as _ Hk. auto.
Qed.

Lemma split_names_nodup s : NoDup (split_names s).
Proof.
  destruct s as [| | |keys]; simpl; try (repeat constructor; simpl; intuition discriminate).
  apply dict_update_ok. repeat constructor; simpl; intuition discriminate.
Qed.

(* the vocabulary of one part *)
Definition vocab_ok (obs : list (str * part)) (n : str) (l : list part) : Prop :=
  Forall part_wf l /\ all_distinct part_view_eqb l /\
  (forall v, In v l -> In (n, v) obs) /\
  (forall v, In (n, v) obs -> exists v', In v' l /\ part_view_eqb v v' = true).

Lemma id2obj_vocab obs n d l : all_keys part_wf d -> all_distinct part_view_eqb (map fst d) ->
  (forall v, In v (map fst d) -> In (n, v) obs) ->
  (forall v, In (n, v) obs -> exists v', In v' (map fst d) /\ part_view_eqb v v' = true) ->
  id2obj part_eqb part_cmp d 0 = Ok l -> vocab_ok obs n l.
Proof.
  intros A D S1 S2 E. rewrite (id2obj_ext part_eqb part_view_eqb part_wf part_view_same) in E by auto.
  apply id2obj_spec in E; [|apply part_view_equiv|auto]. destruct E as (Dl & _ & I).
  assert (K : forall v, In v l -> In v (map fst d)).
  { intros v Hv. apply I in Hv. destruct Hv as [(m & Hm & _)|(b & m & a & -> & _)].
    - apply (in_map fst) in Hm. auto.
    - rewrite map_app, in_app_iff. simpl. auto. }
  split; [|split; [auto|split]].
  - apply Forall_forall. intros v Hv. apply K, in_map_iff in Hv. destruct Hv as (kv & <- & Hin).
    unfold all_keys in A. rewrite Forall_forall in A. auto.
  - intros v Hv. auto.
  - intros v Hv. destruct (S2 v Hv) as (v' & Hin & E). exists v'. split; auto. apply I. left.
    apply in_map_iff in Hin. destruct Hin as ([v2 m] & <- & Hin). exists m. split; auto. lia.
Qed.

Lemma build_spec st ds b : Forall opt_pos_wf (dataset_poses ds) -> build_pos_labels st ds = Ok b ->
  make_splitter st (map fst (train_labels ds)) = Ok (pl_splitter b) /\
  train_labels ds <> [] /\ (forall lc, In lc (train_labels ds) -> pl_splitter b = SNo \/ fst lc <> None) /\
  Forall2 (vocab_ok (observed (pl_splitter b) (train_labels ds))) (split_names (pl_splitter b)) (pl_id2parts b) /\
  pl_parts2id b = map (obj2id part_view_eqb) (pl_id2parts b) /\
  pl_lens b = combine (split_names (pl_splitter b)) (map zlen (pl_id2parts b)).
Proof.
  intros W H. unfold build_pos_labels in H. fold (train_labels ds) in H.
  destruct (train_labels_spec ds W) as (Wl & _).
  apply bind_ok_iff in H. destruct H as (s & Es & H). apply bind_ok_iff in H. destruct H as (counts & Ec & H).
  apply bind_ok_iff in H. destruct H as (l & El & H). injection H as <-. cbn [pl_splitter pl_id2parts pl_parts2id pl_lens].
  destruct (count_parts_fails _ _ _ Ec) as (Hne & Hs). split; [auto|]. split; [auto|]. split; [auto|].
  destruct (count_parts_spec s (train_labels ds) Hne Wl Hs) as (counts' & Ec' & Inv). rewrite Ec in Ec'. injection Ec' as <-.
  assert (F := counts_nth _ _ _ (split_names_nodup s) Inv). apply mapM_ok in El.
  assert (V : Forall2 (vocab_ok (observed s (train_labels ds))) (split_names s) l).
  { clear -F El. revert l El. induction F as [|n nd names counts (_ & A & D & S1 & S2) F IH]; intros l El; inversion El; subst; constructor; auto.
    eapply id2obj_vocab; eauto. }
  split; auto. split.
  - apply map_ext_in. intros x Hx. apply (obj2id_ext _ _ _ part_view_same).
    destruct (In_nth_error _ _ Hx) as (i & Hi). destruct (Forall2_nth_r _ _ _ _ _ V Hi) as (n & _ & (Wx & _)). auto.
  - f_equal. apply Inv.
Qed.

(* ------------------------------------------------------------------ *)
(* labels of the training tokens *)

Lemma In_observed s labels lc sp : In lc labels -> split_pos s (fst lc) = Ok sp -> forall nv, In nv sp -> In nv (observed s labels).
Proof.
  intros H E nv Hnv. unfold observed. apply in_concat. exists sp. split; auto. apply in_map_iff. exists lc. rewrite E. auto.
Qed.

(* the parts of a split and the vocabulary of each part *)
Definition part_known (nv : str * part) (l : list part) : Prop :=
  part_wf (snd nv) /\ Forall part_wf l /\ all_distinct part_view_eqb l /\ exists v', In v' l /\ part_view_eqb (snd nv) v' = true.

Lemma train_split st ds b p : Forall opt_pos_wf (dataset_poses ds) -> build_pos_labels st ds = Ok b -> In p (dataset_poses ds) ->
  exists sp, split_pos (pl_splitter b) p = Ok sp /\ Forall2 part_known sp (pl_id2parts b).
Proof.
  intros W B Hp. destruct (build_spec _ _ _ W B) as (_ & _ & Hs & V & _). set (s := pl_splitter b) in *.
  destruct (train_labels_spec ds W) as (Wl & _ & Hex & _). destruct (Hex p Hp) as (q & Hq & Hpq).
  apply in_map_iff in Hq. destruct Hq as (lc & <- & Hlc).
  assert (Wp : opt_pos_wf p) by (rewrite Forall_forall in W; auto).
  assert (Wq : opt_pos_wf (fst lc)) by (rewrite Forall_forall in Wl; auto).
  destruct (proj2 (split_ok s (fst lc)) (Hs lc Hlc)) as (sq & Eq).
  assert (Hp' : exists sp, split_pos s p = Ok sp).
  { apply split_ok. destruct (Hs lc Hlc) as [X|X]; auto. right. intros ->. destruct (fst lc); [destruct Hpq|congruence]. }
  destruct Hp' as (sp & Ep). exists sp. split; auto.
  destruct (split_same s p (fst lc) sp Wp Wq Hpq Ep) as (sq' & Eq' & Fs). rewrite Eq in Eq'. injection Eq' as <-.
  destruct (split_names_spec _ _ _ Ep) as (Np & _). assert (Wsp := split_wf _ _ _ Wp Ep). assert (Wsq := split_wf _ _ _ Wq Eq).
  assert (O := In_observed s _ _ _ Hlc Eq). rewrite <- Np in V. clear -V Fs Wsp Wsq O.
  revert V. generalize (pl_id2parts b). revert Wsp Wsq O. induction Fs as [|a c sp sq (Hn & Hv) Fs IH]; intros Wsp Wsq O ls V; simpl in V; inversion V; subst; constructor.
  - inversion Wsp; subst. inversion Wsq; subst. destruct H1 as (Wl & Dl & _ & Hl).
    split; auto. split; auto. split; auto.
    destruct (Hl (snd c)) as (v' & Hin & E).
    { rewrite Hn. replace (fst c, snd c) with c by (destruct c; auto). apply O. left; auto. }
    exists v'. split; auto. apply (eqv_trans _ part_view_equiv _ (snd c)); auto. apply part_view_iff; auto.
  - inversion Wsp; subst. inversion Wsq; subst. apply IH; auto. intros; apply O; right; auto.
Qed.

Lemma part_label l v : Forall part_wf l -> all_distinct part_view_eqb l -> part_wf v ->
  (exists v', In v' l /\ part_view_eqb v v' = true) ->
  exists i v', gget_default part_eqb (obj2id part_view_eqb l) v 0 = Z.of_nat i /\ nth_error l i = Some v' /\ part_same v v'.
Proof.
  intros W D Wv (v' & Hin & E). destruct (In_nth_error _ _ Hin) as (i & Hi). exists i, v'.
  assert (Wv' : part_wf v') by (rewrite Forall_forall in W; auto).
  split; [|split; auto; apply part_view_iff; auto].
  unfold gget_default. rewrite (gget_ext part_eqb part_view_eqb part_wf part_view_same) ; auto.
  - assert (G : gget part_view_eqb (obj2id part_view_eqb l) v = Some (Z.of_nat i)).
    { apply obj2id_spec; auto using part_view_equiv. split; [lia|]. exists v'. rewrite Nat2Z.id. auto. }
    rewrite G. auto.
  - rewrite obj2id_items by auto using part_view_equiv. unfold all_keys. apply Forall_forall. intros [k j] Hk.
    apply in_combine_l in Hk. rewrite Forall_forall in W. simpl. auto.
Qed.

Lemma labels_of_parts sp ls : Forall2 part_known sp ls ->
  exists ids parts, mapM (fun ab => Ok (gget_default part_eqb (fst ab) (snd (snd ab)) 0)) (combine (map (obj2id part_view_eqb) ls) sp) = Ok ids /\
    Forall2 (fun i l => 0 <= i < zlen l) ids ls /\
    mapM (fun ab => py_index (fst ab) (snd ab)) (combine ls ids) = Ok parts /\
    Forall2 part_same (map snd sp) parts.
Proof.
  induction 1 as [|nv l sp ls (Wv & Wl & D & Hk) F IH].
  - exists [], []. repeat split; constructor.
  - destruct IH as (ids & parts & E1 & R & E2 & S). destruct (part_label l (snd nv) Wl D Wv Hk) as (i & v' & Ei & Hi & Sv).
    exists (Z.of_nat i :: ids), (v' :: parts). cbn [map combine mapM fst snd]. rewrite Ei. cbn [bind]. rewrite E1. cbn [bind].
    split; auto. split; [|split].
    + constructor; auto. assert (i < length l)%nat by (apply nth_error_Some; congruence). unfold zlen. lia.
    + rewrite py_index_nonneg, Nat2Z.id, Hi by lia. cbn [of_option bind]. rewrite E2. auto.
    + constructor; auto.
Qed.

Lemma splitter_fits st ds s p : Forall opt_pos_wf (dataset_poses ds) -> make_splitter st (map fst (train_labels ds)) = Ok s ->
  (st = pos_gran -> no_reserved_feature (dataset_poses ds)) -> In (Some p) (dataset_poses ds) -> splitter_ok s p.
Proof.
  intros W H N Hp. destruct st; simpl in H; try (injection H as <-; exact I).
  apply bind_ok_iff in H. destruct H as (keys & E & H). injection H as <-. simpl.
  apply feats_keys_spec in E. destruct E as (_ & Nd & _ & Hk).
  destruct (train_labels_spec ds W) as (_ & Sub & Hex & _).
  assert (T : forall k, trained_feature (map fst (train_labels ds)) k -> trained_feature (dataset_poses ds) k).
  { intros k (q & Hq & G). exists q. split; auto. }
  destruct (N eq_refl) as (NU & NX).
  split; auto. split; [intros X; apply NU, T, Hk, X|]. split; [intros X; apply NX, T, Hk, X|].
  intros k G. apply Hk. destruct (Hex _ Hp) as (q & Hq & Hs). destruct q as [q|]; simpl in Hs; [|tauto].
  exists q. split; auto. destruct Hs as (_ & _ & Hf). rewrite <- Hf. auto.
Qed.

Lemma Forall2_lens (names : list str) (ls : list (list part)) ids : length names = length ls ->
  Forall2 (fun i l => 0 <= i < zlen l) ids ls -> Forall2 (fun i nl => 0 <= i < snd nl) ids (combine names (map zlen ls)).
Proof.
  intros L F. revert names L. induction F as [|i l ids ls R F IH]; intros [|n names] L; simpl in *; try discriminate; constructor; auto.
Qed.

Lemma pos_round_trip st ds b x : Forall opt_pos_wf (dataset_poses ds) ->
  (st = pos_gran -> no_reserved_feature (dataset_poses ds)) ->
  build_pos_labels st ds = Ok b -> In x (dataset_tokens ds) -> token_wf (dt_tok x) ->
  exists ids t, pos_ids b (tpos (dt_tok x)) = Ok ids /\ Forall2 (fun i nl => 0 <= i < snd nl) ids (pl_lens b) /\
    interpret_pos b x ids = Ok (mkDT (dt_doc x) t) /\ same_but_pos (dt_tok x) t /\ same_pos (tpos (dt_tok x)) (tpos t).
Proof.
  intros W N B Hx Wt. set (p := tpos (dt_tok x)).
  assert (Hp : In p (dataset_poses ds)) by (apply (in_map (fun x => tpos (dt_tok x)) _ _ Hx)).
  destruct (build_spec _ _ _ W B) as (Es & _ & _ & V & E2 & E3).
  destruct (train_split _ _ _ _ W B Hp) as (sp & Ep & K).
  destruct (labels_of_parts _ _ K) as (ids & parts & I1 & R & I2 & S).
  assert (L1 := Forall2_length' _ _ _ K). assert (L2 := Forall2_length' _ _ _ R). assert (L3 := Forall2_length' _ _ _ V).
  assert (Wp : opt_pos_wf p) by (rewrite Forall_forall in W; auto).
  destruct (combine_split (pl_splitter b) p sp parts Wp) as (q & Eq & Sq & _); auto.
  { intros q Eq. eapply splitter_fits; eauto. rewrite <- Eq. auto. }
  destruct (dt_with_morphology_ok x q (tlemma (dt_tok x)) Wt) as (t & Et & ->).
  eexists ids, _. split; [|split; [|split]].
  - unfold pos_ids. rewrite Ep. cbn [bind]. rewrite E2.
    rewrite (mapM_enumerate (fun d nv => Ok (gget_default part_eqb d (snd nv) 0))) by (rewrite map_length; lia). exact I1.
  - rewrite E3. apply Forall2_lens; auto.
  - unfold interpret_pos. rewrite mapM_enumerate by lia. rewrite I2. cbn [bind]. rewrite Eq. cbn [bind]. exact Et.
  - split; [unfold same_but_pos; simpl; tauto|]. simpl. exact Sq.
Qed.

(* ------------------------------------------------------------------ *)
(* every prediction in range can be interpreted *)

Definition part_kind (a : part) : nat := match a with PaPos _ => 0 | PaStr _ => 1 | PaFeats _ => 2 | PaXF _ _ => 3 end.

Definition typed (s : splitter) (parts : list part) : Prop :=
  match s with
  | SNo => map part_kind parts = [0%nat]
  | SUXF => map part_kind parts = [1; 1; 2]%nat
  | SXF => map part_kind parts = [1; 3]%nat
  | SGran keys => Forall (fun a => part_kind a = 1%nat) parts /\ (2 <= length parts <= 2 + length keys)%nat
  end.

Lemma dict_update_length {V} (e d : dict V) : (length d <= length (dict_update d e) <= length d + length e)%nat.
Proof.
  unfold dict_update. revert d. induction e as [|[k v] e IH]; intros d; simpl; [lia|].
  assert (L : (length d <= length (dict_set d k v) <= S (length d))%nat).
  { rewrite <- (dict_keys_length (dict_set d k v)), dict_keys_set. destruct (dict_mem d k).
    - rewrite dict_keys_length. lia.
    - rewrite app_length, dict_keys_length. simpl. lia. }
  specialize (IH (dict_set d k v)). simpl in IH. lia.
Qed.

Lemma split_typed s p sp : split_pos s p = Ok sp -> typed s (map snd sp).
Proof.
  destruct s as [| | |keys]; cbn [split_pos].
  - intros H; inversion H; subst; reflexivity.
  - destruct p; [|discriminate]. intros H; inversion H; subst; reflexivity.
  - destruct p; [|discriminate]. intros H; inversion H; subst; reflexivity.
  - destruct p as [q|]; [|discriminate]. cbn [of_option bind]. intros H. injection H as <-. cbn [typed]. split.
    + apply Forall_map. apply dict_update_forall; [repeat constructor|]. apply Forall_map, Forall_forall. auto.
    + rewrite map_length. match goal with |- context[dict_update ?d ?e] => assert (X := dict_update_length e d) end.
      rewrite map_length in X. simpl in X |- *. lia.
Qed.

Lemma typed_kinds s parts parts' : map part_kind parts = map part_kind parts' -> typed s parts -> typed s parts'.
Proof.
  intros E. destruct s; simpl; try (rewrite E; auto; fail). intros (F & L).
  assert (Le : length parts = length parts') by (apply (f_equal (@length nat)) in E; rewrite !map_length in E; auto).
  split; [|lia]. clear L Le. revert parts' E. induction F; intros [|y parts'] E; simpl in E; try discriminate; constructor.
  - congruence.
  - apply IHF. congruence.
Qed.

Lemma gran_combine_total keys : forall vs pre d, (length pre + length vs <= length keys)%nat ->
  Forall (fun a => part_kind a = 1%nat) vs ->
  exists d', foldM (fun d iv => do v <- as_str (snd iv);
                    match v with None => Ok d | Some v => do k <- py_index keys (fst iv); Ok (dict_set d k v) end) d
      (combine (map Z.of_nat (seq (length (pre : list part)) (length vs))) vs) = Ok d'.
Proof.
  induction vs as [|v vs IH]; intros pre d L F; [eexists; reflexivity|].
  inversion F; subst. destruct v as [| s | |]; try discriminate. cbn [length seq map combine foldM snd fst as_str bind] in *.
  assert (E : length (pre ++ [PaStr s]) = S (length pre)) by (rewrite app_length; simpl; lia).
  destruct s as [v|].
  - rewrite py_index_nonneg, Nat2Z.id by lia. destruct (nth_error keys (length pre)) as [k|] eqn:Nk.
    + cbn [of_option bind]. destruct (IH (pre ++ [PaStr (Some v)]) (dict_set d k v)) as (d' & E'); auto; [lia|].
      rewrite E in E'. eauto.
    + apply nth_error_None in Nk. lia.
  - destruct (IH (pre ++ [PaStr None]) d) as (d' & E'); auto; [lia|]. rewrite E in E'. eauto.
Qed.

Lemma combine_total s parts : typed s parts -> exists q, combine_pos s parts = Ok q /\ (s <> SNo -> q <> None).
Proof.
  destruct s as [| | |keys]; simpl typed.
  - destruct parts as [|a [|]]; try discriminate. destruct a; try discriminate. intros _. eexists. split; [reflexivity|congruence].
  - destruct parts as [|a [|c [|e [|]]]]; try discriminate. destruct a, c, e; try discriminate. intros _.
    eexists. split; [reflexivity|discriminate].
  - destruct parts as [|a [|c [|]]]; try discriminate. destruct a, c; try discriminate. intros _.
    eexists. split; [reflexivity|discriminate].
  - intros (F & L). destruct parts as [|a [|c vs]]; simpl in L; try lia.
    inversion F as [|? ? Ka F1]; subst. inversion F1 as [|? ? Kc F2]; subst. destruct a, c; try discriminate.
    cbn [combine_pos].
    change (PaStr s :: PaStr s0 :: vs) with ([PaStr s; PaStr s0] ++ vs).
    replace 2 with (zlen [PaStr s; PaStr s0]) by reflexivity. rewrite py_from_app.
    destruct (gran_combine_total keys vs [] []) as (d & E); auto; [simpl; lia|].
    unfold enumerate, zrange, zlen. rewrite Nat2Z.id. cbn [length] in E. rewrite E. cbn [bind].
    eexists. split; [reflexivity|discriminate].
Qed.

(* all values of one part have the same type *)
Lemma vocab_kinds st ds b : Forall opt_pos_wf (dataset_poses ds) -> build_pos_labels st ds = Ok b ->
  forall parts, Forall2 (fun v l => In v l) parts (pl_id2parts b) -> typed (pl_splitter b) parts.
Proof.
  intros W B parts F. destruct (build_spec _ _ _ W B) as (_ & Hne & Hs & V & _). set (s := pl_splitter b) in *.
  destruct (train_labels ds) as [|lc0 labels] eqn:El; [congruence|].
  destruct (proj2 (split_ok s (fst lc0)) (Hs lc0 (or_introl eq_refl))) as (sp0 & E0).
  apply (typed_kinds _ (map snd sp0)); [|eapply split_typed; eauto].
  destruct (split_names_spec _ _ _ E0) as (N0 & O0). rewrite <- N0 in V.
  assert (Kind : forall lc sp n v v0, In lc (lc0 :: labels) -> split_pos s (fst lc) = Ok sp -> In (n, v) sp -> In (n, v0) sp0 ->
            part_kind v = part_kind v0).
  { clear -E0 O0. intros lc sp n v v0 _ E Hin H0. destruct (split_names_spec _ _ _ E) as (_ & O).
    apply (In_dict_get _ _ _ O) in Hin. apply (In_dict_get _ _ _ O0) in H0.
    destruct s as [| | |keys]; cbn [split_pos] in *.
    - injection E as <-. injection E0 as <-. cbn [dict_get] in *. destruct (str_eqb n n_POS); [injection Hin as <-; injection H0 as <-; reflexivity|discriminate].
    - destruct (fst lc), (fst lc0); try discriminate. injection E as <-. injection E0 as <-. cbn [dict_get] in *.
      repeat (destruct (str_eqb _ _); [injection Hin as <-; injection H0 as <-; reflexivity|]). discriminate.
    - destruct (fst lc), (fst lc0); try discriminate. injection E as <-. injection E0 as <-. cbn [dict_get] in *.
      repeat (destruct (str_eqb _ _); [injection Hin as <-; injection H0 as <-; reflexivity|]). discriminate.
    - destruct (fst lc) as [q|], (fst lc0) as [q0|]; try discriminate. cbn [of_option bind] in *. injection E as <-. injection E0 as <-.
      assert (A : forall q, Forall (fun nv => part_kind (snd nv) = 1%nat)
        (dict_update [(n_UPOS, PaStr (upos q)); (n_XPOS, PaStr (xpos q))] (map (fun k => (k, PaStr (dict_get (feats q) k))) keys))).
      { intros r. apply dict_update_forall; [repeat constructor|]. apply Forall_map, Forall_forall. auto. }
      apply dict_get_In in Hin. apply dict_get_In in H0. assert (A1 := A q). assert (A2 := A q0). rewrite Forall_forall in A1, A2.
      apply A1 in Hin. apply A2 in H0. simpl in *. congruence. }
  assert (G : forall nvs, (forall nv, In nv nvs -> In nv sp0) -> forall ls parts, Forall2 (vocab_ok (observed s (lc0 :: labels))) (dict_keys nvs) ls ->
            Forall2 (fun v l => In v l) parts ls -> map part_kind (map snd nvs) = map part_kind parts).
  { clear F V parts. induction nvs as [|[n v0] nvs IH]; intros Sub ls parts V F; inversion V; subst; inversion F; subst; simpl; auto. f_equal.
    - destruct H1 as (_ & _ & Ho & _). assert (X := Ho _ H4). unfold observed in X. apply in_concat in X. destruct X as (sp & Hsp & Hin).
      apply in_map_iff in Hsp. destruct Hsp as (lc & E & Hlc). destruct (split_pos s (fst lc)) as [sp'|] eqn:Elc; [|subst; destruct Hin].
      subst sp'. symmetry. eapply Kind; eauto. apply Sub. left; auto.
    - eapply IH; eauto. intros; apply Sub; right; auto. }
  eapply (G sp0); eauto.
Qed.

Lemma pos_predictions st ds b x ids : Forall opt_pos_wf (dataset_poses ds) -> build_pos_labels st ds = Ok b ->
  token_wf (dt_tok x) -> Forall2 (fun i nl => 0 <= i < snd nl) ids (pl_lens b) ->
  exists t, interpret_pos b x ids = Ok (mkDT (dt_doc x) t) /\ same_but_pos (dt_tok x) t /\ (st <> pos_joint -> tpos t <> None).
Proof.
  intros W B Wt R. destruct (build_spec _ _ _ W B) as (Es & _ & _ & V & _ & E3).
  assert (L3 := Forall2_length' _ _ _ V). rewrite E3 in R.
  assert (P : exists parts, mapM (fun ab => py_index (fst ab) (snd ab)) (combine (pl_id2parts b) ids) = Ok parts /\
              Forall2 (fun v l => In v l) parts (pl_id2parts b) /\ length ids = length (pl_id2parts b)).
  { clear -R L3. revert ids R. revert L3. generalize (split_names (pl_splitter b)). induction (pl_id2parts b) as [|l ls IH]; intros [|n names] L ids R; simpl in L; try discriminate; simpl in R; inversion R; subst.
    - exists []. repeat split; constructor.
    - destruct (IH names) with (ids := l0) as (parts & E & F & Ll); auto. simpl in H2.
      destruct (nth_error l (Z.to_nat x)) as [v|] eqn:N.
      + exists (v :: parts). cbn [combine mapM fst snd]. rewrite py_index_nonneg, N by lia. cbn [of_option bind]. rewrite E. cbn [bind].
        split; auto. split; [|simpl; lia]. constructor; auto. eapply nth_error_In; eauto.
      + apply nth_error_None in N. unfold zlen in H2. lia. }
  destruct P as (parts & Ep & Fp & Ll).
  destruct (combine_total _ _ (vocab_kinds _ _ _ W B parts Fp)) as (q & Eq & Nq).
  destruct (dt_with_morphology_ok x q (tlemma (dt_tok x)) Wt) as (t & Et & ->).
  eexists. split; [|split].
  - unfold interpret_pos. rewrite mapM_enumerate by lia. rewrite Ep. cbn [bind]. rewrite Eq. cbn [bind]. exact Et.
  - unfold same_but_pos; simpl; tauto.
  - simpl. intros X. apply Nq. intros Y. rewrite Y in Es. destruct st; simpl in Es; try discriminate; [congruence|].
    apply bind_ok_iff in Es. destruct Es as (k & _ & Es). discriminate.
Qed.
