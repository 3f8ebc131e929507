(* The numbers of labels depend on the order of the tokens only through ties. *)
From Coq Require Import ZArith NArith Bool Lia Permutation List Sorted.
From Verif Require Import Base BaseFacts Model_Datamodel Model_Vocab Model_Features Model_Lemma Spec_Datamodel Spec_Vocab Spec_Lemma Spec_Features
  Spec_Labels Proofs_Datamodel Proofs_Datamodel3 Proofs_Datamodel4 Proofs_Vocab Proofs_Lemma Proofs_Lemma2 Proofs_Features Proofs_Features2
  Proofs_Features3 Proofs_Labels Proofs_Labels2 Proofs_Features5 Proofs_Processors.
Import ListNotations.
Open Scope Z_scope.

Lemma dataset_tokens_perm ds ds' : Permutation ds ds' -> Permutation (dataset_tokens ds) (dataset_tokens ds').
Proof.
  unfold dataset_tokens. induction 1 as [|d l l' P IH|a b l|l l' l'' P1 IH1 P2 IH2]; cbn [map concat]; auto.
  - apply Permutation_app_head. auto.
  - rewrite !app_assoc. apply Permutation_app_tail, Permutation_app_comm.
  - eapply Permutation_trans; eauto.
Qed.

Lemma mapM_perm {A B} (f : A -> result B) l l' r : Permutation l l' -> mapM f l = Ok r ->
  exists r', mapM f l' = Ok r' /\ Permutation r r'.
Proof.
  intros P. revert r. induction P as [|x l l' P IH|a b l|l l' l'' P1 IH1 P2 IH2]; intros r H.
  - exists r. split; auto.
  - cbn [mapM] in *. apply bind_ok_iff in H. destruct H as (y & Ey & H). apply bind_ok_iff in H. destruct H as (t & Et & H).
    injection H as <-. destruct (IH _ Et) as (t' & Et' & Pt). exists (y :: t'). rewrite Ey, Et'. auto.
  - cbn [mapM] in *. apply bind_ok_iff in H. destruct H as (y & Ey & H). apply bind_ok_iff in H. destruct H as (t & Et & H).
    injection H as <-. apply bind_ok_iff in Et. destruct Et as (z & Ez & H). apply bind_ok_iff in H. destruct H as (t' & Et' & H).
    injection H as <-. exists (z :: y :: t'). rewrite Ez, Ey, Et'. split; auto. constructor.
  - destruct (IH1 _ H) as (r1 & E1 & R1). destruct (IH2 _ E1) as (r2 & E2 & R2). exists r2. split; auto. eapply Permutation_trans; eauto.
Qed.

Lemma mapM_all {A B} (f : A -> result B) l : (forall x, In x l -> exists y, f x = Ok y) -> exists r, mapM f l = Ok r.
Proof.
  induction l as [|x l IH]; intros H; [exists []; auto|]. cbn [mapM]. destruct (H x) as (y & ->); [left; auto|].
  destruct IH as (r & ->); [intros; apply H; right; auto|]. cbn [bind]. eauto.
Qed.

Lemma Forall2_eq_of {A} (eqb : A -> A -> bool) (H : forall a b, eqb a b = true <-> a = b) l l' :
  Forall2 (fun a b => eqb a b = true) l l' -> l = l'.
Proof. induction 1 as [|a b l l' E F IH]; auto. apply H in E. congruence. Qed.

(* ---- lemma rules ---- *)

Lemma rules_sorted lower t ds r2i l : build_rules lower t ds = Ok (r2i, l) ->
  exists mc rest, l = mc :: rest /\ StronglySorted rule_before rest.
Proof.
  unfold build_rules. intros H. apply bind_ok_iff in H. destruct H as (labels & _ & H). apply bind_ok_iff in H. destruct H as (l' & E & H).
  injection H as _ <-. eapply id2obj_sorted; [apply rule_order| |exact E]. apply count_list_distinct, (lo_equiv _ _ _ rule_order).
Qed.

Lemma rules_reordered lower t ds ds' labels : Permutation (dataset_tokens ds) (dataset_tokens ds') ->
  Forall2 (teaches lower) (dataset_tokens ds) labels -> clear_winner rule_eqb labels ->
  build_rules lower t ds' = build_rules lower t ds.
Proof.
  intros P T W. assert (M : mapM (suffix_transformation lower) (dataset_tokens ds) = Ok labels).
  { apply mapM_ok. eapply Forall2_impl; [|exact T]. intros x r. apply suffix_transformation_ok. } unfold build_rules. rewrite M. destruct (mapM_perm _ _ _ _ P M) as (labels' & -> & P'). cbn [bind].
  destruct (id2obj rule_eqb (fun a b => Ok (rule_cmp a b)) (count_list rule_eqb labels) t) as [l|e] eqn:E.
  - destruct (reordered _ _ _ rule_order labels labels' t l P' W E) as (l' & -> & F).
    apply (Forall2_eq_of _ rule_eqb_eq) in F. subst. auto.
  - exfalso. destruct W as (w & Hw & _). destruct (count_list rule_eqb labels) as [|kn c] eqn:C.
    + apply count_list_nil in C; [|apply (lo_equiv _ _ _ rule_order)]. subst. destruct Hw.
    + unfold id2obj in E. cbn [most_common of_option bind] in E. unfold py_sorted in E. rewrite all_comparable_total in E. discriminate.
Qed.

(* ---- lemmas ---- *)

Lemma lemmas_sorted ds l2i l : build_lemmas ds = Ok (l2i, l) ->
  exists mc rest, l = mc :: rest /\ StronglySorted (opt_before str_before) rest.
Proof.
  unfold build_lemmas. intros H. apply bind_ok_iff in H. destruct H as (l' & E & H).
  injection H as _ <-. eapply id2obj_sorted; [apply lemma_order| |exact E]. apply count_list_distinct, (lo_equiv _ _ _ lemma_order).
Qed.

Lemma lemma_eqb_eq a b : lemma_eqb a b = true <-> a = b.
Proof. unfold lemma_eqb. destruct a, b; simpl; split; intros H; try discriminate; auto; [apply str_eqb_eq in H; congruence|injection H as ->; apply str_eqb_refl]. Qed.

Lemma lemmas_reordered ds ds' : Permutation (dataset_tokens ds) (dataset_tokens ds') ->
  clear_winner lemma_eqb (map (fun x => tlemma (dt_tok x)) (dataset_tokens ds)) ->
  build_lemmas ds' = build_lemmas ds.
Proof.
  intros P W. unfold build_lemmas, count_labels. assert (P' := Permutation_map (fun x => tlemma (dt_tok x)) P).
  destruct (id2obj lemma_eqb lemma_cmp (count_list lemma_eqb (map (fun x => tlemma (dt_tok x)) (dataset_tokens ds))) 0) as [l|e] eqn:E.
  - destruct (reordered _ _ _ lemma_order _ _ 0 l P' W E) as (l' & -> & F).
    apply (Forall2_eq_of _ lemma_eqb_eq) in F. subst. auto.
  - exfalso. destruct W as (w & Hw & _). destruct (count_list lemma_eqb _) as [|kn c] eqn:C in E.
    + apply count_list_nil in C; [|apply (lo_equiv _ _ _ lemma_order)]. rewrite C in Hw. destruct Hw.
    + unfold id2obj in E. cbn [most_common of_option bind] in E. unfold py_sorted in E.
      match type of E with context [all_comparable ?c ?x] => assert (X : all_comparable c x = true) end.
      { clear. induction (filter _ _) as [|a r IH]; cbn [all_comparable]; auto. rewrite IH, andb_true_r. apply forallb_forall.
        intros b _. destruct a, b; reflexivity. }
      rewrite X in E. discriminate.
Qed.

(* ---- parts of speech ---- *)

Lemma occurrences_ext {K} (eqb eqb' : K -> K -> bool) (P : K -> Prop) k l : (forall a b, P a -> P b -> eqb a b = eqb' a b) ->
  P k -> Forall P l -> occurrences eqb k l = occurrences eqb' k l.
Proof. intros H Hk F. induction F as [|x l Hx F IH]; cbn [occurrences]; auto. rewrite IH, H; auto. Qed.

Lemma values_wf s i poses : Forall opt_pos_wf poses -> Forall part_wf (map (part_at s i) poses).
Proof. intros W. apply Forall_map. eapply Forall_impl; [|exact W]. apply part_at_wf. Qed.

Lemma parts_sorted st ds b : Forall opt_pos_wf (dataset_poses ds) -> build_pos_labels st ds = Ok b ->
  Forall (fun l => exists mc rest, l = mc :: rest /\ StronglySorted part_before rest) (pl_id2parts b).
Proof.
  intros W H. destruct (labels_built _ _ _ W H) as (_ & _ & _ & E). apply Forall_forall. intros l Hl.
  destruct (In_nth_error _ _ Hl) as (i & Hi). eapply id2obj_sorted; [apply part_order| |apply (E i l Hi)].
  apply count_list_distinct, part_view_equiv.
Qed.

Lemma parts_frequent st ds b i l : Forall opt_pos_wf (dataset_poses ds) -> build_pos_labels st ds = Ok b ->
  nth_error (pl_id2parts b) i = Some l ->
  exists mc rest before after, l = mc :: rest /\ part_values (pl_splitter b) i (dataset_poses ds) = before ++ mc :: after /\
    (forall v, In v before -> occurrences part_eqb v (before ++ mc :: after) < occurrences part_eqb mc (before ++ mc :: after)) /\
    (forall v, In v (before ++ mc :: after) -> occurrences part_eqb v (before ++ mc :: after) <= occurrences part_eqb mc (before ++ mc :: after)).
Proof.
  intros W H Hi. destruct (labels_built _ _ _ W H) as (_ & L & Sp & E). specialize (E i l Hi).
  assert (Li : (i < length (split_names (pl_splitter b)))%nat) by (rewrite <- L; apply nth_error_Some; congruence).
  rewrite (part_values_at _ _ _ Sp Li). assert (Wv := values_wf (pl_splitter b) i _ W).
  revert Wv E. generalize (map (part_at (pl_splitter b) i) (dataset_poses ds)). clear. intros vs Wv E. unfold id2obj in E.
  destruct (most_common (count_list part_view_eqb vs)) as [mc|] eqn:M; [|discriminate]. cbn [of_option bind] in E.
  apply bind_ok_iff in E. destruct E as (rest & _ & E). injection E as <-.
  destruct (most_common_labels part_view_eqb part_view_equiv vs mc M) as (pre & post & EL & H1 & H2).
  exists mc, rest, pre, post. rewrite <- EL. split; auto. split; auto.
  assert (Im : In mc vs) by (rewrite EL; apply in_app_iff; right; left; auto).
  assert (X : forall v, In v vs -> occurrences part_eqb v vs = occurrences part_view_eqb v vs).
  { intros v Hv. rewrite Forall_forall in Wv. apply (occurrences_ext _ _ part_wf); auto using part_view_same. apply Forall_forall. auto. }
  split.
  - intros v Hv. rewrite !X; auto. rewrite EL. apply in_app_iff. auto.
  - intros v Hv. rewrite !X; auto.
Qed.

Lemma str_le_anti x y : leR str_le x y -> leR str_le y x -> x = y.
Proof.
  unfold leR, str_le. intros H1 H2. destruct (str_cmp x y) eqn:C; [apply str_cmp_ok; auto| |discriminate].
  rewrite (cmp_anti _ str_cmp_ok x y), C in H2. discriminate.
Qed.

Lemma make_splitter_perm st ds ds' s : Forall opt_pos_wf (dataset_poses ds) -> Permutation (dataset_poses ds) (dataset_poses ds') ->
  make_splitter st (map fst (train_labels ds)) = Ok s -> make_splitter st (map fst (train_labels ds')) = Ok s.
Proof.
  intros W P. assert (W' : Forall opt_pos_wf (dataset_poses ds')) by (eapply Permutation_Forall; eauto).
  destruct st; cbn [make_splitter]; auto. intros H. apply bind_ok_iff in H. destruct H as (keys & E & H). injection H as <-.
  destruct (feats_keys_spec _ _ E) as (Hn & Nd & Ss & Hk).
  destruct (train_labels_spec ds W) as (_ & A & B & _). destruct (train_labels_spec ds' W') as (_ & A' & B' & _).
  assert (X : forall p, In p (map fst (train_labels ds')) -> exists q, In q (map fst (train_labels ds)) /\ same_pos p q).
  { intros p Hp. apply B. eapply Permutation_in; [apply Permutation_sym, P|]. auto. }
  assert (X' : forall p, In p (map fst (train_labels ds)) -> exists q, In q (map fst (train_labels ds')) /\ same_pos p q).
  { intros p Hp. apply B'. eapply Permutation_in; [apply P|]. auto. }
  destruct (feats_keys_ok (map fst (train_labels ds'))) as (keys' & E').
  { intros p Hp ->. destruct (X _ Hp) as (q & Hq & Sq). destruct q; cbn in Sq; try tauto. apply (Hn None Hq). auto. }
  rewrite E'. cbn [bind]. do 2 f_equal. destruct (feats_keys_spec _ _ E') as (_ & Nd' & Ss' & Hk').
  assert (T : forall k, trained_feature (map fst (train_labels ds')) k <-> trained_feature (map fst (train_labels ds)) k).
  { intros k. split; intros (q & Hq & G).
    - destruct (X _ Hq) as (q' & Hq' & Sm). destruct q' as [q'|]; [|destruct Sm]. exists q'. split; auto.
      destruct Sm as (_ & _ & Sf). rewrite <- (Sf k). auto.
    - destruct (X' _ Hq) as (q' & Hq' & Sm). destruct q' as [q'|]; [|destruct Sm]. exists q'. split; auto.
      destruct Sm as (_ & _ & Sf). rewrite <- (Sf k). auto. }
  symmetry. eapply sorted_perm_eq; [| |exact Ss|exact Ss'].
  - intros x y _ _ H1 H2. eapply str_le_anti; eauto.
  - apply NoDup_Permutation; auto. intros k. rewrite Hk, Hk'. symmetry. apply T.
Qed.

Lemma parts_reordered st ds ds' b : Forall opt_pos_wf (dataset_poses ds) -> Permutation (dataset_tokens ds) (dataset_tokens ds') ->
  build_pos_labels st ds = Ok b ->
  (forall i, (i < length (pl_id2parts b))%nat -> clear_winner part_eqb (part_values (pl_splitter b) i (dataset_poses ds))) ->
  exists b', build_pos_labels st ds' = Ok b' /\ pl_splitter b' = pl_splitter b /\ pl_lens b' = pl_lens b /\
    Forall2 (Forall2 (fun v w => part_eqb v w = true)) (pl_id2parts b) (pl_id2parts b').
Proof.
  intros W P H Win. assert (P' := Permutation_map (fun x => tpos (dt_tok x)) P). fold (dataset_poses ds) in P'. fold (dataset_poses ds') in P'.
  assert (W' : Forall opt_pos_wf (dataset_poses ds')) by (eapply Permutation_Forall; eauto).
  destruct (labels_built _ _ _ W H) as (Ms & L & Sp & E).
  destruct (build_spec _ _ _ W H) as (_ & Ne & Hs & V & _ & Ln).
  destruct (train_labels_spec ds W) as (_ & A & B & Nl). destruct (train_labels_spec ds' W') as (Wl' & A' & B' & Nl').
  assert (Ms' := make_splitter_perm _ _ _ _ W P' Ms).
  assert (Ne' : train_labels ds' <> []).
  { intros Z0. apply Nl' in Z0. rewrite Z0 in P'. apply Permutation_sym, Permutation_nil in P'. apply Ne, Nl, P'. }
  assert (Hs' : forall lc, In lc (train_labels ds') -> pl_splitter b = SNo \/ fst lc <> None).
  { intros lc Hl. assert (I : In (fst lc) (dataset_poses ds)).
    { eapply Permutation_in; [apply Permutation_sym, P'|]. apply A', in_map, Hl. }
    apply split_ok. apply Sp. auto. }
  destruct (count_parts_spec (pl_splitter b) (train_labels ds') Ne' Wl' Hs') as (counts & Ec & Inv).
  assert (Tc := count_parts_tables _ _ _ Ec).
  assert (M : exists ls, mapM (fun nc => id2obj part_eqb part_cmp (snd nc) 0) counts = Ok ls /\ Forall2 (Forall2 (fun v w => part_eqb v w = true)) (pl_id2parts b) ls).
  { set (s := pl_splitter b) in *.
    assert (One : forall i l, nth_error (pl_id2parts b) i = Some l -> exists l', id2obj part_eqb part_cmp (table s i (train_labels ds')) 0 = Ok l' /\ Forall2 (fun v w => part_eqb v w = true) l l').
    { intros i l Hi. assert (Li : (i < length (pl_id2parts b))%nat) by (apply nth_error_Some; congruence).
      specialize (Win i Li). rewrite L in Li. rewrite (part_values_at _ _ _ Sp Li) in Win. specialize (E i l Hi).
      destruct (table_counts s i ds' W') as (Et & Ak).
      rewrite (id2obj_ext part_eqb part_view_eqb part_wf part_view_same) by auto. rewrite Et.
      assert (Wv := values_wf s i _ W). assert (Wv' := values_wf s i _ W').
      destruct (reordered _ _ _ part_order (map (part_at s i) (dataset_poses ds)) (map (part_at s i) (dataset_poses ds')) 0 l) as (l' & El' & F).
      - apply Permutation_map, P'.
      - destruct Win as (k & Hk & Win). exists k. split; auto. rewrite Forall_forall in Wv. intros k' Hk' N.
        rewrite <- !(occurrences_ext part_eqb part_view_eqb part_wf) by (auto using part_view_same; apply Forall_forall; auto).
        apply Win; auto. rewrite part_view_same; auto.
      - exact E.
      - exists l'. split; auto.
        assert (G : forall vs l0, Forall part_wf vs -> id2obj part_view_eqb part_cmp (count_list part_view_eqb vs) 0 = Ok l0 -> Forall part_wf l0).
        { clear. intros vs l0 Wv E. apply Forall_forall. intros v Hv. rewrite Forall_forall in Wv. apply Wv.
          destruct (id2obj_spec _ part_view_equiv _ _ _ _ (count_list_distinct _ part_view_equiv vs) E) as (_ & _ & X).
          apply X in Hv. destruct Hv as [(n & Hn & _)|(b1 & n & a1 & Ec & _)].
          - apply count_list_In in Hn; [apply Hn|apply part_view_equiv].
          - apply (count_list_In _ part_view_equiv vs v n). rewrite Ec. apply in_app_iff. right. left. auto. }
        assert (Wl := G _ _ Wv E). assert (Wl2 := G _ _ Wv' El'). clear -F Wl Wl2.
        induction F as [|v w l l' Evw F IH]; constructor; inversion Wl; inversion Wl2; subst; auto. rewrite part_view_same; auto. }
    subst counts.
    destruct (mapM_all (fun nc : str * list (part * Z) => id2obj part_eqb part_cmp (snd nc) 0) (tables (split_names s) (fun i => table s i (train_labels ds')))) as (ls & Els).
    { intros [k d] Hd. unfold tables in Hd. apply in_map_iff in Hd. destruct Hd as ([i k'] & X & Hd). injection X as _ <-. cbn [snd fst].
      apply in_combine_l, in_seq in Hd. destruct (nth_error (pl_id2parts b) i) as [l|] eqn:Hi; [|apply nth_error_None in Hi; lia].
      destruct (One i l Hi) as (l' & -> & _). eauto. }
    exists ls. split; auto. destruct (mapM_tables (fun d => id2obj part_eqb part_cmp d 0) _ _ _ Els) as (L' & El').
    apply Forall2_by_nth; [rewrite L, L'; reflexivity|]. intros i l l' Hi Hi'. destruct (One i l Hi) as (l2 & E2 & F). rewrite (El' i l' Hi') in E2.
    injection E2 as ->. exact F. }
  destruct M as (ls & Els & F).
  assert (Hb : exists b', build_pos_labels st ds' = Ok b' /\ pl_splitter b' = pl_splitter b /\ pl_id2parts b' = ls).
  { unfold build_pos_labels. fold (train_labels ds'). rewrite Ms'. cbn [bind]. rewrite Ec. cbn [bind]. rewrite Els. cbn [bind].
    eexists. split; [reflexivity|]. split; reflexivity. }
  destruct Hb as (b' & Eb & Esp & Eid). exists b'. split; auto. split; auto. rewrite Eid. split; auto.
  destruct (build_spec _ _ _ W' Eb) as (_ & _ & _ & _ & _ & Ln'). rewrite Ln, Ln', Esp, Eid. f_equal.
  clear -F. induction F as [|l l' p p' Fl F IH]; cbn [map]; auto. rewrite IH. f_equal. unfold zlen. rewrite (Forall2_length' _ _ _ Fl). auto.
Qed.

(* ---- symbols ---- *)

Lemma symbols_reordered th occ occ' : Permutation occ occ' -> symbols th occ = symbols th occ'.
Proof.
  intros P. assert (O : forall s, seen_often th occ s = seen_often th occ' s).
  { intros s. unfold seen_often. assert (E : occurrences str_eqb s occ = occurrences str_eqb s occ').
    { clear -P. induction P; cbn [occurrences]; lia. }
    rewrite E. auto. }
  eapply sorted_perm_eq with (R := leR str_le).
  - intros x y _ _. apply str_le_anti.
  - apply NoDup_Permutation; try apply symbols_nodup. intros s. rewrite !symbols_In, O. tauto.
  - apply isort_sorted, (leb_of_ok _ str_cmp_ok).
  - apply isort_sorted, (leb_of_ok _ str_cmp_ok).
Qed.

Lemma symbols_sorted th occ : StronglySorted str_before (symbols th occ).
Proof.
  assert (S1 : StronglySorted (leR str_le) (symbols th occ)) by (apply isort_sorted, (leb_of_ok _ str_cmp_ok)).
  assert (N := symbols_nodup th occ). induction S1 as [|x l S1 IH F]; constructor; inversion N as [|? ? Nx Nl]; subst; auto.
  apply Forall_forall. intros y Hy. rewrite Forall_forall in F. specialize (F y Hy). unfold leR, str_le in F.
  apply str_decides. destruct (str_cmp x y) eqn:C; [|auto|discriminate]. apply str_cmp_ok in C. subst. tauto.
Qed.
