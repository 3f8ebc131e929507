(* Part of speech labels: splitting strategies on their own, and when building succeeds. *)
From Coq Require Import ZArith NArith Bool Lia Permutation List.
From Verif Require Import Base BaseFacts Model_Datamodel Model_Vocab Model_Features Spec_Datamodel Spec_Vocab Spec_Features
  Proofs_Datamodel Proofs_Datamodel3 Proofs_Datamodel4 Proofs_Vocab Proofs_Lemma Proofs_Lemma2 Proofs_Features Proofs_Features2
  Proofs_Features3.
Import ListNotations.
Open Scope Z_scope.

(* ------------------------------------------------------------------ *)
(* splitting and combining *)

Lemma split_combine st poses s p : make_splitter st poses = Ok s -> pos_wf p ->
  (st = pos_gran -> no_reserved_feature poses /\ forall k, dict_get (feats p) k <> None -> trained_feature poses k) ->
  exists sp q, split_pos s (Some p) = Ok sp /\ combine_pos s (map snd sp) = Ok (Some q) /\ pos_same p q.
Proof.
  intros M W G. assert (Ks : splitter_ok s p).
  { destruct st; simpl in M; try (injection M as <-; exact I). apply bind_ok_iff in M. destruct M as (keys & E & M).
    injection M as <-. apply feats_keys_spec in E. destruct E as (_ & Nd & _ & Hk). destruct (G eq_refl) as ((NU & NX) & T).
    split; auto. rewrite !Hk. split; auto. split; auto. intros k Hp. apply Hk, T, Hp. }
  destruct (proj2 (split_ok s (Some p))) as (sp & E); [right; discriminate|].
  assert (Ws := split_wf s (Some p) sp W E).
  destruct (combine_split s (Some p) sp (map snd sp)) as (q & Eq & S & _); auto.
  - intros q H. injection H as <-. auto.
  - clear -Ws. induction Ws; simpl; constructor; auto. apply part_same_refl; auto.
  - destruct q as [q|]; [|destruct S]. exists sp, q. auto.
Qed.

(* ------------------------------------------------------------------ *)
(* when building succeeds *)

Definition sort_cond (s : splitter) (p q : option pos) : Prop :=
  match s with
  | SNo => forall a b, p = Some a -> q = Some b -> comparable_pos a b
  | SXF => forall a b, p = Some a -> q = Some b -> (xpos a = None <-> xpos b = None)
  | _ => True
  end.

Lemma parts_comparable s p q sp sq n v w : split_pos s p = Ok sp -> split_pos s q = Ok sq -> In (n, v) sp -> In (n, w) sq ->
  sort_cond s p q -> exists c, part_cmp v w = Ok c.
Proof.
  intros Ep Eq Hv Hw C. destruct (split_names_spec _ _ _ Ep) as (_ & Op). destruct (split_names_spec _ _ _ Eq) as (_ & Oq).
  apply (In_dict_get _ _ _ Op) in Hv. apply (In_dict_get _ _ _ Oq) in Hw.
  assert (S : forall a b : option str, exists c, none_first (fun x y => Ok (str_cmp x y)) a b = Ok c).
  { intros [a|] [b|]; simpl; eauto. }
  destruct s as [| | |keys]; cbn [split_pos] in *.
  - injection Ep as <-. injection Eq as <-. cbn [dict_get] in *. destruct (str_eqb n n_POS); [|discriminate].
    injection Hv as <-. injection Hw as <-. cbn [part_cmp]. destruct p as [a|], q as [b|]; simpl; eauto.
    apply pos_cmp_ok_iff. apply C; auto.
  - destruct p as [a|], q as [b|]; try discriminate. injection Ep as <-. injection Eq as <-. cbn [dict_get] in *.
    repeat (destruct (str_eqb _ _); [injection Hv as <-; injection Hw as <-; cbn [part_cmp]; eauto|]). discriminate.
  - destruct p as [a|], q as [b|]; try discriminate. injection Ep as <-. injection Eq as <-. cbn [dict_get] in *.
    destruct (str_eqb n n_UPOS); [injection Hv as <-; injection Hw as <-; cbn [part_cmp]; eauto|].
    destruct (str_eqb n n_XF); [injection Hv as <-; injection Hw as <-; cbn [part_cmp]|discriminate].
    destruct (proj2 (opt_str_cmp_err (xpos a) (xpos b))) as (c & ->); [apply C; auto|]. simpl. eauto.
  - destruct p as [a|], q as [b|]; try discriminate. cbn [of_option bind] in *. injection Ep as <-. injection Eq as <-.
    assert (A : forall r, Forall (fun nv => exists x, snd nv = PaStr x)
      (dict_update [(n_UPOS, PaStr (upos r)); (n_XPOS, PaStr (xpos r))] (map (fun k => (k, PaStr (dict_get (feats r) k))) keys))).
    { intros r. apply dict_update_forall; [repeat constructor; simpl; eauto|]. apply Forall_map, Forall_forall. simpl. eauto. }
    apply dict_get_In in Hv. apply dict_get_In in Hw. assert (A1 := A a). assert (A2 := A b). rewrite Forall_forall in A1, A2.
    apply A1 in Hv. apply A2 in Hw. simpl in Hv, Hw. destruct Hv as (x & ->), Hw as (y & ->). cbn [part_cmp]. auto.
Qed.

Lemma all_comparable_In {A} (cmp : A -> A -> result comparison) l :
  (forall a b, In a l -> In b l -> exists c, cmp a b = Ok c) -> all_comparable cmp l = true.
Proof.
  induction l as [|x l IH]; intros H; simpl; auto. apply andb_true_iff. split.
  - apply forallb_forall. intros y Hy. destruct (H x y) as (c & ->); simpl; auto.
  - apply IH. intros; apply H; right; auto.
Qed.

Lemma id2obj_comparable {K} (eqb : K -> K -> bool) cmp (d : list (K * Z)) : d <> [] ->
  (forall a b, In a (map fst d) -> In b (map fst d) -> exists c, cmp a b = Ok c) -> exists l, id2obj eqb cmp d 0 = Ok l.
Proof.
  intros N H. unfold id2obj. destruct d as [|kv d]; [congruence|]. cbn [most_common of_option bind]. unfold py_sorted.
  rewrite all_comparable_In; [simpl; eauto|].
  intros a b Ha Hb. apply filter_In in Ha. apply filter_In in Hb. apply H; [apply Ha|apply Hb].
Qed.

Lemma build_succeeds st ds : dataset_tokens ds <> [] -> Forall opt_pos_wf (dataset_poses ds) ->
  (forall p, In p (dataset_poses ds) -> p <> None) -> sortable st (dataset_poses ds) ->
  exists b, build_pos_labels st ds = Ok b.
Proof.
  intros N W P C. unfold build_pos_labels. fold (train_labels ds).
  destruct (train_labels_spec ds W) as (Wl & Sub & _ & Hnil).
  assert (Nl : train_labels ds <> []).
  { intros X. apply Hnil in X. unfold dataset_poses in X. apply map_eq_nil in X. auto. }
  assert (Pl : forall lc, In lc (train_labels ds) -> fst lc <> None) by (intros lc H; apply P, Sub, in_map, H).
  assert (S : exists s, make_splitter st (map fst (train_labels ds)) = Ok s /\
     forall p q, In p (dataset_poses ds) -> In q (dataset_poses ds) -> sort_cond s p q).
  { destruct st; simpl in C |- *.
    - exists SNo. split; auto. simpl. intros p q Hp Hq a b -> ->. auto.
    - exists SXF. split; auto. simpl. intros p q Hp Hq a b -> ->. auto.
    - exists SUXF. split; simpl; auto.
    - destruct (feats_keys_ok (map fst (train_labels ds))) as (keys & ->).
      + intros p Hp. apply in_map_iff in Hp. destruct Hp as (lc & <- & Hlc). auto.
      + simpl. eexists. split; simpl; auto. }
  destruct S as (s & -> & Hs). cbn [bind].
  destruct (count_parts_spec s (train_labels ds) Nl Wl) as (counts & -> & Inv); [auto|]. cbn [bind].
  assert (F := counts_nth _ _ _ (split_names_nodup s) Inv).
  assert (M : exists l, mapM (fun nc => id2obj part_eqb part_cmp (snd nc) 0) counts = Ok l).
  { assert (Sp : forall n v, In (n, v) (observed s (train_labels ds)) -> exists p sp, In p (dataset_poses ds) /\ split_pos s p = Ok sp /\ In (n, v) sp).
    { intros n v H. unfold observed in H. apply in_concat in H. destruct H as (sp & H & Hin). apply in_map_iff in H.
      destruct H as (lc & E & Hlc). destruct (split_pos s (fst lc)) as [sp'|] eqn:Es; [|subst; destruct Hin]. subst sp'.
      exists (fst lc), sp. split; auto. apply Sub, in_map, Hlc. }
    assert (Ne : forall n, In n (split_names s) -> exists v, In (n, v) (observed s (train_labels ds))).
    { intros n Hn. destruct (train_labels ds) as [|lc ls]; [congruence|].
      destruct (proj2 (split_ok s (fst lc))) as (sp & E); [right; apply Pl; left; auto|].
      destruct (split_names_spec _ _ _ E) as (Nm & _). rewrite <- Nm in Hn. apply in_map_iff in Hn. destruct Hn as ([n' v] & <- & Hin).
      exists v. unfold observed. cbn [map concat]. rewrite E. apply in_app_iff. auto. }
    clear -F Sp Ne Hs. induction F as [|n nd names counts (_ & _ & _ & S1 & S2) F IH]; simpl; eauto.
    destruct (id2obj_comparable part_eqb part_cmp (snd nd)) as (l & El).
    - destruct (Ne n (or_introl eq_refl)) as (v & Hv). destruct (S2 v Hv) as (v' & Hin & _). intros X. rewrite X in Hin. destruct Hin.
    - intros a b Ha Hb. destruct (Sp _ _ (S1 _ Ha)) as (p & sp & Hp & Ep & Hinp). destruct (Sp _ _ (S1 _ Hb)) as (q & sq & Hq & Eq & Hinq).
      eapply parts_comparable; [exact Ep|exact Eq|exact Hinp|exact Hinq|auto].
    - rewrite El. simpl. destruct IH as (ls & ->); [|simpl; eauto]. intros m Hm. apply Ne. right; auto. }
  destruct M as (l & ->). simpl. eauto.
Qed.

(* nothing is built without tokens or from a missing Pos when tags are split *)
Lemma build_needs_tokens st ds : Forall opt_pos_wf (dataset_poses ds) -> dataset_tokens ds = [] -> is_ok (build_pos_labels st ds) = false.
Proof.
  intros W N. destruct (build_pos_labels st ds) as [b|] eqn:B; auto. destruct (build_spec _ _ _ W B) as (_ & X & _).
  destruct (train_labels_spec ds W) as (_ & _ & _ & Hnil). exfalso. apply X, Hnil. unfold dataset_poses. rewrite N. auto.
Qed.

Lemma build_needs_pos st ds : Forall opt_pos_wf (dataset_poses ds) -> st <> pos_joint -> In None (dataset_poses ds) ->
  is_ok (build_pos_labels st ds) = false.
Proof.
  intros W S N. destruct (build_pos_labels st ds) as [b|] eqn:B; auto. destruct (train_split _ _ _ _ W B N) as (sp & E & _).
  destruct (proj1 (split_ok _ _) (ex_intro _ _ E)) as [X|X]; [|congruence].
  destruct (build_spec _ _ _ W B) as (Es & _). rewrite X in Es. destruct st; simpl in Es; try discriminate; [congruence|].
  apply bind_ok_iff in Es. destruct Es as (k & _ & Es). discriminate.
Qed.
