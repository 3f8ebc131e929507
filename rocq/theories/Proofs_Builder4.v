(* Merging builders. *)
From Coq Require Import ZArith NArith QArith Bool List Permutation Lia.
From Verif Require Import Base BaseFacts Proofs_Datamodel Model_Vocab Proofs_Vocab Model_Features Proofs_Features Model_Builder Spec_Builder Proofs_Builder
  Proofs_Builder3.
Import ListNotations.

Section Merge.
Variables (B : Type) (cls : B -> Z).
Notation builder := (builder B).
Notation group := (group B cls).
Notation type_of := (type_of B cls).
Notation inner := (inner B).
Notation merge := (merge B cls).

Lemma btype_eqb_eq a b : btype_eqb a b = true <-> a = b.
Proof.
  destruct a, b; cbn [btype_eqb]; split; intros H; try congruence; try discriminate.
  - apply Z.eqb_eq in H. congruence.
  - injection H as ->. apply Z.eqb_refl.
Qed.

Definition good_groups (g : list (btype * list builder)) : Prop :=
  Forall (fun tv => snd tv <> [] /\ Forall (fun b => type_of b = fst tv) (snd tv)) g.

Definition add_group (g : list (btype * list builder)) (b : builder) :=
  gset btype_eqb g (type_of b) (match gget btype_eqb g (type_of b) with Some l => l ++ [b] | None => [b] end).

Lemma add_group_spec g b : good_groups g ->
  good_groups (add_group g b) /\ Permutation (concat (map snd (add_group g b))) (b :: concat (map snd g)).
Proof.
  unfold add_group. induction 1 as [|[t vs] g [Hne Ht] Hg [IH1 IH2]]; cbn [gget gset].
  - split; [|reflexivity]. constructor; [|constructor]. cbn [fst snd]. split; [discriminate|auto].
  - cbn [fst snd] in *. destruct (btype_eqb (type_of b) t) eqn:E.
    + apply btype_eqb_eq in E. split.
      * constructor; [|exact Hg]. cbn [fst snd]. split; [destruct vs; discriminate|]. apply Forall_app. split; auto.
      * cbn [map snd concat]. rewrite <- app_assoc. cbn [app]. symmetry. apply Permutation_middle.
    + split.
      * constructor; [split; assumption|exact IH1].
      * cbn [map snd concat]. rewrite IH2. symmetry. apply Permutation_middle.
Qed.

Lemma group_spec bs : good_groups (group bs) /\ Permutation (concat (map snd (group bs))) bs.
Proof.
  unfold Model_Builder.group. fold add_group.
  enough (H : forall g, good_groups g -> good_groups (fold_left add_group bs g) /\
    Permutation (concat (map snd (fold_left add_group bs g))) (concat (map snd g) ++ bs)).
  { apply (H []). constructor. }
  induction bs as [|b bs IH]; intros g Hg; cbn [fold_left].
  - rewrite app_nil_r. split; [exact Hg|reflexivity].
  - destruct (add_group_spec g b Hg) as [H1 H2]. destruct (IH _ H1) as [H3 H4]. split; [exact H3|].
    rewrite H4, H2. cbn [app]. apply Permutation_middle.
Qed.

Lemma group_nil bs : group bs = [] <-> bs = [].
Proof.
  split; [|intros ->; reflexivity]. intros E. destruct (group_spec bs) as [_ H]. rewrite E in H. cbn in H. apply Permutation_nil in H. exact H.
Qed.

Lemma group_distinct bs : NoDup (map fst (group bs)).
Proof.
  unfold Model_Builder.group. fold add_group.
  enough (H : forall g, NoDup (map fst g) -> NoDup (map fst (fold_left add_group bs g))) by (apply H; constructor).
  induction bs as [|b bs IH]; intros g Hg; cbn [fold_left]; [exact Hg|]. apply IH. unfold add_group.
  generalize (match gget btype_eqb g (type_of b) with Some l => l ++ [b] | None => [b] end) as v. intros v.
  assert (Hk : forall g, map fst (gset btype_eqb g (type_of b) v) = map fst g \/
                         (map fst (gset btype_eqb g (type_of b) v) = map fst g ++ [type_of b] /\ ~ In (type_of b) (map fst g))).
  { clear. induction g as [|[t vs] g IHg]; cbn [gset map fst]; [right; auto|].
    destruct (btype_eqb (type_of b) t) eqn:E; cbn [map fst]; [left; auto|].
    destruct IHg as [->|[-> Hn]]; [left; auto|right]. split; [auto|]. intros [H|H]; [|auto].
    subst t. rewrite (proj2 (btype_eqb_eq _ _) eq_refl) in E. discriminate. }
  destruct (Hk g) as [->|[-> Hn]]; [exact Hg|]. apply NoDup_app_iff. repeat split; auto.
  - constructor; [auto|constructor].
  - intros t H1 [<-|[]]. auto.
Qed.

(* what merge does with one group *)
Definition merge_group (fuel : nat) (skip : bool) (tv : btype * list builder) : result (list builder) :=
  if skip && is_empty_type (fst tv) then Ok []
  else match snd tv with
       | [b] => Ok [b]
       | values => match fst tv with
                   | TBasic _ => Ok values
                   | TEmpty => Ok (firstn 1 values)
                   | TPad => do b <- merge fuel (concat (map inner values)); Ok [BPad B b]
                   | TSparse => do b <- merge fuel (concat (map inner values)); Ok [BSparse B b]
                   | TIter => do b <- merge fuel (concat (map inner values)); Ok [BIter B b]
                   | TComp => do b <- merge fuel (concat (map inner values)); Ok [b]
                   end
       end.

Lemma merge_S fuel bs : merge (S fuel) bs =
  do _ <- raise_if (match group bs with [] => true | _ => false end) EValue;
  do parts <- mapM (merge_group fuel (1 <? zlen (group bs))%Z) (group bs);
  match concat parts with [b] => Ok b | r => Ok (BComp B r) end.
Proof. reflexivity. Qed.

Definition single (r : list builder) : builder := match r with [b] => b | _ => BComp B r end.
Lemma merge_single r : match r with [] => Ok (BComp B []) | [b] => Ok b | b :: c :: r' => Ok (BComp B (b :: c :: r')) end = Ok (single r).
Proof. destruct r as [|b [|c r]]; reflexivity. Qed.

(* ---- an induction principle for statements about merging: [Q bs rs] says that the builders rs do the work of bs ---- *)

Variable Q : list builder -> list builder -> Prop.
Hypothesis Q_refl : forall bs, Q bs bs.
Hypothesis Q_app : forall a b c d, Q a b -> Q c d -> Q (a ++ c) (b ++ d).
Hypothesis Q_perm : forall a b c, Permutation a b -> Q b c -> Q a c.
Hypothesis Q_empty : forall n, Q (repeat (BEmpty B) n) [].
Hypothesis Q_empty1 : forall n, Q (repeat (BEmpty B) (S n)) [BEmpty B].
Hypothesis Q_pad : forall bs b, bs <> [] -> Q bs [b] -> Q (map (BPad B) bs) [BPad B b].
Hypothesis Q_sparse : forall bs b, bs <> [] -> Q bs [b] -> Q (map (BSparse B) bs) [BSparse B b].
Hypothesis Q_iter : forall bs b, bs <> [] -> Q bs [b] -> Q (map (BIter B) bs) [BIter B b].
Hypothesis Q_comp : forall bss b, Forall (fun bs => bs <> []) bss -> Q (concat bss) [b] -> Q (map (BComp B) bss) [b].
Hypothesis Q_join : forall bs rs, rs <> [] -> Q bs rs -> Q bs [single rs].

Lemma all_empty vs : Forall (fun b => type_of b = TEmpty) vs -> vs = repeat (BEmpty B) (length vs).
Proof. induction 1 as [|b vs Hb _ IH]; [reflexivity|]. cbn [length repeat]. destruct b; try discriminate. f_equal. exact IH. Qed.
Lemma all_pad vs : Forall (fun b => type_of b = TPad) vs -> vs = map (BPad B) (concat (map inner vs)).
Proof. induction 1 as [|b vs Hb _ IH]; [reflexivity|]. destruct b; try discriminate. cbn [map inner Model_Builder.inner concat app]. f_equal. exact IH. Qed.
Lemma all_sparse vs : Forall (fun b => type_of b = TSparse) vs -> vs = map (BSparse B) (concat (map inner vs)).
Proof. induction 1 as [|b vs Hb _ IH]; [reflexivity|]. destruct b; try discriminate. cbn [map inner Model_Builder.inner concat app]. f_equal. exact IH. Qed.
Lemma all_iter vs : Forall (fun b => type_of b = TIter) vs -> vs = map (BIter B) (concat (map inner vs)).
Proof. induction 1 as [|b vs Hb _ IH]; [reflexivity|]. destruct b; try discriminate. cbn [map inner Model_Builder.inner concat app]. f_equal. exact IH. Qed.
Lemma all_comp vs : Forall (fun b => type_of b = TComp) vs -> vs = map (BComp B) (map inner vs).
Proof. induction 1 as [|b vs Hb _ IH]; [reflexivity|]. destruct b; try discriminate. cbn [map inner Model_Builder.inner concat app]. f_equal. exact IH. Qed.

Lemma buildable_inner vs : Forall buildable vs -> Forall buildable (concat (map inner vs)).
Proof.
  induction 1 as [|b vs Hb _ IH]; cbn [map concat]; [constructor|]. apply Forall_app. split; [|exact IH].
  inversion Hb; subst; cbn; auto.
Qed.

Lemma bsizes_app l1 l2 : bsizes B (l1 ++ l2) = (bsizes B l1 + bsizes B l2)%nat.
Proof. unfold bsizes. induction l1 as [|b l IH]; cbn [app fold_right]; [auto|]. rewrite IH. lia. Qed.
Lemma bsizes_perm l1 l2 : Permutation l1 l2 -> bsizes B l1 = bsizes B l2.
Proof. unfold bsizes. induction 1; cbn [fold_right]; lia. Qed.
Lemma bsizes_inner vs : (bsizes B (concat (map inner vs)) + length (filter (fun b => match inner b with [] => false | _ => true end) vs) <= bsizes B vs)%nat.
Proof.
  induction vs as [|b vs IH]; cbn [map concat filter]; [auto|]. rewrite bsizes_app.
  unfold bsizes in *. cbn [fold_right].
  destruct b; cbn [inner Model_Builder.inner fold_right bsize length]; try lia.
  destruct bs; cbn [fold_right length]; lia.
Qed.

Lemma merge_ok fuel : forall bs, bs <> [] -> Forall buildable bs -> (bsizes B bs < fuel)%nat ->
  exists b, merge fuel bs = Ok b /\ buildable b /\ Q bs [b].
Proof.
  induction fuel as [|fuel IH]; intros bs Hne Hb Hs; [lia|]. rewrite merge_S.
  destruct (group_spec bs) as [Hg Hp]. set (skip := (1 <? zlen (group bs))%Z).
  assert (Hgne : group bs <> []) by (rewrite group_nil; exact Hne).
  replace (match group bs with [] => true | _ => false end) with false by (destruct (group bs); [congruence|reflexivity]).
  cbn [raise_if bind].
  assert (Hgb : Forall (fun tv => Forall buildable (snd tv) /\ (bsizes B (snd tv) < S fuel)%nat) (group bs)).
  { assert (Hin : forall tv, In tv (group bs) -> (forall b, In b (snd tv) -> In b bs) /\ (bsizes B (snd tv) <= bsizes B bs)%nat).
    { intros tv Htv. apply in_split in Htv as [g1 [g2 E]]. rewrite E in Hp. rewrite map_app in Hp. cbn [map] in Hp. rewrite concat_app in Hp.
      cbn [concat] in Hp. split.
      - intros b Hbin. eapply Permutation_in; [exact Hp|]. apply in_or_app. right. apply in_or_app. auto.
      - rewrite <- (bsizes_perm _ _ Hp). rewrite !bsizes_app. lia. }
    apply Forall_forall. intros tv Htv. destruct (Hin tv Htv) as [H1 H2]. split; [|lia].
    rewrite Forall_forall in *. auto. }
  (* one group *)
  assert (Hone : forall tv, snd tv <> [] -> Forall (fun b => type_of b = fst tv) (snd tv) -> Forall buildable (snd tv) ->
    (bsizes B (snd tv) < S fuel)%nat ->
    exists rs, merge_group fuel skip tv = Ok rs /\ Forall buildable rs /\ Q (snd tv) rs /\ (rs = [] -> skip = true /\ fst tv = TEmpty)).
  { intros [t vs] H1 H2 H3 H4. cbn [fst snd] in *. unfold merge_group. cbn [fst snd].
    destruct (skip && is_empty_type t) eqn:E.
    { apply andb_true_iff in E as [E1 E2]. destruct t; try discriminate. exists []. repeat split; auto.
      rewrite (all_empty _ H2). apply Q_empty. }
    destruct vs as [|b1 [|b2 vs]]; [congruence| |].
    { exists [b1]. repeat split; auto; discriminate. }
    set (values := b1 :: b2 :: vs) in *.
    assert (Hrec : is_empty_type t = false -> (forall c, t <> TBasic c) -> concat (map inner values) <> [] /\ exists b, merge fuel (concat (map inner values)) = Ok b /\ buildable b /\ Q (concat (map inner values)) [b]).
    { intros He Hnb.
      assert (Hin : forall b, In b values -> inner b <> []).
      { intros b Hbin. rewrite Forall_forall in H2, H3. specialize (H2 b Hbin). specialize (H3 b Hbin).
        inversion H3; subst; cbn in *; try discriminate; auto. exfalso. eapply Hnb. eauto. }
      assert (Hnn : concat (map inner values) <> []).
      { unfold values. cbn [map concat]. intros E0. apply app_eq_nil in E0 as [E0 _]. apply (Hin b1); [left; auto|exact E0]. }
      split; [exact Hnn|]. apply IH.
      - exact Hnn.
      - apply buildable_inner. exact H3.
      - pose proof (bsizes_inner values) as Hsz.
        assert (Hf : filter (fun b => match inner b with [] => false | _ => true end) values = values).
        { clear -Hin. induction values as [|b l IHl]; [reflexivity|]. cbn [filter].
          destruct (inner b) eqn:E0; [exfalso; apply (Hin b); [left|]; auto|]. f_equal. apply IHl. intros; apply Hin; right; auto. }
        rewrite Hf in Hsz. unfold values in Hsz at 2. cbn [length] in Hsz. lia. }
    destruct t as [c| | | | |]; cbn [is_empty_type] in Hrec.
    - exists values. repeat split; auto; discriminate.
    - exists (firstn 1 values). unfold values at 1. repeat split.
      + inversion H3; subst. repeat constructor; auto.
      + rewrite (all_empty values H2). apply Q_empty1.
      + unfold values. discriminate.
    - destruct Hrec as [Hnn [b [E1 [Hbb HQ]]]]; [auto|discriminate|]. rewrite E1. cbn [bind]. exists [BPad B b]. repeat split; try discriminate.
      + repeat constructor; auto.
      + rewrite (all_pad values H2). apply Q_pad; [exact Hnn|exact HQ].
    - destruct Hrec as [Hnn [b [E1 [Hbb HQ]]]]; [auto|discriminate|]. rewrite E1. cbn [bind]. exists [BSparse B b]. repeat split; try discriminate.
      + repeat constructor; auto.
      + rewrite (all_sparse values H2). apply Q_sparse; [exact Hnn|exact HQ].
    - destruct Hrec as [Hnn [b [E1 [Hbb HQ]]]]; [auto|discriminate|]. rewrite E1. cbn [bind]. exists [BIter B b]. repeat split; try discriminate.
      + repeat constructor; auto.
      + rewrite (all_iter values H2). apply Q_iter; [exact Hnn|exact HQ].
    - destruct Hrec as [Hnn [b [E1 [Hbb HQ]]]]; [auto|discriminate|]. rewrite E1. cbn [bind]. exists [b]. repeat split; try discriminate.
      + repeat constructor; auto.
      + rewrite (all_comp values H2). apply Q_comp; [|exact HQ].
        apply Forall_map, Forall_forall. intros x Hx. rewrite Forall_forall in H2, H3. specialize (H2 x Hx). specialize (H3 x Hx).
        destruct x; try discriminate. inversion H3; subst; auto. }
  assert (Hall : forall g, good_groups g -> Forall (fun tv => Forall buildable (snd tv) /\ (bsizes B (snd tv) < S fuel)%nat) g ->
    exists parts, mapM (merge_group fuel skip) g = Ok parts /\ Forall buildable (concat parts) /\ Q (concat (map snd g)) (concat parts) /\
      (concat parts = [] -> g = [] \/ (skip = true /\ Forall (fun tv => fst tv = TEmpty) g))).
  { induction 1 as [|tv g [Hn Ht] Hgg IHg]; intros Hgb'.
    - exists []. repeat split; auto; constructor.
    - inversion Hgb' as [|? ? [Hb1 Hb2] Hb3]; subst. destruct (Hone tv Hn Ht Hb1 Hb2) as [rs [E1 [R1 [R2 R3]]]].
      destruct (IHg Hb3) as [parts [E2 [P1 [P2 P3]]]]. exists (rs :: parts). cbn [mapM]. rewrite E1. cbn [bind]. rewrite E2. cbn [bind].
      repeat split.
      + cbn [concat]. apply Forall_app; auto.
      + cbn [map concat]. apply Q_app; auto.
      + cbn [concat]. intros E0. apply app_eq_nil in E0 as [-> E0]. right. destruct (R3 eq_refl) as [Hsk Hte]. split; auto.
        constructor; auto. destruct (P3 E0) as [->|[_ H]]; auto. }
  destruct (Hall (group bs) Hg Hgb) as [parts [E1 [P1 [P2 P3]]]]. rewrite E1. cbn [bind]. rewrite merge_single.
  assert (Hpne : concat parts <> []).
  { intros E0. destruct (P3 E0) as [?|[Hsk Hte]]; [congruence|]. unfold skip in Hsk. apply Z.ltb_lt in Hsk.
    (* two groups of the same type *)
    pose proof (group_distinct bs) as Hd. destruct (group bs) as [|[t1 v1] [|[t2 v2] g]]; [congruence|cbn in Hsk; lia|].
    inversion Hte as [|? ? He1 Hte']; subst. inversion Hte' as [|? ? He2 _]; subst. cbn [fst] in *. subst.
    cbn [map fst] in Hd. inversion Hd; subst. apply H1. left; auto. }
  exists (single (concat parts)). repeat split.
  - destruct (concat parts) as [|b1 [|b2 r]]; [congruence|inversion P1; auto|]. cbn [single]. constructor; [discriminate|exact P1].
  - apply Q_join; [exact Hpne|]. eapply Q_perm; [|exact P2]. symmetry. exact Hp.
Qed.
End Merge.
