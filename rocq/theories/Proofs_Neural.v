(* Merging label builders and building their interpreter. *)
From Coq Require Import String ZArith NArith QArith Bool Lia List.
From Verif Require Import Base BaseFacts Proofs_Datamodel Model_Datamodel Spec_Datamodel Model_Vocab Model_Lemma Spec_Lemma Model_Features Spec_Features
  Model_Builder Spec_Builder Proofs_Builder3 Proofs_Builder4 Model_Processors Model_Neural Spec_Neural.
Import ListNotations.
Open Scope Z_scope.

(* ---- grouping by type ---- *)

Section Group.
Variables (B : Type) (cls : B -> Z).

Fixpoint tfirsts (seen l : list btype) : list btype :=
  match l with
  | [] => []
  | k :: l' => if existsb (btype_eqb k) seen then tfirsts seen l' else k :: tfirsts (k :: seen) l'
  end.

Lemma btype_eqb_refl t : btype_eqb t t = true.
Proof. apply btype_eqb_eq. auto. Qed.

Lemma tfirsts_snoc l : forall seen k, tfirsts seen (l ++ [k]) =
  if existsb (btype_eqb k) (l ++ seen) then tfirsts seen l else tfirsts seen l ++ [k].
Proof.
  induction l as [|x l IH]; intros seen k; cbn [app tfirsts existsb].
  - destruct (existsb (btype_eqb k) seen); auto.
  - destruct (existsb (btype_eqb x) seen) eqn:E.
    + rewrite IH. destruct (btype_eqb k x) eqn:K; cbn [orb]; auto. apply btype_eqb_eq in K. subst.
      assert (X : existsb (btype_eqb x) (l ++ seen) = true) by (rewrite existsb_app, E; apply orb_true_r). rewrite X. auto.
    + rewrite IH. rewrite !existsb_app. cbn [existsb]. destruct (existsb (btype_eqb k) l); cbn [orb]; [rewrite orb_true_r; auto|].
      destruct (btype_eqb k x); cbn [orb]; auto. destruct (existsb (btype_eqb k) seen); auto.
Qed.

Lemma tfirsts_In l : forall seen k, In k (tfirsts seen l) -> In k l /\ ~ In k seen.
Proof.
  induction l as [|x l IH]; intros seen k H; [destruct H|]. cbn [tfirsts] in H. destruct (existsb (btype_eqb x) seen) eqn:E.
  - destruct (IH _ _ H). simpl; auto.
  - destruct H as [<-|H].
    + split; [left; auto|]. intros X. assert (T : existsb (btype_eqb x) seen = true) by (apply existsb_exists; exists x; split; auto; apply btype_eqb_refl). congruence.
    + destruct (IH _ _ H). simpl in *. tauto.
Qed.

Lemma tfirsts_all l : forall seen k, In k l -> ~ In k seen -> In k (tfirsts seen l).
Proof.
  induction l as [|x l IH]; intros seen k H N; [destruct H|]. cbn [tfirsts]. destruct (existsb (btype_eqb x) seen) eqn:E.
  - destruct H as [<-|H]; [|auto]. apply existsb_exists in E. destruct E as (y & Hy & Ey). apply btype_eqb_eq in Ey. subst. tauto.
  - destruct (btype_eqb k x) eqn:K.
    + apply btype_eqb_eq in K. subst. left; auto.
    + right. destruct H as [<-|H]; [rewrite btype_eqb_refl in K; discriminate|]. apply IH; auto. intros [<-|X]; auto.
      rewrite btype_eqb_refl in K; discriminate.
Qed.

Lemma tfirsts_nodup l : forall seen, NoDup (tfirsts seen l).
Proof.
  induction l as [|x l IH]; intros seen; [constructor|]. cbn [tfirsts]. destruct (existsb (btype_eqb x) seen); auto.
  constructor; auto. intros H. apply tfirsts_In in H. simpl in H. tauto.
Qed.

Definition of_type (t : btype) (bs : list (builder B)) : list (builder B) := filter (fun b => btype_eqb t (type_of B cls b)) bs.

Lemma group_eq bs : group B cls bs = map (fun t => (t, of_type t bs)) (tfirsts [] (map (type_of B cls) bs)).
Proof.
  induction bs as [|b bs IH] using rev_ind; [reflexivity|].
  unfold group. rewrite fold_left_app. cbn [fold_left]. fold (group B cls bs). rewrite IH, map_app. cbn [map].
  rewrite tfirsts_snoc, app_nil_r. set (k := type_of B cls b). set (ks := tfirsts [] (map (type_of B cls) bs)).
  assert (ND : NoDup ks) by apply tfirsts_nodup.
  assert (Of : forall t, of_type t (bs ++ [b]) = of_type t bs ++ if btype_eqb t k then [b] else []).
  { intros t. unfold of_type. rewrite filter_app. cbn [filter]. fold k. destruct (btype_eqb t k); auto. }
  assert (Sym : forall t u, btype_eqb t u = btype_eqb u t).
  { intros t u. destruct (btype_eqb t u) eqn:E1, (btype_eqb u t) eqn:E2; auto.
    - apply btype_eqb_eq in E1. subst. rewrite btype_eqb_refl in E2. discriminate.
    - apply btype_eqb_eq in E2. subst. rewrite btype_eqb_refl in E1. discriminate. }
  assert (Nk : forall l, (forall t, In t l -> t <> k) ->
     gget btype_eqb (map (fun t => (t, of_type t bs)) l) k = None /\ (forall v, gset btype_eqb (map (fun t => (t, of_type t bs)) l) k v = map (fun t => (t, of_type t (bs ++ [b]))) l ++ [(k, v)])).
  { induction l as [|t l IHl]; intros H; [split; auto|]. destruct IHl as (G & S); [intros; apply H; right; auto|].
    assert (X : btype_eqb k t = false).
    { destruct (btype_eqb k t) eqn:E; auto. apply btype_eqb_eq in E. exfalso. apply (H t); [left; auto|auto]. }
    cbn [map gget gset fst snd]. rewrite X. split; auto. intros v. rewrite S. cbn [app]. f_equal. rewrite Of, Sym, X, app_nil_r. auto. }
  destruct (existsb (btype_eqb k) (map (type_of B cls) bs)) eqn:E.
  - assert (Hk : In k ks).
    { apply tfirsts_all; auto. apply existsb_exists in E. destruct E as (y & Hy & Ey). apply btype_eqb_eq in Ey. subst. auto. }
    clearbody ks. clear E. revert ND Hk. clear -Nk Of Sym. induction ks as [|t ks IH]; intros ND Hk; [destruct Hk|].
    inversion ND; subst. cbn [map gget gset]. rewrite Of. destruct (btype_eqb k t) eqn:X.
    + rewrite Sym, X. apply btype_eqb_eq in X. subst t. f_equal.
      apply map_ext_in. intros t Ht. rewrite Of. destruct (btype_eqb t k) eqn:Y; [|rewrite app_nil_r; auto].
      apply btype_eqb_eq in Y. subst. tauto.
    + rewrite Sym, X, app_nil_r. f_equal. apply IH; auto. destruct Hk as [<-|Hk]; auto. rewrite btype_eqb_refl in X. discriminate.
  - assert (Hk : forall t, In t ks -> t <> k).
    { intros t Ht ->. apply tfirsts_In in Ht. destruct Ht as (Ht & _).
      assert (T : existsb (btype_eqb k) (map (type_of B cls) bs) = true) by (apply existsb_exists; exists k; split; auto; apply btype_eqb_refl). congruence. }
    destruct (Nk ks Hk) as (G & S). rewrite G, S, map_app. cbn [map]. f_equal. f_equal. f_equal. rewrite Of, btype_eqb_refl.
    assert (Z0 : of_type k bs = []); [|rewrite Z0; auto]. unfold of_type. clear -E. induction bs as [|x bs IH]; auto.
    cbn [map existsb filter] in *. apply orb_false_iff in E. destruct E as (E1 & E2). rewrite E1. auto.
Qed.
End Group.

(* ---- the three levels of the label builders ---- *)

Notation LB := label_builder.
Notation lmerge := (merge LB label_class).

Lemma firsts_types l : forall seen, tfirsts (map TBasic seen) (map TBasic l) = map TBasic (firsts seen l).
Proof.
  induction l as [|x l IH]; intros seen; [reflexivity|]. cbn [map tfirsts firsts].
  assert (E : existsb (btype_eqb (TBasic x)) (map TBasic seen) = existsb (Z.eqb x) seen).
  { induction seen as [|y seen IHs]; auto. cbn [map existsb btype_eqb]. rewrite IHs. auto. }
  rewrite E. destruct (existsb (Z.eqb x) seen); auto. cbn [map]. f_equal. apply (IH (x :: seen)).
Qed.

Lemma merge_basics fuel lbs : lbs <> [] -> lmerge (S fuel) (map (BBasic LB) lbs) = Ok (single LB (map (BBasic LB) (by_class lbs))).
Proof.
  intros Ne. rewrite merge_S, group_eq, map_map. cbn [type_of].
  assert (Et : tfirsts [] (map (fun x => TBasic (label_class x)) lbs) = map TBasic (firsts [] (map label_class lbs))).
  { rewrite <- (map_map label_class TBasic). apply (firsts_types _ []). }
  rewrite Et, map_map.
  assert (N2 : firsts [] (map label_class lbs) <> []).
  { destruct lbs as [|lb lbs]; [congruence|]. cbn. discriminate. }
  set (ks := firsts [] (map label_class lbs)) in *.
  assert (R : raise_if (match map (fun x => (TBasic x, of_type LB label_class (TBasic x) (map (BBasic LB) lbs))) ks with [] => true | _ :: _ => false end) EValue = Ok tt).
  { destruct ks; [congruence|]. reflexivity. }
  rewrite R. cbn [bind].
  assert (Em : forall sk, mapM (merge_group LB label_class fuel sk) (map (fun x => (TBasic x, of_type LB label_class (TBasic x) (map (BBasic LB) lbs))) ks) =
     Ok (map (fun c => map (BBasic LB) (filter (fun lb => label_class lb =? c) lbs)) ks)).
  { intros sk. apply mapM_ok. clear. induction ks as [|c ks IH]; constructor; auto.
    assert (Eo : of_type LB label_class (TBasic c) (map (BBasic LB) lbs) = map (BBasic LB) (filter (fun lb => label_class lb =? c) lbs)).
    { clear IH. unfold of_type. induction lbs as [|lb lbs IH']; auto. cbn [map filter]. change (btype_eqb (TBasic c) (type_of LB label_class (BBasic LB lb))) with (c =? label_class lb).
      rewrite (Z.eqb_sym c). destruct (label_class lb =? c); cbn [map]; rewrite IH'; auto.
    }
    unfold merge_group. cbn [fst snd is_empty_type]. rewrite andb_false_r, Eo. destruct (map (BBasic LB) (filter _ lbs)) as [|b [|b' l]]; auto. }
  rewrite Em. cbn [bind].
  assert (Ec : concat (map (fun c => map (BBasic LB) (filter (fun lb => label_class lb =? c) lbs)) ks) = map (BBasic LB) (by_class lbs)).
  { unfold by_class. fold ks. rewrite concat_map, map_map. auto. }
  rewrite Ec. apply merge_single.
Qed.

Lemma merge_wrapped (w : builder LB -> builder LB) t fuel xs r :
  (forall b, type_of LB label_class (w b) = t) -> (forall b, inner LB (w b) = [b]) ->
  (t = TPad /\ w = BPad LB \/ t = TIter /\ w = BIter LB) ->
  xs <> [] -> (forall x, xs = [x] -> r = x) -> (length xs <> 1%nat -> lmerge fuel xs = Ok r) ->
  forall sk, merge_group LB label_class fuel sk (t, map w xs) = Ok [w r].
Proof.
  intros Ht Hi Hw Ne H1 H2 sk. unfold merge_group. cbn [fst snd].
  assert (X : is_empty_type t = false) by (destruct Hw as [[-> _]|[-> _]]; auto). rewrite X, andb_false_r.
  assert (Ei : concat (map (inner LB) (map w xs)) = xs).
  { rewrite map_map. clear -Hi. induction xs; simpl; auto. rewrite Hi. simpl. f_equal. auto. }
  destruct xs as [|x [|y xs]]; [congruence| |].
  - cbn [map]. rewrite (H1 x); auto.
  - cbn [map]. cbn [map] in Ei. rewrite Ei. rewrite H2 by discriminate. destruct Hw as [[-> ->]|[-> ->]]; reflexivity.
Qed.

Lemma merge_iters fuel xs r : xs <> [] -> (forall x, xs = [x] -> r = x) -> (length xs <> 1%nat -> lmerge fuel xs = Ok r) ->
  lmerge (S fuel) (map (BIter LB) xs) = Ok (BIter LB r).
Proof.
  intros Ne H1 H2. rewrite merge_S.
  assert (E : group LB label_class (map (BIter LB) xs) = [(TIter, map (BIter LB) xs)]).
  { rewrite group_eq.
    assert (T : tfirsts [] (map (type_of LB label_class) (map (BIter LB) xs)) = [TIter]).
    { destruct xs as [|x xs]; [congruence|]. cbn. clear. induction xs; auto. }
    rewrite T. cbn [map]. f_equal. f_equal. unfold of_type. clear. induction xs; auto. cbn [map filter type_of btype_eqb]. f_equal. auto. }
  rewrite E. cbn [raise_if bind mapM].
  rewrite (merge_wrapped (BIter LB) TIter fuel xs r); auto.
Qed.

Lemma merge_pads fuel bs lbs r : provided bs lbs -> lbs <> [] ->
  (forall x, lbs = [x] -> r = BIter LB (BIter LB (BBasic LB x))) ->
  (length lbs <> 1%nat -> lmerge fuel (map (fun lb => BIter LB (BIter LB (BBasic LB lb))) lbs) = Ok r) ->
  lmerge (S fuel) bs = Ok (BPad LB r).
Proof.
  intros (_ & Hb & El) Ne H1 H2. rewrite merge_S, group_eq. set (ks := tfirsts [] (map (type_of LB label_class) bs)).
  assert (P : of_type LB label_class TPad bs = map (BPad LB) (map (fun lb => BIter LB (BIter LB (BBasic LB lb))) lbs)).
  { subst lbs. clear -Hb. induction Hb as [|b bs [->|(lb & ->)] Hb IH]; auto. cbn. f_equal. exact IH. }
  assert (M : merge_group LB label_class fuel (1 <? zlen (map (fun t => (t, of_type LB label_class t bs)) ks)) (TPad, of_type LB label_class TPad bs) = Ok [BPad LB r]).
  { rewrite P. apply (merge_wrapped (BPad LB) TPad); auto.
    - destruct lbs; [congruence|discriminate].
    - intros x Hx. destruct lbs as [|lb [|? ?]]; try discriminate. injection Hx as <-. rewrite (H1 lb); auto.
    - rewrite map_length. auto. }
  assert (K : forall t, In t ks -> t = TPad \/ t = TEmpty).
  { intros t Ht. apply tfirsts_In in Ht. destruct Ht as (Ht & _). apply in_map_iff in Ht. destruct Ht as (b & <- & Hin).
    rewrite Forall_forall in Hb. destruct (Hb b Hin) as [->|(lb & ->)]; auto. }
  assert (K2 : In TPad ks).
  { apply tfirsts_all; auto. destruct lbs as [|lb lbs]; [congruence|]. 
    assert (Hin : In lb (concat (map (fun b => match b with BPad _ (BIter _ (BIter _ (BBasic _ lb))) => [lb] | _ => [] end) bs))) by (rewrite <- El; left; auto).
    apply in_concat in Hin. destruct Hin as (l & Hl & Hin). apply in_map_iff in Hl. destruct Hl as (b & <- & Hb').
    rewrite Forall_forall in Hb. destruct (Hb b Hb') as [->|(lb' & ->)]; [destruct Hin|]. apply in_map_iff. exists (wrap_word_level lb'). auto. }
  assert (ND : NoDup ks) by apply tfirsts_nodup.
  clearbody ks. clear Hb El H1 H2 P. 
  destruct ks as [|a ks]; [destruct K2|]. cbn [map raise_if bind].
  destruct ks as [|a' ks].
  - destruct K2 as [->|[]]. cbn [map mapM]. cbn [map] in M. rewrite M. reflexivity.
  - destruct ks as [|a'' ks].
    + inversion ND as [|? ? Na _]; subst. cbn [map] in *.
      assert (S : (1 <? zlen [(a, of_type LB label_class a bs); (a', of_type LB label_class a' bs)]) = true) by reflexivity.
      rewrite S in *. destruct (K a (or_introl eq_refl)) as [->| ->], (K a' (or_intror (or_introl eq_refl))) as [->| ->];
        try (exfalso; apply Na; left; reflexivity); cbn [mapM]; rewrite M; reflexivity.
    + exfalso. inversion ND as [|? ? Na ND']; subst. inversion ND' as [|? ? Na' ND'']; subst. simpl in Na, Na'.
      destruct (K a) as [->| ->], (K a') as [->| ->], (K a'') as [->| ->]; simpl; tauto.
Qed.

Lemma by_class_length lbs x : lbs = [x] -> by_class lbs = [x].
Proof. intros ->. unfold by_class. cbn. rewrite Z.eqb_refl. auto. Qed.

Lemma merged bs lbs : provided bs lbs -> lbs <> [] ->
  merge_builders LB label_class bs = Ok (BPad LB (BIter LB (BIter LB (single LB (map (BBasic LB) (by_class lbs)))))).
Proof.
  intros P Ne. unfold merge_builders.
  assert (Sz : exists f, S (bsizes LB bs) = S (S (S (S f)))).
  { destruct P as (_ & Hb & El). subst lbs. clear -Hb Ne. induction Hb as [|b bs [->|(lb & ->)] Hb IH]; [exfalso; apply Ne; reflexivity| |].
    - destruct (IH Ne) as (f & E). injection E as E. exists (S f). unfold bsizes in *. cbn [fold_right bsize]. rewrite E. auto.
    - exists (bsizes LB bs + 1)%nat. unfold bsizes. cbn [fold_right bsize wrap_word_level]. f_equal. lia. }
  destruct Sz as (f & ->). eapply merge_pads; eauto.
  - intros x ->. rewrite (by_class_length [x] x) by auto. reflexivity.
  - intros L. rewrite <- (map_map (fun lb => BIter LB (BBasic LB lb)) (BIter LB)). apply merge_iters.
    + destruct lbs; [congruence|discriminate].
    + intros x Hx. destruct lbs as [|lb [|? ?]]; try discriminate. injection Hx as <-. rewrite (by_class_length [lb] lb) by auto. reflexivity.
    + intros _. rewrite <- (map_map (BBasic LB) (BIter LB)). apply merge_iters.
      * destruct lbs; [congruence|discriminate].
      * intros x Hx. destruct lbs as [|lb [|? ?]]; try discriminate. injection Hx as <-. rewrite (by_class_length [lb] lb) by auto. reflexivity.
      * intros _. apply merge_basics. auto.
Qed.

Lemma merged_empty bs : provided bs [] -> merge_builders LB label_class bs = Ok (BEmpty LB).
Proof.
  intros (Ne & Hb & El). unfold merge_builders. rewrite merge_S, group_eq.
  assert (A : Forall (fun b => b = BEmpty LB) bs).
  { symmetry in El. apply concat_nil_Forall in El. rewrite Forall_map in El. rewrite Forall_forall in *. intros b Hin.
    destruct (Hb b Hin) as [->|(lb & ->)]; auto. specialize (El _ Hin). discriminate El. }
  assert (T : tfirsts [] (map (type_of LB label_class) bs) = [TEmpty]).
  { destruct bs as [|b bs]; [congruence|]. inversion A; subst. cbn. clear -H2. induction H2; subst; auto. }
  rewrite T. cbn [map raise_if bind mapM].
  assert (F : of_type LB label_class TEmpty bs = bs) by (clear -A; induction A; subst; auto; cbn; f_equal; auto).
  rewrite F. unfold merge_group. cbn [fst snd is_empty_type]. change (1 <? zlen _) with false. cbn [andb].
  destruct bs as [|b [|b' bs]]; [congruence| |]; inversion A; subst; reflexivity.
Qed.
