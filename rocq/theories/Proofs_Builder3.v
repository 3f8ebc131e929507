(* Sparsification; dictionaries of features. *)
From Coq Require Import ZArith NArith QArith Bool List Permutation Lia.
From Verif Require Import Base BaseFacts Proofs_Datamodel Model_Vocab Model_Features Proofs_Features Proofs_Features5 Model_Builder Spec_Builder Proofs_Builder.
Import ListNotations.

Lemma nth_error_Some_lt' {A} (l : list A) i x : nth_error l i = Some x -> (i < length l)%nat.
Proof. intros H. apply nth_error_Some. congruence. Qed.

Lemma Forall2_of_nth {A B} (R : A -> B -> Prop) (l : list A) : forall l', length l = length l' ->
  (forall i a b, nth_error l i = Some a -> nth_error l' i = Some b -> R a b) -> Forall2 R l l'.
Proof.
  induction l as [|x l IH]; intros [|y l'] E H; try discriminate; constructor.
  - apply (H 0%nat); reflexivity.
  - apply IH; [simpl in E; lia|]. intros i a b Ha Hb. apply (H (S i)); assumption.
Qed.

(* ---- sparsification ---- *)

Definition sparse_list (rate : Q) := fix go (l : list nested) (draws : list Q) : result (list nested * list Q) :=
  match l with
  | [] => Ok ([], draws)
  | y :: l' => do yr <- sparse rate y draws; do lr <- go l' (snd yr); Ok (fst yr :: fst lr, snd lr)
  end.
Lemma sparse_NList rate l draws : sparse rate (NList l) draws = do lr <- sparse_list rate l draws; Ok (NList (fst lr), snd lr).
Proof. reflexivity. Qed.

(* the scalars after sparsification *)
Definition choose (rate : Q) (zr : Z * Q) : Z := if qgt (snd zr) rate then fst zr else 1%Z.

Definition sparse_good (rate : Q) (x : nested) : Prop :=
  forall draws, (length (scalars x) <= length draws)%nat ->
  exists y, sparse rate x draws = Ok (y, skipn (length (scalars x)) draws) /\ same_shape x y /\
            scalars y = map (choose rate) (combine (scalars x) draws).

Lemma combine_app_l {A B} (l1 l2 : list A) : forall (m : list B), (length l1 <= length m)%nat ->
  combine (l1 ++ l2) m = combine l1 m ++ combine l2 (skipn (length l1) m).
Proof.
  induction l1 as [|x l1 IH]; intros m H; [reflexivity|]. destruct m as [|y m]; [simpl in H; lia|].
  cbn [app combine length skipn]. f_equal. apply IH. simpl in H. lia.
Qed.

Lemma sparse_all rate x : sparse_good rate x.
Proof.
  induction x as [z|l IH] using nested_ind'.
  - intros [|r draws] H; [simpl in H; lia|]. eexists; split; [reflexivity|]. split; [constructor|reflexivity].
  - assert (Hl : forall draws, (length (concat (map scalars l)) <= length draws)%nat ->
      exists ys, sparse_list rate l draws = Ok (ys, skipn (length (concat (map scalars l))) draws) /\ Forall2 same_shape l ys /\
                 concat (map scalars ys) = map (choose rate) (combine (concat (map scalars l)) draws)).
    { induction IH as [|x l Hx _ IHl]; intros draws H.
      - exists []. repeat split; auto.
      - cbn [map concat] in *. rewrite app_length in *. destruct (Hx draws) as [y [E [Hs Hc]]]; [lia|].
        destruct (IHl (skipn (length (scalars x)) draws)) as [ys [E' [Hs' Hc']]]; [rewrite skipn_length; lia|].
        exists (y :: ys). cbn [sparse_list]. fold (sparse_list rate). rewrite E. cbn [bind fst snd]. rewrite E'. cbn [bind fst snd].
        repeat split.
        + f_equal. f_equal. clear. revert draws. generalize (length (scalars x)) as n. intros n.
          generalize (length (concat (map scalars l))) as k. intros k. induction n as [|n IH]; intros draws; [reflexivity|].
          destruct draws; [destruct k; reflexivity|]. cbn [skipn Nat.add]. apply IH.
        + constructor; auto.
        + cbn [map concat]. rewrite Hc, Hc', combine_app_l by lia. rewrite map_app. reflexivity. }
    intros draws H. destruct (Hl draws H) as [ys [E [Hs Hc]]]. exists (NList ys). rewrite sparse_NList, E. cbn [bind fst snd].
    repeat split; [constructor; exact Hs|exact Hc].
Qed.

Lemma sparse_short rate x : forall draws, (length draws < length (scalars x))%nat -> sparse rate x draws = Err EFuel.
Proof.
  induction x as [z|l IH] using nested_ind'.
  - intros [|r draws] H; [reflexivity|simpl in H; lia].
  - intros draws H. rewrite sparse_NList.
    enough (E : sparse_list rate l draws = Err EFuel) by (rewrite E; reflexivity).
    revert draws H. cbn [scalars]. induction IH as [|x l Hx _ IHl]; intros draws H; [simpl in H; lia|].
    cbn [sparse_list map concat] in *. fold (sparse_list rate). rewrite app_length in H.
    destruct (Nat.lt_ge_cases (length draws) (length (scalars x))) as [Hlt|Hge].
    + rewrite Hx by exact Hlt. reflexivity.
    + destruct (sparse_all rate x draws Hge) as [y [E _]]. rewrite E. cbn [bind fst snd]. rewrite IHl; [reflexivity|].
      rewrite skipn_length. lia.
Qed.

Lemma qgt_iff a b : qgt a b = true <-> (b < a)%Q.
Proof.
  unfold qgt. rewrite Qgt_alt. destruct (a ?= b)%Q; split; intros H; try discriminate; auto.
Qed.

(* same shape and same scalars *)
Lemma same_shape_eq x : forall y, same_shape x y -> scalars x = scalars y -> x = y.
Proof.
  induction x as [z|l IH] using nested_ind'; intros y H E; inversion H; subst; cbn [scalars] in E.
  - congruence.
  - f_equal. rename H1 into Hf. clear H. revert E. induction Hf as [|a b l l' Hab _ IHf]; intros E; [auto|].
    inversion IH; subst. cbn [map concat] in E.
    assert (Hlen : length (scalars a) = length (scalars b)).
    { clear -Hab. revert b Hab. induction a as [z|m IHm] using nested_ind'; intros b H; inversion H; subst; [reflexivity|].
      cbn [scalars]. clear H. induction H1; [auto|]. inversion IHm; subst. cbn [map concat]. rewrite !app_length. f_equal; auto. }
    assert (E1 : scalars a = scalars b /\ concat (map scalars l) = concat (map scalars l')).
    { apply (f_equal (firstn (length (scalars a)))) in E as E1. apply (f_equal (skipn (length (scalars a)))) in E as E2.
      rewrite !firstn_app, Nat.sub_diag, Hlen, Nat.sub_diag in E1. rewrite !skipn_app, Nat.sub_diag, Hlen, Nat.sub_diag in E2.
      rewrite <- Hlen in E1 at 1. rewrite <- Hlen in E2 at 1.
      rewrite !firstn_all, !firstn_O, !app_nil_r in E1. rewrite !skipn_all, !skipn_O in E2. auto. }
    f_equal; [apply H1; tauto|apply IHf; tauto].
Qed.

(* ---- merge_dicts ---- *)

Definition keys_of {V} (ds : list (dict V)) : list str := concat (map dict_keys ds).

Lemma dict_keys_concat {V} (ds : list (dict V)) : dict_keys (concat ds) = keys_of ds.
Proof.
  unfold keys_of, dict_keys. induction ds as [|d ds IH]; cbn [concat map]; [auto|]. rewrite map_app, IH. reflexivity.
Qed.

Lemma NoDup_app_iff {A} (l1 l2 : list A) : NoDup (l1 ++ l2) <-> NoDup l1 /\ NoDup l2 /\ (forall x, In x l1 -> In x l2 -> False).
Proof.
  induction l1 as [|x l1 IH]; cbn [app].
  - split; [intros H; repeat split; auto; constructor|tauto].
  - split.
    + inversion 1; subst. apply IH in H3 as [H1 [H4 H5]]. repeat split; auto.
      * constructor; auto. intros ?; apply H2, in_or_app; auto.
      * intros y [->|Hy] Hy2; [apply H2, in_or_app; auto|eauto].
    + intros [H1 [H2 H3]]. inversion H1; subst. constructor.
      * intros Hin. apply in_app_or in Hin as [Hin|Hin]; [auto|apply (H3 x); auto; left; auto].
      * apply IH. repeat split; auto. intros y Hy. apply H3. right; auto.
Qed.

Lemma merge_from {V} (ds : list (dict V)) : Forall dict_ok ds -> forall acc : dict V, dict_ok acc ->
  (dict_ok (acc ++ concat ds) ->
    foldM (fun result d => do _ <- raise_if (existsb (fun kv => dict_mem result (fst kv)) d) EValue; Ok (dict_update result d)) acc ds
    = Ok (acc ++ concat ds)) /\
  (~ dict_ok (acc ++ concat ds) ->
    foldM (fun result d => do _ <- raise_if (existsb (fun kv => dict_mem result (fst kv)) d) EValue; Ok (dict_update result d)) acc ds
    = Err EValue).
Proof.
  induction 1 as [|d ds Hd Hds IH]; intros acc Ha; cbn [foldM concat].
  - rewrite app_nil_r. split; [reflexivity|tauto].
  - destruct (existsb (fun kv => dict_mem acc (fst kv)) d) eqn:E; cbn [raise_if bind].
    + split; [|reflexivity]. intros Hok. exfalso. apply existsb_exists in E as [[k v] [Hin Hm]]. cbn [fst] in Hm.
      apply dict_mem_In in Hm. unfold dict_ok, dict_keys in Hok. rewrite !map_app in Hok.
      apply (in_map fst) in Hin. cbn [fst] in Hin. apply NoDup_app_iff in Hok as [_ [_ Hok]].
      apply (Hok k); [exact Hm|apply in_or_app; auto].
    + assert (Hfr : forall k, In k (dict_keys d) -> ~ In k (dict_keys acc)).
      { intros k Hk Hka. apply dict_mem_In in Hka. apply in_map_iff in Hk as [[k' v] [<- Hin]].
        assert (existsb (fun kv => dict_mem acc (fst kv)) d = true); [|congruence].
        apply existsb_exists. exists (k', v). auto. }
      rewrite (dict_update_fresh d acc Hd Hfr). rewrite app_assoc. apply IH.
      rewrite <- (dict_update_fresh d acc Hd Hfr). apply dict_update_ok. exact Ha.
Qed.

Lemma merge_dicts_ok {V} (ds : list (dict V)) : Forall dict_ok ds -> dict_ok (concat ds) -> merge_dicts ds = Ok (concat ds).
Proof. intros H Hk. destruct (merge_from ds H [] ltac:(constructor)) as [H1 _]. apply (H1 Hk). Qed.
Lemma merge_dicts_err {V} (ds : list (dict V)) : Forall dict_ok ds -> ~ dict_ok (concat ds) -> merge_dicts ds = Err EValue.
Proof. intros H Hk. destruct (merge_from ds H [] ltac:(constructor)) as [_ H1]. apply (H1 Hk). Qed.

Lemma dict_ok_dec {V} (d : dict V) : dict_ok d \/ ~ dict_ok d.
Proof.
  unfold dict_ok. induction (dict_keys d) as [|k l IH]; [left; constructor|].
  destruct (in_dec (list_eq_dec N.eq_dec) k l) as [Hin|Hin].
  - right. intros H. inversion H; subst; auto.
  - destruct IH as [H|H]; [left; constructor; auto|right; intros H'; inversion H'; subst; auto].
Qed.

Lemma merge_dicts_inv {V} (ds : list (dict V)) d : Forall dict_ok ds -> merge_dicts ds = Ok d -> d = concat ds /\ dict_ok (concat ds).
Proof.
  intros H E. destruct (dict_ok_dec (concat ds)) as [Hk|Hk].
  - rewrite (merge_dicts_ok _ H Hk) in E. split; [congruence|auto].
  - rewrite (merge_dicts_err _ H Hk) in E. discriminate.
Qed.

Lemma disjoint_iff {V} (ds : list (dict V)) : Forall dict_ok ds -> (dict_ok (concat ds) <-> disjoint_parts ds).
Proof.
  unfold dict_ok at 2. rewrite dict_keys_concat. unfold keys_of. induction 1 as [|d ds Hd Hds IH]; cbn [map concat].
  - split; [|constructor]. intros _ [|i] [|j] a b k Ha; discriminate Ha.
  - rewrite NoDup_app_iff, IH. split.
    + intros [_ [Hrest Hx]] [|i] [|j] a b k Ha Hb Hka Hkb; cbn [nth_error] in *; auto.
      * exfalso. injection Ha as <-. apply (Hx k Hka). apply in_concat. exists (dict_keys b). split; auto.
        apply in_map. eapply nth_error_In; eauto.
      * exfalso. injection Hb as <-. apply (Hx k Hkb). apply in_concat. exists (dict_keys a). split; auto.
        apply in_map. eapply nth_error_In; eauto.
      * f_equal. eapply Hrest; eauto.
    + intros H. repeat split; [exact Hd| |].
      * intros i j a b k Ha Hb Hka Hkb. assert (S i = S j); [|lia]. apply (H (S i) (S j) a b k); auto.
      * intros k Hk Hin. apply in_concat in Hin as [ks [Hks Hin]]. apply in_map_iff in Hks as [e [<- He]].
        apply In_nth_error in He as [j Hj]. assert (0%nat = S j); [|lia]. apply (H 0%nat (S j) d e k); auto.
Qed.

Lemma concat_union {V} (ds : list (dict V)) : Forall dict_ok ds -> dict_ok (concat ds) -> union_of ds (concat ds).
Proof.
  intros H Hk. split; [exact Hk|]. rewrite Forall_forall in H. intros k v. split.
  - intros Hg. apply dict_get_In in Hg. apply in_concat in Hg as [e [He Hin]]. exists e. split; auto. apply In_dict_get; auto.
  - intros [e [He Hg]]. apply In_dict_get; [exact Hk|]. apply in_concat. exists e. split; auto. apply dict_get_In; auto.
Qed.

(* ---- collecting the features of the elements ---- *)

Definition hits {V} (k : str) (fs : list (dict V)) : list V :=
  concat (map (fun f => match dict_get f k with Some v => [v] | None => [] end) fs).
Definition nonempty {V} (l : list V) : option (list V) := match l with [] => None | _ => Some l end.
Definition got {V} (o : option (list V)) : list V := match o with Some l => l | None => [] end.

Lemma str_eqb_neq a b : a <> b -> str_eqb a b = false.
Proof. intros H. destruct (str_eqb a b) eqn:E; [|auto]. apply str_eqb_eq in E. contradiction. Qed.

Lemma append_get {V} (f : dict V) : dict_ok f -> forall (r : dict (list V)) k,
  dict_get (fold_left append_value f r) k =
  match dict_get f k with Some v => Some (got (dict_get r k) ++ [v]) | None => dict_get r k end.
Proof.
  induction f as [|[k' v'] f IH]; intros Hok r k; cbn [fold_left dict_get]; [reflexivity|].
  unfold dict_ok in *. cbn [dict_keys map fst] in Hok. inversion Hok; subst. rewrite IH by assumption.
  destruct (str_eqb k k') eqn:E.
  - apply str_eqb_eq in E. subst k'. replace (dict_get f k) with (@None V) by (symmetry; apply dict_get_None; assumption).
    unfold append_value. cbn [fst snd]. rewrite dict_get_set_same. destruct (dict_get r k); reflexivity.
  - assert (k' <> k) by (intros ->; rewrite (proj2 (str_eqb_eq k k) eq_refl) in E; discriminate).
    unfold append_value. cbn [fst snd]. rewrite dict_get_set_other by assumption. reflexivity.
Qed.

Lemma append_ok {V} (f : dict V) : forall (r : dict (list V)), dict_ok r -> dict_ok (fold_left append_value f r).
Proof. induction f as [|kv f IH]; intros r H; cbn [fold_left]; [exact H|]. apply IH. apply dict_set_ok. exact H. Qed.

Lemma collect_from {V} (fs : list (dict V)) : Forall dict_ok fs -> forall r k, dict_get r k <> Some [] ->
  dict_get (fold_left (fun result f => fold_left append_value f result) fs r) k = nonempty (got (dict_get r k) ++ hits k fs).
Proof.
  induction 1 as [|f fs Hf _ IH]; intros r k Hr; cbn [fold_left].
  - unfold hits. cbn [map concat]. rewrite app_nil_r. destruct (dict_get r k) as [[|x l]|]; cbn; congruence.
  - rewrite IH; rewrite append_get by exact Hf; unfold hits; cbn [map concat]; destruct (dict_get f k) as [v|]; cbn [got app]; auto.
    + rewrite <- app_assoc. reflexivity.
    + destruct (got (dict_get r k)); discriminate.
Qed.

Lemma collect_get {V} (fs : list (dict V)) k : Forall dict_ok fs -> dict_get (collect fs) k = nonempty (hits k fs).
Proof. intros H. unfold collect. rewrite collect_from by (auto; discriminate). reflexivity. Qed.

Lemma collect_ok {V} (fs : list (dict V)) : dict_ok (collect fs).
Proof.
  unfold collect. enough (H : forall r : dict (list V), dict_ok r -> dict_ok (fold_left (fun result f => fold_left append_value f result) fs r))
    by (apply H; constructor).
  induction fs as [|f fs IH]; intros r H; cbn [fold_left]; [exact H|]. apply IH, append_ok, H.
Qed.

(* ---- transposition ---- *)

Lemma cons_all_nth {V} (xs : list V) : forall cols i, nth_error (cons_all xs cols) i =
  match nth_error xs i, nth_error cols i with Some x, Some c => Some (x :: c) | _, _ => None end.
Proof.
  induction xs as [|x xs IH]; intros [|c cols] [|i]; cbn [cons_all nth_error]; auto.
  - destruct (nth_error xs i); auto.
Qed.

(* the i-th column exists iff every row is long enough, and consists of the i-th entries *)
Lemma columns_nth {V} (rows : list (list V)) i : rows <> [] ->
  (forall c, nth_error (columns rows) i = Some c <-> Forall2 (fun r x => nth_error r i = Some x) rows c).
Proof.
  induction rows as [|r rows IH]; intros Hne c; [congruence|]. destruct rows as [|r' rows].
  - cbn [columns]. rewrite nth_error_map. split.
    + destruct (nth_error r i) as [x|] eqn:E; cbn [option_map]; intros H; [|discriminate]. injection H as <-. repeat constructor. exact E.
    + inversion 1; subst. inversion H4; subst. rewrite H2. reflexivity.
  - change (columns (r :: r' :: rows)) with (cons_all r (columns (r' :: rows))). rewrite cons_all_nth.
    assert (IH' := IH ltac:(congruence)). split.
    + destruct (nth_error r i) as [x|] eqn:E; [|discriminate].
      destruct (nth_error (columns (r' :: rows)) i) as [c'|] eqn:E'; [|discriminate]. intros H; injection H as <-.
      constructor; [exact E|]. apply IH'. reflexivity.
    + inversion 1; subst. rewrite H2. apply IH' in H4. rewrite H4. reflexivity.
Qed.

Lemma combine_keys {V W} (d : dict W) : forall (c : list V), length c = length d -> map fst (combine (dict_keys d) c) = dict_keys d.
Proof.
  unfold dict_keys. induction d as [|kv d IH]; intros [|x c] H; cbn [map combine] in *; try discriminate; auto.
  cbn [fst]. f_equal. apply IH. simpl in H. lia.
Qed.

Lemma per_element_nth {V} (value : dict (list V)) i d : value <> [] -> dict_ok value ->
  (nth_error (per_element value) i = Some d <-> row_of i value d /\ length d = length value).
Proof.
  intros Hne Hok. unfold per_element. rewrite nth_error_map.
  assert (Hm : map snd value <> []) by (destruct value; [congruence|discriminate]).
  pose proof (columns_nth (map snd value) i Hm) as Hc. split.
  - destruct (nth_error (columns (map snd value)) i) as [c|] eqn:E; cbn [option_map]; intros H; [|discriminate]. injection H as <-.
    clear E. pose proof (proj1 (Hc c) eq_refl) as E. pose proof (Forall2_length' _ _ _ E) as Hl. rewrite map_length in Hl.
    split; [|rewrite combine_length; unfold dict_keys; rewrite map_length; lia].
    split; [apply combine_keys; lia|]. intros k l Hin. clear -E Hin. unfold dict_keys.
    revert c E. induction value as [|[k' l'] value IH]; intros c E; [destruct Hin|]. cbn [map snd] in E. inversion E; subst.
    destruct Hin as [Hin|Hin].
    + injection Hin as -> ->. exists y. split; [assumption|]. left. reflexivity.
    + destruct (IH Hin _ H3) as [v [? ?]]. exists v. split; auto. right. auto.
  - intros [[Hk Hr] Hl].
    assert (E : Forall2 (fun r x => nth_error r i = Some x) (map snd value) (map snd d)).
    { apply Forall2_map_l, Forall2_map_r. clear Hc Hm Hne. revert value Hok Hk Hr Hl. induction d as [|[k v] d IH]; intros value Hok Hk Hr Hl.
      - destruct value; [constructor|discriminate].
      - destruct value as [|[k' l'] value]; [discriminate|]. unfold dict_ok, dict_keys in *. cbn [map fst] in *. injection Hk as <- Hk.
        inversion Hok; subst. constructor.
        + cbn [snd]. destruct (Hr k l' (or_introl eq_refl)) as [w [Hw [Hin|Hin]]]; [congruence|].
          exfalso. apply H1. rewrite <- Hk. apply (in_map fst) in Hin. exact Hin.
        + apply IH; auto. intros k2 l2 Hin. destruct (Hr k2 l2 (or_intror Hin)) as [w [Hw [E|Hw2]]].
          * injection E as -> ->. exfalso. apply H1. apply (in_map fst) in Hin. exact Hin.
          * exists w; auto. }
    apply Hc in E. rewrite E. cbn [option_map]. f_equal. rewrite <- Hk. clear. unfold dict_keys. induction d as [|[k v] d IH]; cbn [map combine fst snd]; congruence.
Qed.

Lemma per_element_nil {V} : per_element (@nil (str * list V)) = [].
Proof. reflexivity. Qed.

Lemma row_unique {V} i (value : dict (list V)) d e : dict_ok value -> row_of i value d -> row_of i value e -> d = e.
Proof.
  intros Hok [Hk1 H1] [Hk2 H2].
  assert (Hd : dict_ok d) by (unfold dict_ok; rewrite Hk1; exact Hok).
  assert (He : dict_ok e) by (unfold dict_ok; rewrite Hk2; exact Hok).
  assert (Hg : forall k, dict_get d k = dict_get e k).
  { intros k. destruct (dict_get value k) as [l|] eqn:E.
    - apply dict_get_In in E. destruct (H1 k l E) as [v [Hv Hin]]. destruct (H2 k l E) as [w [Hw Hin2]].
      rewrite (In_dict_get _ _ _ Hd Hin), (In_dict_get _ _ _ He Hin2). congruence.
    - apply dict_get_None in E. rewrite (proj2 (dict_get_None d k)), (proj2 (dict_get_None e k)); [auto|rewrite Hk2; auto|rewrite Hk1; auto]. }
  clear H1 H2 Hok. assert (Hk : dict_keys d = dict_keys e) by congruence. clear Hk1 Hk2 value.
  revert e He Hg Hk. induction d as [|[k v] d IH]; intros [|[k2 w] e] He Hg Hk; try discriminate; auto.
  unfold dict_ok, dict_keys in *. cbn [map fst] in *. injection Hk as <- Hk. inversion Hd; inversion He; subst.
  pose proof (Hg k) as Hgk. cbn [dict_get] in Hgk. rewrite (proj2 (str_eqb_eq k k) eq_refl) in Hgk. injection Hgk as ->.
  f_equal. apply IH; auto. intros k3. specialize (Hg k3). cbn [dict_get] in Hg. destruct (str_eqb k3 k) eqn:E; [|exact Hg].
  apply str_eqb_eq in E. subst k3.
  rewrite (proj2 (dict_get_None d k)), (proj2 (dict_get_None e k)); auto.
Qed.

Lemma per_element_length {V} (value : dict (list V)) n : value <> [] -> dict_ok value ->
  (forall k l, In (k, l) value -> length l = n) -> length (per_element value) = n.
Proof.
  intros Hne Hok Hl. unfold per_element. rewrite map_length. clear Hok.
  destruct value as [|[k l] value]; [congruence|]. clear Hne. revert k l Hl. induction value as [|[k2 l2] value IH]; intros k l Hl.
  - cbn [map snd columns]. rewrite map_length. apply (Hl k). left; auto.
  - change (columns (map snd ((k, l) :: (k2, l2) :: value))) with (cons_all l (columns (map snd ((k2, l2) :: value)))).
    assert (E : length (columns (map snd ((k2, l2) :: value))) = n) by (apply (IH k2 l2); intros; eapply Hl; right; eauto).
    assert (E2 : length l = n) by (apply (Hl k); left; auto). clear -E E2. revert E E2.
    generalize (columns (map snd ((k2, l2) :: value))) as cols. revert n. induction l as [|x l IH]; intros n [|c cols] E E2; cbn in *; try lia.
    destruct n; [lia|]. rewrite (IH n); lia.
Qed.

Lemma interpret_each_iff {O V} (f : O -> dict V -> result O) objs (value : dict (list V)) objs' :
  dict_ok value -> value <> [] -> (forall k l, In (k, l) value -> length l = length objs) ->
  (interpret_each f objs value = Ok objs' <->
   length objs' = length objs /\
   forall i o, nth_error objs i = Some o ->
     exists d o', row_of i value d /\ f o d = Ok o' /\ nth_error objs' i = Some o').
Proof.
  intros Hok Hne Hl. unfold interpret_each. rewrite mapM_ok.
  pose proof (per_element_length value _ Hne Hok Hl) as Hlen. split.
  - intros H. pose proof (Forall2_length' _ _ _ H) as E. rewrite combine_length, Hlen, Nat.min_id in E. split; [auto|].
    intros i o Hi. assert (Hd : exists d, nth_error (per_element value) i = Some d).
    { destruct (nth_error (per_element value) i) eqn:E'; [eauto|]. apply nth_error_None in E'. apply nth_error_Some_lt' in Hi. lia. }
    destruct Hd as [d Hd].
    assert (Hc : nth_error (combine objs (per_element value)) i = Some (o, d)).
    { clear -Hi Hd. revert i Hi Hd. generalize (per_element value) as ds. induction objs as [|x objs IH]; intros [|e ds] [|i] Hi Hd; cbn in *; try discriminate; [congruence|auto]. }
    destruct (Forall2_nth _ _ _ _ _ H Hc) as [o' [Ho' Hf]]. cbn [fst snd] in Hf. exists d, o'.
    apply per_element_nth in Hd; auto. tauto.
  - intros [E H]. apply Forall2_of_nth; [rewrite combine_length, Hlen, Nat.min_id; auto|].
    intros i [o d] o' Hc Ho'.
    assert (Hcc : nth_error objs i = Some o /\ nth_error (per_element value) i = Some d).
    { clear -Hc. revert i Hc. generalize (per_element value) as ds. induction objs as [|x objs IH]; intros [|e ds] [|i] Hc; cbn in *; try discriminate; [|auto].
      injection Hc as -> ->. auto. }
    destruct Hcc as [Ho Hd]. destruct (H i o Ho) as [d' [o'' [Hr [Hf Hn]]]].
    apply per_element_nth in Hd; auto. rewrite (row_unique i value d d' Hok (proj1 Hd) Hr). cbn [fst snd]. congruence.
Qed.

(* regrouping the collected features *)
Lemma hits_nth {V} k (fs : list (dict V)) : (forall f, In f fs -> dict_get f k <> None) -> forall i f,
  nth_error fs i = Some f -> nth_error (hits k fs) i = dict_get f k.
Proof.
  unfold hits. induction fs as [|g fs IH]; intros H [|i] f Hi; cbn [nth_error map concat] in *; try discriminate.
  - injection Hi as ->. destruct (dict_get f k) eqn:E; [reflexivity|]. exfalso. apply (H f); auto. left; auto.
  - destruct (dict_get g k) eqn:E; [|exfalso; apply (H g); auto; left; auto]. cbn [app nth_error]. apply IH; auto.
    intros; apply H; right; auto.
Qed.
Lemma hits_length {V} k (fs : list (dict V)) : (forall f, In f fs -> dict_get f k <> None) -> length (hits k fs) = length fs.
Proof.
  unfold hits. induction fs as [|g fs IH]; intros H; cbn [map concat length]; [auto|].
  destruct (dict_get g k) eqn:E; [|exfalso; apply (H g); auto; left; auto]. cbn [app length]. rewrite IH; auto.
  intros; apply H; right; auto.
Qed.

Lemma regroup_collected {V} (fs : list (dict V)) (ks : list str) : Forall dict_ok fs -> ks <> [] ->
  (forall f k, In f fs -> (In k (dict_keys f) <-> In k ks)) -> Forall2 dict_equiv (per_element (collect fs)) fs.
Proof.
  intros Hok Hks Hkeys. destruct fs as [|f0 fs']; [constructor|]. set (fs := f0 :: fs') in *.
  assert (Hall : forall k, In k ks -> forall f, In f fs -> dict_get f k <> None).
  { intros k Hk f Hf E. apply dict_get_None in E. apply E, Hkeys; auto. }
  assert (Hget : forall k l, dict_get (collect fs) k = Some l -> l = hits k fs /\ In k ks).
  { intros k l. rewrite collect_get by exact Hok. intros E. split; [destruct (hits k fs); [discriminate|]; cbn in E; congruence|].
    destruct (in_dec (list_eq_dec N.eq_dec) k ks) as [Hin|Hin]; [exact Hin|]. exfalso.
    assert (Eh : hits k fs = []); [|rewrite Eh in E; discriminate]. unfold hits. apply concat_nil_Forall, Forall_forall.
    intros x Hx. apply in_map_iff in Hx as [f [<- Hf]]. rewrite (proj2 (dict_get_None f k)); [auto|]. rewrite Hkeys; auto. }
  assert (Hget2 : forall k, In k ks -> dict_get (collect fs) k = Some (hits k fs)).
  { intros k Hk. rewrite collect_get by exact Hok. pose proof (hits_length k fs (Hall k Hk)) as E. destruct (hits k fs); [discriminate|reflexivity]. }
  assert (Hne : collect fs <> []).
  { destruct ks as [|k ks]; [congruence|]. intros E. specialize (Hget2 k (or_introl eq_refl)). rewrite E in Hget2. discriminate. }
  assert (Hlen : forall k l, In (k, l) (collect fs) -> length l = length fs).
  { intros k l Hin. apply In_dict_get in Hin; [|apply collect_ok]. apply Hget in Hin as [-> Hk]. apply hits_length; auto. }
  apply Forall2_of_nth; [apply per_element_length; auto; apply collect_ok|].
  intros i d f Hd Hf. apply per_element_nth in Hd as [[Hk Hr] _]; [|auto|apply collect_ok].
  assert (Hdok : dict_ok d) by (unfold dict_ok; rewrite Hk; apply collect_ok).
  pose proof (nth_error_In _ _ Hf) as Hin. intros k.
  destruct (in_dec (list_eq_dec N.eq_dec) k ks) as [Hks'|Hks'].
  - pose proof (Hget2 k Hks') as E. apply dict_get_In in E. destruct (Hr _ _ E) as [v [Hv Hvd]].
    rewrite (In_dict_get _ _ _ Hdok Hvd). rewrite (hits_nth k fs (Hall k Hks') i f Hf) in Hv. auto.
  - rewrite (proj2 (dict_get_None d k)), (proj2 (dict_get_None f k)); [auto|rewrite Hkeys; auto|].
    rewrite Hk. intros Hc. apply dict_mem_In, dict_mem_get in Hc. destruct (dict_get (collect fs) k) eqn:E; [|congruence].
    apply Hget in E. tauto.
Qed.

(* ---- forms used by the properties ---- *)

Lemma sparse_each rate x draws : (length (scalars x) <= length draws)%nat ->
  exists y rest, sparse rate x draws = Ok (y, rest) /\ same_shape x y /\ length (scalars y) = length (scalars x) /\
    forall i z r, nth_error (scalars x) i = Some z -> nth_error draws i = Some r ->
      ((rate < r)%Q -> nth_error (scalars y) i = Some z) /\ (~ (rate < r)%Q -> nth_error (scalars y) i = Some 1%Z).
Proof.
  intros H. destruct (sparse_all rate x draws H) as [y [E [Hs Hc]]]. eexists; eexists; split; [exact E|]. split; [exact Hs|].
  split; [rewrite Hc, map_length, combine_length; lia|]. intros i z r Hz Hr. rewrite Hc, nth_error_map.
  assert (Hn : nth_error (combine (scalars x) draws) i = Some (z, r)).
  { clear -Hz Hr. revert i draws Hz Hr. induction (scalars x) as [|a l IH]; intros [|i] [|b draws] Hz Hr; cbn in *; try discriminate; [congruence|auto]. }
  rewrite Hn. cbn [option_map]. unfold choose. cbn [fst snd]. destruct (qgt r rate) eqn:G.
  - apply qgt_iff in G. split; [reflexivity|tauto].
  - split; [|reflexivity]. intros L. apply qgt_iff in L. congruence.
Qed.

Lemma sparse_inv rate x draws y rest : sparse rate x draws = Ok (y, rest) ->
  (length (scalars x) <= length draws)%nat /\ same_shape x y /\ scalars y = map (choose rate) (combine (scalars x) draws).
Proof.
  intros E. destruct (Nat.lt_ge_cases (length draws) (length (scalars x))) as [Hlt|Hge].
  - rewrite sparse_short in E by exact Hlt. discriminate.
  - destruct (sparse_all rate x draws Hge) as [y' [E' [Hs Hc]]]. rewrite E in E'. injection E' as -> _. auto.
Qed.

Lemma sparse_one x draws y rest : Forall (fun r => (r < 1)%Q) draws -> sparse 1 x draws = Ok (y, rest) ->
  same_shape x y /\ Forall (fun z => z = 1%Z) (scalars y).
Proof.
  intros Hd E. apply sparse_inv in E as [_ [Hs ->]]. split; [exact Hs|]. apply Forall_map, Forall_forall. intros [z r] Hin.
  apply in_combine_r in Hin. rewrite Forall_forall in Hd. specialize (Hd r Hin). unfold choose. cbn [fst snd].
  destruct (qgt r 1) eqn:G; [|reflexivity]. apply qgt_iff in G. exfalso. exact (Qlt_irrefl _ (Qlt_trans _ _ _ Hd G)).
Qed.

Lemma sparse_zero x draws y rest : Forall (fun r => (0 < r)%Q) draws -> sparse 0 x draws = Ok (y, rest) -> y = x.
Proof.
  intros Hd E. apply sparse_inv in E as [Hl [Hs Hc]]. symmetry. apply same_shape_eq; [exact Hs|]. rewrite Hc. clear -Hd Hl.
  revert draws Hd Hl. induction (scalars x) as [|z l IH]; intros [|r draws] Hd Hl; cbn [length combine map] in *; auto; try lia.
  inversion Hd; subst. unfold choose at 1. cbn [fst snd]. rewrite (proj2 (qgt_iff r 0)) by assumption. f_equal. apply IH; auto. lia.
Qed.

Lemma interpret_none O V (f : O -> dict V -> result O) objs : interpret_each f objs [] = Ok [].
Proof. unfold interpret_each. rewrite per_element_nil. destruct objs; reflexivity. Qed.

Lemma regroup_identity {V} (fs : list (dict V)) ks : Forall dict_ok fs -> ks <> [] ->
  (forall f k, In f fs -> (In k (dict_keys f) <-> In k ks)) ->
  length (per_element (collect fs)) = length fs /\
  forall i f d, nth_error fs i = Some f -> nth_error (per_element (collect fs)) i = Some d -> forall k, dict_get d k = dict_get f k.
Proof.
  intros H1 H2 H3. pose proof (regroup_collected fs ks H1 H2 H3) as H. split; [eapply Forall2_length'; eauto|].
  intros i f d Hf Hd. destruct (Forall2_nth _ _ _ _ _ H Hd) as [f' [Hf' E]]. assert (f' = f) as -> by congruence. exact E.
Qed.
