(* The epoch loop and the parameter search *)
From Coq Require Import String Ascii ZArith NArith QArith Bool Lia Lqa Permutation List.
From Verif Require Import Base BaseFacts Proofs_Datamodel Model_UDEval Model_Harness Spec_Harness Proofs_Harness.
Import ListNotations.
Open Scope Z_scope.

(* ---- the epoch loop ---- *)

Fixpoint eitems {T} (path_of : Z -> str) (k : Z) (ys : list (table * T)) : list (item (X := T)) :=
  match ys with
  | [] => []
  | (t, x) :: ys' => (path_of k, x, Some t) :: eitems path_of (k + 1) ys'
  end.

Lemma eitems_nth {T} path_of (ys : list (table * T)) : forall k i,
  nth_error (eitems path_of k ys) i =
  option_map (fun tx => (path_of (k + Z.of_nat i), snd tx, Some (fst tx))) (nth_error ys i).
Proof.
  induction ys as [|[t x] ys IH]; intros k [|i]; cbn [eitems nth_error option_map]; auto.
  - rewrite Z.add_0_r. reflexivity.
  - rewrite IH. replace (k + Z.of_nat (S i)) with (k + 1 + Z.of_nat i) by lia. reflexivity.
Qed.

Lemma eitems_length {T} path_of (ys : list (table * T)) k : length (eitems path_of k ys) = length ys.
Proof. revert k. induction ys as [|[t x] ys IH]; intros k; cbn; auto. Qed.

Lemma eitems_paths {T} path_of (ys : list (table * T)) k :
  map i_path (eitems path_of k ys) = map (fun i => path_of (k + Z.of_nat i)) (seq 0 (length ys)).
Proof.
  revert k. induction ys as [|[t x] ys IH]; intros k; cbn [eitems map length seq]; auto.
  f_equal; [cbn [Z.of_nat]; rewrite Z.add_0_r; reflexivity|]. rewrite IH, <- seq_shift, map_map. apply map_ext. intros i. f_equal. lia.
Qed.

Lemma epochs_loop_inv {T} metrics fields a path_of (ys : list (table * T)) : forall k s s' e items inner i,
  epochs_loop metrics fields a path_of k ys s = (s', e) -> inv items inner s i -> best_at fields a items i ->
  exists m i', (m <= length ys)%nat /\ (e = None <-> m = length ys) /\
    inv (items ++ eitems path_of k (firstn m ys)) inner s' i' /\
    best_at fields a (items ++ eitems path_of k (firstn m ys)) i'.
Proof.
  induction ys as [|[t x] ys IH]; cbn [epochs_loop]; intros k s s' e items inner i H I B.
  - injection H as <- <-. exists 0%nat, i. cbn. rewrite app_nil_r. split; [lia|]. split; [tauto|]. auto.
  - destruct (do _ <- print_metrics metrics (Some t); consider fields a (path_of k) x (Some t) s) as [s1|e1] eqn:C.
    + apply bind_ok_iff in C. destruct C as (u & _ & C). destruct (consider_inv _ _ _ _ _ _ _ _ _ _ I B C) as (i1 & I1 & B1).
      destruct (IH _ _ _ _ _ _ _ H I1 B1) as (m & i' & L & N & I' & B'). exists (S m), i'. cbn [length firstn eitems].
      split; [lia|]. split; [rewrite N; lia|]. rewrite <- app_assoc in I', B'. auto.
    + injection H as <- <-. exists 0%nat, i. cbn. rewrite app_nil_r. split; [lia|]. split; [split; [discriminate|lia]|]. auto.
Qed.

Lemma epochs_loop_ok {T} metrics fields a path_of (ys : list (table * T)) : forall k s items inner i qs qs',
  inv items inner s i -> best_at fields a items i -> worths fields a items qs ->
  Forall2 (fun y q => printable metrics (fst y) /\ worth fields a (fst y) q) ys qs' ->
  exists s', epochs_loop metrics fields a path_of k ys s = (s', None).
Proof.
  induction ys as [|[t x] ys IH]; cbn [epochs_loop]; intros k s items inner i qs qs' I B W F.
  - eauto.
  - inversion F as [|? q ? qs1 [P WT] F']; subst. cbn [fst] in *.
    destruct (consider_worth fields a items inner s i (path_of k) x t q qs I W WT) as (s1 & C).
    apply printable_ok in P. rewrite P. cbn [bind]. rewrite C.
    destruct (consider_inv _ _ _ _ _ _ _ _ _ _ I B C) as (i1 & I1 & B1).
    apply (IH (k + 1) s1 _ _ i1 (qs ++ [q]) qs1 I1 B1); auto. unfold worths. apply Forall2_app; [exact W|]. constructor; [|constructor].
    exists t. auto.
Qed.

Lemma worths_eitems {T} fields a path_of (ys : list (table * T)) qs : forall k,
  Forall2 (fun y q => worth fields a (fst y) q) ys qs -> worths fields a (eitems path_of k ys) qs.
Proof.
  intros k F. revert k. induction F as [|[t x] q ys qs W F IH]; intros k; cbn [eitems].
  - constructor.
  - constructor; [|apply IH]. exists t. auto.
Qed.

(* ---- the parameter search ---- *)

Definition cand (P M : Type) : Type := (P * (list str * result (M * option table)))%type.

Fixpoint citems {P M} (k : Z) (cs : list (cand P M)) : list (item (X := P * M)) :=
  match cs with
  | (p, (_, Ok (m, sc))) :: cs' => (params_name k, (p, m), sc) :: citems (k + 1) cs'
  | _ => []
  end.

Lemma citems_nth {P M} (cs : list (cand P M)) : forall k i it, nth_error (citems k cs) i = Some it ->
  exists p d m sc, nth_error cs i = Some (p, (d, Ok (m, sc))) /\ it = (params_name (k + Z.of_nat i), (p, m), sc).
Proof.
  induction cs as [|[p [d [[m sc]|e]]] cs IH]; intros k [|i] it; cbn [citems nth_error]; try discriminate.
  - intros H. injection H as <-. exists p, d, m, sc. rewrite Z.add_0_r. auto.
  - intros H. destruct (IH _ _ _ H) as (p' & d' & m' & sc' & E & ->). exists p', d', m', sc'. split; auto.
    replace (k + Z.of_nat (S i)) with (k + 1 + Z.of_nat i) by lia. reflexivity.
Qed.

Lemma citems_paths {P M} (cs : list (cand P M)) k :
  map i_path (citems k cs) = map (fun i => params_name (k + Z.of_nat i)) (seq 0 (length (citems k cs))).
Proof.
  revert k. induction cs as [|[p [d [[m sc]|e]]] cs IH]; intros k; cbn [citems map length seq]; auto.
  f_equal; [cbn [Z.of_nat]; rewrite Z.add_0_r; reflexivity|]. rewrite IH, <- seq_shift, map_map. apply map_ext. intros i. f_equal. lia.
Qed.

Definition inner_of {P M} (cs : list (cand P M)) : list str := concat (map (fun c => fst (snd c)) cs).

Lemma search_loop_inv {P M} fields a (cs : list (cand P M)) : forall k s s' e items inner i,
  search_loop fields a k cs s = (s', e) -> inv items inner s i -> best_at fields a items i ->
  exists m i' d, (m <= length cs)%nat /\ (e = None <-> m = length cs) /\
    length (citems k (firstn m cs)) = m /\ (e = None -> d = []) /\ incl d (inner_of cs) /\
    inv (items ++ citems k (firstn m cs)) (inner ++ inner_of (firstn m cs) ++ d) s' i' /\
    best_at fields a (items ++ citems k (firstn m cs)) i' /\
    (forall x, e = Some x -> exists p dd o, nth_error cs m = Some (p, (dd, o)) /\
       (o = Err x \/ exists mo sc, o = Ok (mo, sc) /\ consider fields a (params_name (k + Z.of_nat m)) (p, mo) sc s' = Err x)).
Proof.
  induction cs as [|[p [d o]] cs IH]; cbn [search_loop]; intros k s s' e items inner i H I B.
  - injection H as <- <-. exists 0%nat, i, []. cbn. rewrite !app_nil_r. split; [lia|]. split; [tauto|].
    split; auto. split; auto. split; [intros ? []|]. split; auto. split; auto. discriminate.
  - pose proof (inv_inner _ _ d _ _ I) as I0.
    destruct (do ms <- o; consider fields a (params_name k) (p, fst ms) (snd ms) (mkSel (sel_best s) (sel_disposed s ++ d)))
      as [s1|e1] eqn:C.
    + apply bind_ok_iff in C. destruct C as ((mo & sc) & -> & C). cbn [fst snd] in C.
      destruct (consider_inv _ _ _ _ _ _ _ _ _ _ I0 B C) as (i1 & I1 & B1).
      destruct (IH _ _ _ _ _ _ _ H I1 B1) as (m & i' & d' & L & N & LC & ND & IN & I' & B' & X).
      exists (S m), i', d'. cbn [length firstn citems]. split; [lia|]. split; [rewrite N; lia|]. split; [lia|]. split; auto.
      split; [intros y Hy; apply in_or_app; right; apply IN; auto|].
      rewrite <- !app_assoc in I'. rewrite <- app_assoc in B'. cbn [app] in I', B'.
      split; [|split; auto].
      * unfold inner_of in *. cbn [map concat fst snd]. rewrite <- app_assoc. exact I'.
      * intros x Hx. destruct (X x Hx) as (p' & dd & o' & E & Q). exists p', dd, o'. split; auto.
        replace (k + Z.of_nat (S m)) with (k + 1 + Z.of_nat m) by lia. auto.
    + injection H as <- <-. exists 0%nat, i, d. cbn [firstn citems length]. rewrite !app_nil_r. split; [lia|].
      split; [split; [discriminate|cbn; lia]|]. split; auto. split; [discriminate|].
      split; [intros y Hy; apply in_or_app; left; auto|]. split; [exact I0|]. split; auto.
      intros x Hx. injection Hx as <-. exists p, d, o. split; auto. rewrite Z.add_0_r. destruct o as [[mo sc]|e2].
      * right. exists mo, sc. auto.
      * left. cbn in C. injection C as <-. reflexivity.
Qed.

Lemma search_loop_ok {P M} fields a (cs : list (cand P M)) : forall k s items inner i qs qs',
  inv items inner s i -> best_at fields a items i -> worths fields a items qs ->
  Forall2 (fun c q => exists m t, snd (snd c) = Ok (m, Some t) /\ worth fields a t q) cs qs' ->
  exists s', search_loop fields a k cs s = (s', None).
Proof.
  induction cs as [|[p [d o]] cs IH]; cbn [search_loop]; intros k s items inner i qs qs' I B W F.
  - eauto.
  - inversion F as [|? q ? qs1 (m & t & E & WT) F']; subst. cbn [fst snd] in *. subst o. cbn [bind fst snd].
    pose proof (inv_inner _ _ d _ _ I) as I0.
    destruct (consider_worth fields a items _ _ i (params_name k) (p, m) t q qs I0 W WT) as (s1 & C). rewrite C.
    destruct (consider_inv _ _ _ _ _ _ _ _ _ _ I0 B C) as (i1 & I1 & B1).
    apply (IH (k + 1) s1 _ _ i1 (qs ++ [q]) qs1 I1 B1); auto. unfold worths. apply Forall2_app; [exact W|]. constructor; [|constructor].
    exists t. auto.
Qed.

Lemma worths_citems {P M} fields a (cs : list (cand P M)) qs : forall k,
  Forall2 (fun c q => exists m t, snd (snd c) = Ok (m, Some t) /\ worth fields a t q) cs qs ->
  worths fields a (citems k cs) qs /\ length (citems k cs) = length cs.
Proof.
  intros k F. revert k. induction F as [|[p [d o]] q cs qs (m & t & E & W) F IH]; intros k.
  - split; [constructor|reflexivity].
  - cbn [snd] in E. subst o. cbn [citems length]. destruct (IH (k + 1)) as [W' L]. split; [|cbn; rewrite L; auto].
    constructor; [|exact W']. exists t. auto.
Qed.

(* ---- names ---- *)

Lemma print_Z_inj x y : print_Z x = print_Z y -> x = y.
Proof.
  intros H. assert (E : parse_int (print_Z x) = parse_int (print_Z y)) by (rewrite H; auto).
  rewrite !parse_print_Z in E. congruence.
Qed.

Lemma params_name_inj x y : params_name x = params_name y -> x = y.
Proof. unfold params_name. intros H. apply app_inv_head in H. apply print_Z_inj; auto. Qed.

Lemma params_dir_name i : params_dir i = params_name (Z.of_nat i).
Proof. reflexivity. Qed.

Lemma params_dir_inj i j : params_dir i = params_dir j -> i = j.
Proof. rewrite !params_dir_name. intros H. apply params_name_inj in H. lia. Qed.

Lemma times_perm p l l' : Permutation l l' -> times p l = times p l'.
Proof. intros H. unfold times. apply (proj1 (Permutation_count_occ (list_eq_dec N.eq_dec) l l') H). Qed.

Lemma times_app p l l' : times p (l ++ l') = (times p l + times p l')%nat.
Proof. unfold times. apply count_occ_app. Qed.

Lemma times_cons p q l : times p (q :: l) = ((if list_eq_dec N.eq_dec q p then 1 else 0) + times p l)%nat.
Proof. unfold times. cbn. destruct (list_eq_dec N.eq_dec q p); reflexivity. Qed.

Lemma times_none p l : ~ In p l -> times p l = 0%nat.
Proof. apply count_occ_not_In. Qed.

Lemma times_params m j : times (params_dir j) (map (fun i => params_dir i) (seq 0 m)) = if (j <? m)%nat then 1%nat else 0%nat.
Proof.
  destruct (Nat.ltb_spec j m).
  - unfold times. apply (proj1 (NoDup_count_occ' (list_eq_dec N.eq_dec) _)).
    + apply FinFun.Injective_map_NoDup; [intros x y; apply params_dir_inj|apply seq_NoDup].
    + apply in_map, in_seq. lia.
  - apply times_none. intros H'. apply in_map_iff in H'. destruct H' as (x & E & H'). apply params_dir_inj in E. subst x.
    apply in_seq in H'. lia.
Qed.

Lemma nth_error_firstn_lt {A} (l : list A) m i : (i < m)%nat -> nth_error (firstn m l) i = nth_error l i.
Proof. revert m i. induction l as [|x l IH]; intros [|m] [|i] L; cbn; auto; try lia. apply IH. lia. Qed.

(* ---- the search as a whole ---- *)

Lemma search_every {P M} fields a (cs : list (cand P M)) s e : params_search fields a cs = (s, e) ->
  Forall (fun c => forall j, ~ In (params_dir j) (fst (snd c))) cs ->
  exists m, (m <= length cs)%nat /\ (e = None <-> m = length cs) /\
    (m = 0%nat -> sel_best s = None /\ forall j, times (params_dir j) (sel_disposed s) = 0%nat) /\
    ((0 < m)%nat -> exists i p d mo sc, (i < m)%nat /\ nth_error cs i = Some (p, (d, Ok (mo, sc))) /\
       sel_best s = Some (p, mo, sc, params_dir i) /\
       forall j, times (params_dir j) (sel_disposed s) = if (j <? m)%nat && negb (j =? i)%nat then 1%nat else 0%nat).
Proof.
  intros H F. unfold params_search in H.
  destruct (search_loop_inv fields a cs 0 _ s e [] [] 0%nat H (inv_start _) ltac:(intros qs _; left; reflexivity))
    as (m & i & d & L & N & LC & _ & IN & I & _ & _). cbn [app] in I.
  assert (NI : forall j, ~ In (params_dir j) (inner_of (firstn m cs) ++ d)).
  { intros j HI. assert (HI' : In (params_dir j) (inner_of cs)).
    { apply in_app_iff in HI. destruct HI as [HI|HI]; [|auto]. unfold inner_of in *. rewrite <- (firstn_skipn m cs), map_app, concat_app.
      apply in_app_iff. auto. }
    unfold inner_of in HI'. apply in_concat in HI'. destruct HI' as (l & Hl & HI'). apply in_map_iff in Hl. destruct Hl as (c & <- & Hc).
    rewrite Forall_forall in F. exact (F c Hc j HI'). }
  exists m. split; auto. split; auto. unfold inv in I. split.
  - intros ->. cbn [firstn citems] in *. destruct (sel_best s) as [[[x sc] p]|].
    + destruct I as [E _]. destruct i; discriminate.
    + split; auto. intros j. rewrite <- (times_perm _ _ _ (proj2 I)). apply times_none. auto.
  - intros Hm. destruct (sel_best s) as [[[x sc] p]|].
    2:{ destruct I as [E _]. rewrite E in LC. cbn in LC. lia. }
    destruct I as [NE PM]. destruct (citems_nth _ _ _ _ NE) as (p0 & d0 & m0 & sc0 & E0 & E1). injection E1 as -> -> ->.
    assert (Li : (i < m)%nat).
    { rewrite <- LC. apply nth_error_Some. rewrite NE. discriminate. }
    exists i, p0, d0, m0, sc0. split; auto. split.
    { rewrite <- E0. symmetry. apply nth_error_firstn_lt; auto. }
    split; [cbn [Z.add]; reflexivity|].
    intros j. pose proof (times_perm (params_dir j) _ _ PM) as T. rewrite times_app, times_cons in T.
    rewrite (times_none _ _ (NI j)), Nat.add_0_r, citems_paths, LC in T. cbn [Z.add] in T.
    rewrite (map_ext (fun i => params_name (Z.of_nat i)) (fun i => params_dir i)) in T by reflexivity. rewrite times_params in T.
    destruct (list_eq_dec N.eq_dec (params_name (Z.of_nat i)) (params_dir j)) as [Q|Q].
    + rewrite <- params_dir_name in Q. apply params_dir_inj in Q. subst j. rewrite Nat.eqb_refl, andb_false_r.
      destruct (Nat.ltb_spec i m); [|lia]. lia.
    + destruct (Nat.eqb_spec j i) as [->|]; [exfalso; apply Q; reflexivity|]. rewrite andb_true_r. destruct (j <? m)%nat; lia.
Qed.

Lemma search_best {P M} fields a (cs : list (cand P M)) qs : cs <> [] ->
  Forall2 (fun c q => exists m t, snd (snd c) = Ok (m, Some t) /\ worth fields a t q) cs qs ->
  exists s i p d mo sc, params_search fields a cs = (s, None) /\ first_best qs i /\
    nth_error cs i = Some (p, (d, Ok (mo, Some sc))) /\ sel_best s = Some (p, mo, Some sc, params_dir i).
Proof.
  intros NE F. unfold params_search.
  destruct (search_loop_ok fields a cs 0 (mkSel None []) [] [] 0%nat [] qs (inv_start _) ltac:(intros q _; left; reflexivity)
     ltac:(constructor) F) as (s & E).
  destruct (search_loop_inv fields a cs 0 _ s None [] [] 0%nat E (inv_start _) ltac:(intros q _; left; reflexivity))
    as (m & i & d & L & N & LC & _ & IN & I & B & _). cbn [app] in I, B.
  assert (m = length cs) by (apply N; auto). subst m. rewrite firstn_all in *.
  destruct (worths_citems fields a cs qs 0 F) as [W _].
  destruct (B _ W) as [E0|FB].
  - rewrite E0 in LC. destruct cs; [congruence|discriminate].
  - unfold inv in I. destruct (sel_best s) as [[[x sc] p]|] eqn:SB.
    2:{ destruct I as [E0 _]. rewrite E0 in LC. destruct cs; [congruence|discriminate]. }
    destruct I as [NI _]. destruct (citems_nth _ _ _ _ NI) as (p0 & d0 & m0 & sc0 & E0 & E1). injection E1 as -> -> ->.
    destruct (Forall2_nth _ _ _ _ _ F E0) as (q & _ & m1 & t & E1 & _). cbn in E1. injection E1 as <- ->.
    exists s, i, p0, d0, m0, t. auto.
Qed.

(* the search goes through the states of the searches over the first candidates *)
Lemma search_loop_grows {P M} fields a (cs : list (cand P M)) : forall k s s' e, search_loop fields a k cs s = (s', e) ->
  exists l, sel_disposed s' = sel_disposed s ++ l.
Proof.
  induction cs as [|[p [d o]] cs IH]; cbn [search_loop]; intros k s s' e H.
  - injection H as <- _. exists []. rewrite app_nil_r. auto.
  - destruct (bind o _) as [s1|x] eqn:E.
    + destruct (IH _ _ _ _ H) as (l & ->). apply bind_ok_iff in E. destruct E as (ms & _ & E). unfold consider in E.
      apply bind_ok_iff in E. destruct E as (b & _ & E). injection E as <-.
      destruct b; cbn [sel_disposed sel_best]; rewrite <- !app_assoc; eauto.
    + injection H as <- _. cbn [sel_disposed]. eauto.
Qed.

Lemma search_moments {P M} fields a (cs1 cs2 : list (cand P M)) s1 s e : params_search fields a cs1 = (s1, None) ->
  params_search fields a (cs1 ++ cs2) = (s, e) -> exists l, sel_disposed s = sel_disposed s1 ++ l.
Proof.
  unfold params_search. generalize (mkSel (X := P * M) None []) 0. induction cs1 as [|[p [d o]] cs1 IH]; cbn [search_loop app]; intros s0 k H1 H2.
  - injection H1 as <-. eapply search_loop_grows; eauto.
  - destruct (bind o _) as [s2|x]; [|discriminate]. eapply IH; eauto.
Qed.
