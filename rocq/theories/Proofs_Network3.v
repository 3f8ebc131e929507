(* Feature providers of a network and models on disk. *)
From Coq Require Import String Ascii ZArith NArith QArith Bool List Lia Permutation Sorted.
From Verif Require Import Base BaseFacts Proofs_Conllu3 Model_Features Model_UDEval Model_Harness Spec_Harness Proofs_Harness3
  Spec_Labels Proofs_Labels Proofs_Labels3 Model_Network Spec_Network Proofs_Network Proofs_Network2.
Import ListNotations.
Open Scope Z_scope.

Lemma providers_once {T O G SH P} (sb : shared T O G SH P) tasks :
  fst (feature_providers sb tasks) = s_providers sb ++ flat_map k_providers tasks.
Proof.
  unfold feature_providers. cbn [fst]. generalize (s_providers sb). induction tasks as [|t ts IH]; intros l.
  - simpl. rewrite app_nil_r. reflexivity.
  - cbn [fold_left flat_map]. rewrite IH, app_assoc. reflexivity.
Qed.

Lemma providers_kept {T O G SH P} (sb : shared T O G SH P) tasks :
  s_providers (snd (feature_providers sb tasks)) = fst (feature_providers sb tasks).
Proof. reflexivity. Qed.

(* ------------------------------------------------------------------ *)
(* Walking                                                             *)

Definition rel_path (p : list str) : str := join [47%N] p.

Lemma simple_slashless s : simple_name s -> slashless s.
Proof. intros [_ H]. exact H. Qed.

Lemma based_simple base name b : name <> [] -> slashless name -> based (based base name) b = based base (name ++ [47%N] ++ b).
Proof.
  intros N S. destruct (based_prefix base) as [p E]. rewrite !E. rewrite based_end by auto. reflexivity.
Qed.

Fixpoint dir_ind' (P : dir -> Prop) (H : forall subs, Forall (fun nd => P (snd nd)) subs -> P (Dir subs)) (d : dir) : P d :=
  match d with
  | Dir subs => H subs ((fix go l := match l return Forall (fun nd => P (snd nd)) l with
                                     | [] => Forall_nil _
                                     | nd :: l' => Forall_cons nd (dir_ind' P H (snd nd)) (go l') end) subs)
  end.

Lemma below_names d p : dir_ok d -> below d p -> p <> [] /\ Forall simple_name p.
Proof.
  intros OK B. induction B as [subs name d J|subs name d p J B IH]; inversion OK as [? ? F]; subst; rewrite Forall_forall in F;
    destruct (F _ J) as [S OK']; cbn [fst snd] in *.
  - split; [discriminate|]. constructor; [auto|constructor].
  - split; [discriminate|]. constructor; auto. apply IH, OK'.
Qed.

Lemma walk_In d : dir_ok d -> forall base x,
  In x (walk base d) <-> exists p, below d p /\ x = based base (rel_path p).
Proof.
  induction d as [subs IH] using dir_ind'. intros OK base x. inversion OK as [? ND F]; subst. rewrite Forall_forall in *.
  cbn [walk]. rewrite in_app_iff, in_map_iff, in_flat_map. split.
  - intros [([name d'] & <- & J)|([name d'] & J & H)]; destruct (F _ J) as [S OK']; cbn [fst snd] in *.
    + exists [name]. split; [econstructor; eauto|]. cbn [rel_path join]. apply path_join_based, simple_slashless, S.
    + rewrite (path_join_based _ _ (simple_slashless _ S)) in H. apply (IH _ J OK') in H. cbn [fst snd] in *.
      destruct H as (p & B & ->). exists (name :: p). split; [econstructor 2; eauto|].
      rewrite based_simple by (first [apply S | apply simple_slashless, S]).
      destruct (below_names _ _ OK' B) as [N _]. unfold rel_path. destruct p; [congruence|]. reflexivity.
  - intros (p & B & ->). inversion B as [? name d' J|? name d' p' J B']; subst; destruct (F _ J) as [S OK']; cbn [fst snd] in *.
    + left. exists (name, d'). split; auto. cbn [fst]. apply path_join_based, simple_slashless, S.
    + right. exists (name, d'). split; auto. cbn [fst snd]. rewrite (path_join_based _ _ (simple_slashless _ S)).
      apply (IH _ J OK'). exists p'. split; auto. rewrite based_simple by (first [apply S | apply simple_slashless, S]).
      destruct (below_names _ _ OK' B') as [N _]. unfold rel_path. destruct p'; [congruence|]. reflexivity.
Qed.

Lemma rel_path_inj p q : p <> [] -> q <> [] -> Forall simple_name p -> Forall simple_name q -> rel_path p = rel_path q -> p = q.
Proof.
  intros Np Nq Fp Fq E. unfold rel_path in E. apply (f_equal (split 47%N)) in E.
  rewrite !split_join in E; auto; eapply Forall_impl; try eassumption; intros s [_ H]; exact H.
Qed.

Lemma based_inj base a b : based base a = based base b -> a = b.
Proof. destruct (based_prefix base) as [p E]. rewrite !E. apply app_inv_head. Qed.

Lemma NoDup_app_intro {A} (l m : list A) : NoDup l -> NoDup m -> (forall x, In x l -> ~ In x m) -> NoDup (l ++ m).
Proof.
  intros Nl Nm H. induction Nl as [|x l Nx Nl IH]; auto. cbn [app]. constructor.
  - rewrite in_app_iff. intros [J|J]; auto. apply (H x); [left|]; auto.
  - apply IH. intros y J. apply H. right; auto.
Qed.

Lemma walk_nodup d : dir_ok d -> forall base, NoDup (walk base d).
Proof.
  induction d as [subs IH] using dir_ind'. intros OK base. inversion OK as [? ND F]; subst.
  assert (X : forall l, incl l subs -> NoDup (map fst l) -> NoDup (flat_map (fun nd => walk (path_join base (fst nd)) (snd nd)) l)).
  { rewrite Forall_forall in *. induction l as [|[name d] l IHl]; intros I N; [constructor|]. cbn [flat_map fst snd map] in *.
    inversion N as [|? ? N1 N2]; subst. assert (J : In (name, d) subs) by (apply I; left; auto). destruct (F _ J) as [S OK'].
    cbn [fst snd] in *. apply NoDup_app_intro.
    - apply (IH _ J OK').
    - apply IHl; auto. intros z Z. apply I. right; auto.
    - intros x H1 H2. apply in_flat_map in H2. destruct H2 as ([name' d'] & J' & H2). cbn [fst snd] in H2.
      assert (J2 : In (name', d') subs) by (apply I; right; auto). destruct (F _ J2) as [S' OK2]. cbn [fst snd] in *.
      apply (walk_In d OK') in H1. apply (walk_In d' OK2) in H2. destruct H1 as (p & B & ->), H2 as (p' & B' & E).
      rewrite (path_join_based _ _ (simple_slashless _ S)), (path_join_based _ _ (simple_slashless _ S')) in E.
      rewrite !based_simple in E by (first [apply S | apply S' | apply simple_slashless, S | apply simple_slashless, S']).
      apply based_inj in E. cbn [app] in E. apply seg_inj in E; [|apply simple_slashless; auto|apply simple_slashless; auto].
      destruct E as [-> _]. apply N1. apply (in_map fst) in J'. exact J'. }
  cbn [walk]. apply NoDup_app_intro.
  - clear X IH OK. induction subs as [|[name d] subs IHs]; [constructor|]. cbn [map fst] in *. inversion ND; subst. inversion F as [|? ? [S _] F']; subst.
    constructor; auto. intros J. apply in_map_iff in J. destruct J as ([name' d'] & E & J). cbn [fst] in *.
    rewrite Forall_forall in F'. destruct (F' _ J) as [S' _]. cbn [fst] in S'.
    rewrite (path_join_based _ _ (simple_slashless _ S)), (path_join_based _ _ (simple_slashless _ S')) in E.
    apply based_inj in E. subst. apply H1. apply (in_map fst) in J. exact J.
  - apply X; auto. apply incl_refl.
  - intros x H1 H2. apply in_map_iff in H1. destruct H1 as ([name d] & <- & J). apply in_flat_map in H2.
    destruct H2 as ([name' d'] & J' & H2). cbn [fst snd] in *. rewrite Forall_forall in F. destruct (F _ J) as [S _]. destruct (F _ J') as [S' OK'].
    cbn [fst snd] in *. apply (walk_In d' OK') in H2. destruct H2 as (p & B & E).
    rewrite (path_join_based _ _ (simple_slashless _ S)), (path_join_based _ _ (simple_slashless _ S')) in E.
    rewrite based_simple in E by (first [apply S' | apply simple_slashless, S']). apply based_inj in E.
    symmetry in E. cbn [app] in E. apply seg_end in E; auto. apply simple_slashless, S.
Qed.

Lemma sorted_strict l : NoDup l -> StronglySorted str_before (isort str_le l).
Proof.
  intros N0. assert (S1 : StronglySorted (leR str_le) (isort str_le l)) by (apply isort_sorted, (leb_of_ok _ str_cmp_ok)).
  assert (N : NoDup (isort str_le l)) by (eapply Permutation_NoDup; [apply isort_perm|auto]). clear N0.
  induction S1 as [|x m S1 IH F]; constructor; inversion N as [|? ? Nx Nl]; subst; auto.
  apply Forall_forall. intros y Hy. rewrite Forall_forall in F. specialize (F y Hy). unfold leR, str_le in F.
  apply str_decides. destruct (str_cmp x y) eqn:C; [|auto|discriminate]. apply str_cmp_ok in C. subst. tauto.
Qed.

Lemma test_all_spec {R} (test : str -> result R) l ys e : test_all test l = (ys, e) ->
  Forall (fun y => test (snd y) = Ok (fst y)) ys
  /\ match e with
     | None => map snd ys = l
     | Some e => exists m rest, l = map snd ys ++ m :: rest /\ test m = Err e
     end.
Proof.
  revert ys e. induction l as [|m l IH]; intros ys e H; cbn [test_all] in H.
  - injection H as <- <-. split; [constructor|reflexivity].
  - destruct (test m) as [r|e0] eqn:E.
    + destruct (test_all test l) as [ys' e'] eqn:E2. injection H as <- <-. destruct (IH _ _ eq_refl) as [A B].
      split; [constructor; auto|]. destruct e' as [e'|].
      * destruct B as (m' & rest & -> & B). exists m', rest. auto.
      * cbn [map snd]. congruence.
    + injection H as <- <-. split; [constructor|]. exists m, l. auto.
Qed.

Lemma str_cmp_prefix b x y : str_cmp (b ++ x) (b ++ y) = str_cmp x y.
Proof. induction b as [|c b IH]; auto. cbn [app]. unfold str_cmp in *. cbn [lex_cmp]. rewrite N.compare_refl. exact IH. Qed.

Lemma walk_flat base names : Forall simple_name names ->
  walk base (Dir (map (fun n => (n, Dir [])) names)) = map (based base) names.
Proof.
  intros F. cbn [walk]. rewrite map_map. cbn [fst].
  replace (flat_map _ (map (fun n => (n, Dir [])) names)) with (@nil str).
  - rewrite app_nil_r. apply map_ext_in. intros n J. rewrite Forall_forall in F. apply path_join_based, simple_slashless, F, J.
  - clear F. induction names as [|n names IH]; auto.
Qed.

Lemma epoch_simple i : simple_name (epoch_name i).
Proof. split; [unfold epoch_name; cbn; discriminate|apply epoch_slashless]. Qed.

Lemma sorted_paths_eq l l' : Permutation l l' -> StronglySorted str_before l' -> isort str_le l = l'.
Proof.
  intros P S. assert (N : NoDup l').
  { clear P. induction S as [|x m S IH F]; constructor; auto. intros J. rewrite Forall_forall in F. specialize (F x J).
    apply str_decides in F. rewrite (cmp_refl _ str_cmp_ok) in F. discriminate. }
  eapply sorted_perm_eq with (R := leR str_le).
  - intros x y _ _. apply str_le_anti.
  - etransitivity; [symmetry; apply isort_perm|exact P].
  - apply isort_sorted, (leb_of_ok _ str_cmp_ok).
  - clear - S. induction S as [|x m S IH F]; constructor; auto. eapply Forall_impl; [|exact F]. intros y H.
    apply str_decides in H. unfold leR, str_le. rewrite H. reflexivity.
Qed.

Lemma few_epochs base k order : Permutation order (seq 0 k) -> (k <= 10)%nat ->
  isort str_le (walk base (epochs_of order)) = epoch_paths base k.
Proof.
  intros P K. replace (epochs_of order) with (Dir (map (fun n => (n, Dir [])) (map (fun i => epoch_name (Z.of_nat i)) order)))
    by (unfold epochs_of; rewrite map_map; reflexivity).
  rewrite walk_flat. 2:{ apply Forall_forall. intros n J. apply in_map_iff in J. destruct J as (i & <- & _). apply epoch_simple. }
  rewrite map_map. apply sorted_paths_eq; [unfold epoch_paths; apply Permutation_map, P|].
  unfold epoch_paths. destruct (based_prefix base) as [b E].
  assert (X : forall i j, (i < j < 10)%nat -> str_before (based base (epoch_name (Z.of_nat i))) (based base (epoch_name (Z.of_nat j)))).
  { intros i j L. rewrite !E. apply str_decides. rewrite str_cmp_prefix.
    do 10 (destruct i as [|i]; [do 10 (destruct j as [|j]; [first [lia|reflexivity]|]); lia|]). lia. }
  assert (Y : forall m s, (s + m <= 10)%nat -> StronglySorted str_before (map (fun i => based base (epoch_name (Z.of_nat i))) (seq s m))).
  { induction m as [|m IH]; intros s L; [constructor|]. cbn [seq map]. constructor; [apply IH; lia|].
    apply Forall_forall. intros y J. apply in_map_iff in J. destruct J as (j & <- & J). apply in_seq in J. apply X. lia. }
  apply Y. lia.
Qed.

Lemma many_epochs base k order : Permutation order (seq 0 k) -> (10 < k)%nat ->
  isort str_le (walk base (epochs_of order)) <> epoch_paths base k.
Proof.
  intros P K H. replace (epochs_of order) with (Dir (map (fun n => (n, Dir [])) (map (fun i => epoch_name (Z.of_nat i)) order))) in H
    by (unfold epochs_of; rewrite map_map; reflexivity).
  rewrite walk_flat in H. 2:{ apply Forall_forall. intros n J. apply in_map_iff in J. destruct J as (i & <- & _). apply epoch_simple. }
  assert (S1 : StronglySorted (leR str_le) (epoch_paths base k)) by (rewrite <- H; apply isort_sorted, (leb_of_ok _ str_cmp_ok)).
  clear H. unfold epoch_paths in S1. destruct k as [|[|[|k]]]; try lia. cbn [seq map] in S1.
  apply StronglySorted_inv in S1. destruct S1 as [S1 _]. apply StronglySorted_inv in S1. destruct S1 as [S1 _].
  apply StronglySorted_inv in S1. destruct S1 as [_ F]. rewrite Forall_forall in F.
  assert (J : In (based base (epoch_name (Z.of_nat 10))) (map (fun i => based base (epoch_name (Z.of_nat i))) (seq 3 k))).
  { apply in_map_iff. exists 10%nat. split; auto. apply in_seq. lia. }
  specialize (F _ J). destruct (based_prefix base) as [b E]. rewrite !E in F. unfold leR, str_le in F.
  rewrite str_cmp_prefix in F. vm_compute in F. discriminate.
Qed.

Lemma none_fails {T O G SH P} (shapes : SH) (sh_inputs sh : dict T) (tasks : list (task T O G SH P)) t s r :
  In t tasks ->
  (forall a b c d e g g' out l x, k_build t a b c d e g = Ok (g', (out, l, x)) -> x = None) ->
  foldM (build_task shapes sh_inputs sh) s tasks = Ok r -> False.
Proof.
  intros J H. revert s. induction tasks as [|t' ts IH]; intros s F; [destruct J|]. cbn [foldM] in F.
  apply bind_ok_iff in F. destruct F as (s1 & E & F). destruct J as [->|J]; [|eapply IH; eauto].
  unfold build_task in E.
  apply bind_ok_iff in E. destruct E as (gi & E1 & E). cbv zeta in E. apply bind_ok_iff in E. destruct E as (gg & E2 & E).
  cbv zeta in E.
  apply bind_ok_iff in E. destruct E as (dp & E3 & E). apply bind_ok_iff in E. destruct E as ([g3 [[out l] x]] & E4 & E).
  cbn [fst snd] in E. rewrite (H _ _ _ _ _ _ _ _ _ _ E4) in E. discriminate.
Qed.

Lemma none_never_builds {T O G SH P} placeholders sum_losses optimize global_init
      (sb : shared T O G SH P) (tasks : list (task T O G SH P)) (shapes : SH) (g : G) t r :
  In t tasks ->
  (forall a b c d e g g' out l x, k_build t a b c d e g = Ok (g', (out, l, x)) -> x = None) ->
  build placeholders sum_losses optimize global_init sb tasks shapes g <> Ok r.
Proof.
  intros J H F. unfold build in F. destruct (placeholders g) as [g0 dl].
  apply bind_ok_iff in F. destruct F as (gi & E1 & F). cbv zeta in F.
  apply bind_ok_iff in F. destruct F as ([g2 [sh si]] & E2 & F). cbn [fst snd] in F.
  apply bind_ok_iff in F. destruct F as (r1 & E3 & F). eapply none_fails; eauto.
Qed.

Lemma every_placeholder {T O G SH P} placeholders sum_losses optimize global_init
      (sb : shared T O G SH P) (tasks : list (task T O G SH P)) (shapes : SH) (g g' : G) n :
  shared_ok sb -> Forall task_ok tasks ->
  build placeholders sum_losses optimize global_init sb tasks shapes g = Ok (n, g') ->
  exists g0 dropout lr g1 sh_inputs g2 sh sh_inits cs g3,
    placeholders g = (g0, (dropout, lr))
    /\ s_inputs sb shapes g0 = Ok (g1, sh_inputs)
    /\ s_build sb shapes sh_inputs dropout g1 = Ok (g2, (sh, sh_inits))
    /\ tasks_called shapes sh_inputs sh dropout g2 tasks cs g3
    /\ (disjoint_names (sh_inputs :: map c_inputs cs) ->
        forall k t, (dict_get sh_inputs k = Some t \/ exists c seen, In c cs /\ prefers seen sh_inputs (c_inputs c)
                                                                      /\ dict_get seen k = Some t) ->
                    dict_get (n_inputs n) k = Some t)
    /\ (disjoint_names (map c_gold cs) ->
        forall c k t, In c cs -> dict_get (c_gold c) k = Some t -> dict_get (n_gold n) k = Some t)
    /\ (disjoint_names (map c_output cs) ->
        forall c k t, In c cs -> dict_get (c_output c) k = Some t -> dict_get (n_outputs n) k = Some t).
Proof.
  intros OKs F H. destruct (build_spec_net _ _ _ _ _ _ _ _ _ _ OKs F H)
    as (g0 & dropout & lr & g1 & shi & g2 & sh & shin & cs & g3 & g4 & g5 & init & A1 & A2 & A3 & A4 & A5 & A6 & A7 & A8 & A9 & A10 & A11 & A12 & _).
  exists g0, dropout, lr, g1, shi, g2, sh, shin, cs, g3. do 4 (split; [assumption|]).
  split; [|split].
  - intros D k t K. rewrite A10. assert (X : forall d, In d (shi :: map c_inputs cs) -> dict_get d k = Some t ->
      last_binding (shi :: map c_inputs cs) k = Some t) by (intros d Jd Gd; eapply last_binding_disjoint; eauto).
    destruct K as [K|(c & seen & Jc & [_ Pr] & K)].
    + apply (X shi); [left; auto|auto].
    + rewrite Pr in K. destruct (dict_get shi k) eqn:E.
      * injection K as ->. apply (X shi); [left; auto|auto].
      * apply (X (c_inputs c)); auto. right. apply in_map, Jc.
  - intros D c k t Jc K. rewrite A12.
    assert (NN : k <> of_string "dropout_probability" /\ k <> of_string "learning_rate").
    { clear - F A4 Jc K. induction A4 as [|g g1 g2 g3 g4 t0 ts c0 cs seen E1 E2 E3 E4 C IH]; [destruct Jc|].
      inversion F as [|? ? (_ & K2 & _) F']; subst. destruct Jc as [->|Jc]; [|apply IH; auto].
      destruct (K2 _ _ _ _ E2) as (_ & N1 & N2). apply dict_get_In in K. apply (in_map fst) in K.
      split; intros ->; auto. }
    destruct NN as [N1 N2]. apply str_eqb_neq in N1. apply str_eqb_neq in N2. rewrite N1, N2.
    eapply last_binding_disjoint; eauto. apply in_map, Jc.
  - intros D c k t Jc K. rewrite A11. eapply last_binding_disjoint; eauto. apply in_map, Jc.
Qed.
