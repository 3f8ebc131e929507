(* The directories that are left after a search, and averages *)
From Coq Require Import String Ascii ZArith NArith QArith Qfield Bool Lia Lqa Permutation List.
From Verif Require Import Base BaseFacts Proofs_Datamodel Proofs_Conllu3 Model_UDEval Model_Harness Spec_Harness Proofs_Features
  Proofs_Builder3 Proofs_Harness Proofs_Harness2 Proofs_Harness3.
Import ListNotations.
Open Scope Z_scope.

Lemma enumerate_nth {A} (l : list A) i : nth_error (enumerate l) i = option_map (fun x => (Z.of_nat i, x)) (nth_error l i).
Proof.
  unfold enumerate, zrange. rewrite zlen_to_nat || unfold zlen; rewrite ?Nat2Z.id.
  assert (G : forall (l : list A) k i, nth_error (combine (map Z.of_nat (seq k (length l))) l) i =
              option_map (fun x => (Z.of_nat (k + i), x)) (nth_error l i)).
  { clear. induction l as [|x l IH]; intros k [|i]; cbn [length seq map combine nth_error option_map]; auto.
    - rewrite Nat.add_0_r. reflexivity.
    - rewrite IH. replace (S k + i)%nat with (k + S i)%nat by lia. reflexivity. }
  rewrite G. reflexivity.
Qed.

Lemma enumerate_len {A} (l : list A) : length (enumerate l) = length l.
Proof. unfold enumerate, zrange. rewrite combine_length, map_length, seq_length. unfold zlen. rewrite Nat2Z.id. lia. Qed.

(* ---- below ---- *)

Lemma at_or_below_prefix b d p : at_or_below (b ++ d) (b ++ p) <-> at_or_below d p.
Proof.
  unfold at_or_below. split.
  - intros [E|(r & E)].
    + left. apply app_inv_head in E. auto.
    + right. exists r. rewrite <- app_assoc in E. apply app_inv_head in E. auto.
  - intros [->|(r & ->)]; [left; auto|]. right. exists r. rewrite <- app_assoc. reflexivity.
Qed.

Lemma epoch_dir_params k seed e :
  epoch_dir (params_dir k) seed e = params_dir k ++ 47%N :: print_Z seed ++ 47%N :: of_string "epoch-" ++ print_Z (Z.of_nat e).
Proof.
  rewrite epoch_dir_eq by (apply plain_slashless, params_slashless).
  unfold inside. change (params_dir k) with (of_string "params-" ++ print_Z (Z.of_nat k)).
  cbn [of_string app]. rewrite <- !app_assoc. reflexivity.
Qed.

Lemma below_params j k seed e : at_or_below (params_dir j) (epoch_dir (params_dir k) seed e) <-> j = k.
Proof.
  rewrite epoch_dir_params. split.
  - intros [E|(r & E)].
    + exfalso. exact (seg_end _ _ _ (params_slashless j) E).
    + apply seg_inj in E; try apply params_slashless. destruct E as [E _]. apply params_dir_inj in E. auto.
  - intros ->. right. eexists. reflexivity.
Qed.

Lemma below_epoch j seed' e' k seed e : at_or_below (epoch_dir (params_dir j) seed' e') (epoch_dir (params_dir k) seed e) ->
  j = k /\ seed' = seed /\ e' = e.
Proof.
  rewrite !epoch_dir_params. intros [E|(r & E)].
  - apply seg_inj in E; try apply params_slashless. destruct E as [E1 E].
    apply seg_inj in E; try apply print_slashless. destruct E as [E2 E]. apply app_inv_head in E.
    apply params_dir_inj in E1. apply BaseFacts.print_Z_inj in E2. apply BaseFacts.print_Z_inj in E. split; [lia|split; [auto|lia]].
  - exfalso. rewrite <- app_assoc in E. cbn [app] in E. apply seg_inj in E; try apply params_slashless. destruct E as [_ E].
    rewrite <- app_assoc in E. cbn [app] in E. apply seg_inj in E; try apply print_slashless. destruct E as [_ E].
    refine (seg_end (of_string "epoch-" ++ print_Z (Z.of_nat e')) _ r (epoch_slashless (Z.of_nat e)) (eq_sym _)).
    rewrite E, <- app_assoc. reflexivity.
Qed.

(* ---- the directories that are left ---- *)

Lemma search_left {P T} metrics fields a base (cands : list (P * seeding (Z * gen (table * T)))) s :
  search metrics fields a cands = (s, None) -> cands <> [] ->
  Forall (fun c => NoDup (map fst (runs_of (snd c)))) cands ->
  exists k params runs models scores,
    nth_error cands k = Some (params, runs) /\
    sel_best s = Some (params, models, scores, params_dir k) /\
    Forall2 (fun run m =>
      snd m = inside (params_dir k) (print_Z (fst run)) /\
      ((fst (snd run) = [] /\ fst m = None) \/
       exists i sc t, nth_error (fst (snd run)) i = Some (sc, t) /\ fst m = Some t /\
         forall e, (e < length (fst (snd run)))%nat ->
           (gone base (sel_disposed s) (based base (epoch_dir (params_dir k) (fst run) e)) <-> e <> i)))
      (runs_of runs) models /\
    forall j seed e, (j < length cands)%nat -> j <> k ->
      gone base (sel_disposed s) (based base (epoch_dir (params_dir j) seed e)).
Proof.
  intros H NE ND. unfold search, params_search in H.
  set (cs := map _ (enumerate cands)) in H.
  assert (LC : length cs = length cands) by (unfold cs; rewrite map_length, enumerate_len; auto).
  assert (CN : forall i, nth_error cs i = option_map (fun c => (fst c, evaluate_candidate metrics fields a (params_dir i) (snd c))) (nth_error cands i)).
  { intros i. unfold cs. rewrite nth_error_map, enumerate_nth. destruct (nth_error cands i); reflexivity. }
  destruct (search_loop_inv fields a cs 0 _ s None [] [] 0%nat H (inv_start _) ltac:(intros q _; left; reflexivity))
    as (m & k & d & L & N & LI & ED & _ & I & _ & _). cbn [app] in I.
  assert (m = length cs) by (apply N; auto). subst m. rewrite (ED eq_refl), firstn_all, app_nil_r in *. clear N L ED.
  assert (ALL : forall i c, nth_error cands i = Some c -> exists dd mo sc,
            evaluate_candidate metrics fields a (params_dir i) (snd c) = (dd, Ok (mo, sc))).
  { intros i c Hc. assert (Li : (i < length (citems 0 cs))%nat) by (rewrite LI, LC; apply nth_error_Some; congruence).
    destruct (nth_error (citems 0 cs) i) as [it|] eqn:Ei; [|apply nth_error_None in Ei; lia].
    destruct (citems_nth _ _ _ _ Ei) as (p & dd & mo & sc & Ec & _). rewrite CN, Hc in Ec. cbn [option_map fst snd] in Ec. injection Ec as _ Ec. eauto. }
  unfold inv in I. destruct (sel_best s) as [[[x sc] p]|] eqn:SB.
  2:{ destruct I as [E _]. rewrite E in LI. rewrite LC in LI. destruct cands; [congruence|discriminate]. }
  destruct I as [NI PM]. destruct (citems_nth _ _ _ _ NI) as (params & dd & models & sc0 & Ec & E1). injection E1 as -> -> ->.
  cbn [Z.add] in *. rewrite <- params_dir_name in *.
  rewrite CN in Ec. destruct (nth_error cands k) as [[params0 runs]|] eqn:Ek; [|discriminate]. cbn [option_map fst snd] in Ec. injection Ec as -> EV.
  rewrite citems_paths, LI, LC in PM. cbn [Z.add] in PM.
  rewrite (map_ext (fun i => params_name (Z.of_nat i)) (fun i => params_dir i)) in PM by reflexivity.
  exists k, params, runs, models, sc0. split; auto. split; auto.
  destruct (based_prefix base) as (b & HB).
  assert (GB : forall p, gone base (sel_disposed s) (based base p) <-> exists d, In d (sel_disposed s) /\ at_or_below d p).
  { intros p. unfold gone. split; intros (d0 & Hd & HA); exists d0; split; auto.
    - rewrite !HB in HA. apply at_or_below_prefix in HA. auto.
    - rewrite !HB. apply at_or_below_prefix. auto. }
  (* the disposals of the evaluations are epochs of candidates *)
  assert (INN : forall q, In q (inner_of cs) -> exists j c dd mo sc, nth_error cands j = Some c /\
            evaluate_candidate metrics fields a (params_dir j) (snd c) = (dd, Ok (mo, sc)) /\ In q dd).
  { intros q Hq. unfold inner_of in Hq. apply in_concat in Hq. destruct Hq as (l & Hl & Hq). apply in_map_iff in Hl.
    destruct Hl as (c' & <- & Hc'). apply In_nth_error in Hc'. destruct Hc' as (j & Hj). rewrite CN in Hj.
    destruct (nth_error cands j) as [c|] eqn:Ej; [|discriminate]. cbn [option_map fst snd] in Hj. injection Hj as <-. cbn [snd] in Hq.
    destruct (ALL _ _ Ej) as (d1 & mo & sc1 & E1). rewrite E1 in Hq. cbn [fst] in Hq. exists j, c, d1, mo, sc1. auto. }
  assert (EPO : forall j (rs : list (Z * gen (table * T))) pairs q, Forall2 (run_kept (params_dir j)) rs pairs -> In q (concat (map fst pairs)) ->
            exists r run dm e, nth_error rs r = Some run /\ nth_error pairs r = Some dm /\ In q (fst dm) /\ q = epoch_dir (params_dir j) (fst run) e).
  { intros j rs pairs q F Hq. apply in_concat in Hq. destruct Hq as (l & Hl & Hq). apply in_map_iff in Hl.
    destruct Hl as (dm & <- & Hdm). apply In_nth_error in Hdm. destruct Hdm as (r & Hr). destruct (Forall2_nth_r _ _ _ _ _ F Hr) as (run & Hrun & K).
    destruct K as [(_ & K & _)|(i & sc2 & t & _ & _ & K)]; [rewrite K in Hq; destruct Hq|].
    assert (Hq' : In q (map (epoch_dir (params_dir j) (fst run)) (seq 0 (length (fst (snd run)))))).
    { apply (Permutation_in _ K). right. auto. }
    apply in_map_iff in Hq'. destruct Hq' as (e & <- & _). exists r, run, dm, e. auto. }
  (* the winner itself was not disposed *)
  assert (NK : ~ In (params_dir k) (sel_disposed s)).
  { intros HI. apply (count_occ_In (list_eq_dec N.eq_dec)) in HI. pose proof (times_perm (params_dir k) _ _ PM) as TT.
    rewrite times_app, times_cons, times_params in TT. fold (times (params_dir k) (sel_disposed s)) in HI.
    rewrite (times_none (params_dir k) (inner_of cs)) in TT.
    - destruct (list_eq_dec N.eq_dec (params_dir k) (params_dir k)); [|congruence]. destruct (k <? length cands)%nat; lia.
    - intros HQ. destruct (INN _ HQ) as (j & c & d1 & mo & sc1 & _ & E1 & HQ1). 
      destruct (candidate_kept _ _ _ _ _ _ _ _ (plain_slashless _ (params_slashless j)) E1) as (pairs & F & -> & _).
      destruct (EPO _ _ _ _ F HQ1) as (r & run & dm & e & _ & _ & _ & E).
      rewrite epoch_dir_params in E.
      exact (seg_end _ _ _ (params_slashless k) (eq_sym E)). }
  split.
  - destruct (candidate_kept _ _ _ _ _ _ _ _ (plain_slashless _ (params_slashless k)) EV) as (pairs & F & Ed & ->).
    assert (NDk : NoDup (map fst (runs_of runs))).
    { rewrite Forall_forall in ND. apply (ND (params, runs)). eapply nth_error_In; eauto. }
    assert (F2 : forall i run dm, nth_error (runs_of runs) i = Some run -> nth_error pairs i = Some dm ->
      snd (snd dm) = inside (params_dir k) (print_Z (fst run)) /\
      ((fst (snd run) = [] /\ fst (snd dm) = None) \/
       exists i sc t, nth_error (fst (snd run)) i = Some (sc, t) /\ fst (snd dm) = Some t /\
         forall e, (e < length (fst (snd run)))%nat ->
           (gone base (sel_disposed s) (based base (epoch_dir (params_dir k) (fst run) e)) <-> e <> i))).
    { intros r run dm Hr Hd. destruct (Forall2_nth _ _ _ _ _ F Hr) as (dm' & Hd' & K). rewrite Hd in Hd'. injection Hd' as <-.
      destruct K as [(K1 & K2 & K3)|(i & sc & t & K1 & K2 & K3)].
      { rewrite K3. cbn. auto. }
      rewrite K2. cbn [fst snd]. split; auto. right. exists i, sc, t. split; auto. split; auto.
      intros e Le. rewrite GB. split.
      - intros (d0 & Hd0 & HA) ->.
        assert (Hin : In d0 (map (fun i => params_dir i) (seq 0 (length cands)) ++ inner_of cs)).
        { apply (Permutation_in _ (Permutation_sym PM)). right. auto. }
        apply in_app_iff in Hin. destruct Hin as [Hin|Hin].
        + apply in_map_iff in Hin. destruct Hin as (j & <- & _). apply below_params in HA. subst j. auto.
        + destruct (INN _ Hin) as (j & c & d1 & mo & sc1 & Hj & E1 & Hq).
          assert (j = k).
          { destruct (candidate_kept _ _ _ _ _ _ _ _ (plain_slashless _ (params_slashless j)) E1) as (ps & Fj & -> & _).
            destruct (EPO _ _ _ _ Fj Hq) as (r' & run' & dm' & e' & _ & _ & _ & E). rewrite E in HA. apply below_epoch in HA. apply HA. }
          subst j. rewrite Ek in Hj. injection Hj as <-. cbn [snd] in E1.
          pose proof (eq_trans (eq_sym E1) EV) as EE. injection EE as E2 _ _. rewrite E2, Ed in Hq.
          destruct (EPO _ _ _ _ F Hq) as (r' & run' & dm' & e' & Hr' & Hp' & Hi' & E). subst d0.
          destruct (below_epoch _ _ _ _ _ _ HA) as (_ & SE & ->).
          assert (r' = r).
          { apply (proj1 (NoDup_nth_error (map fst (runs_of runs))) NDk).
            - apply nth_error_Some. rewrite nth_error_map, Hr'. discriminate.
            - rewrite !nth_error_map, Hr, Hr'. cbn. congruence. }
          subst r'. rewrite Hr in Hr'. injection Hr' as <-. rewrite Hd in Hp'. injection Hp' as <-.
          assert (ND1 : NoDup (epoch_dir (params_dir k) (fst run) i :: fst dm)).
          { eapply Permutation_NoDup; [symmetry; exact K3|]. apply FinFun.Injective_map_NoDup; [|apply seq_NoDup].
            intros x y. apply epoch_dir_inj. apply plain_slashless, params_slashless. }
          inversion ND1; subst; auto.
      - intros HE. exists (epoch_dir (params_dir k) (fst run) e). split; [|left; reflexivity].
        assert (HI : In (epoch_dir (params_dir k) (fst run) e) (epoch_dir (params_dir k) (fst run) i :: fst dm)).
        { apply (Permutation_in _ (Permutation_sym K3)). apply in_map, in_seq. lia. }
        destruct HI as [HI|HI].
        { exfalso. apply HE. apply epoch_dir_inj in HI; [auto|]. apply plain_slashless, params_slashless. }
        assert (HQ : In (epoch_dir (params_dir k) (fst run) e) (params_dir k :: sel_disposed s)).
        { apply (Permutation_in _ PM). apply in_app_iff. right. unfold inner_of. apply in_concat. exists dd. split.
          - apply in_map_iff. exists (params, (dd, Ok (map snd pairs, sc0))). split; auto. apply (nth_error_In _ k). rewrite CN, Ek. cbn [option_map fst snd]. rewrite EV. auto.
          - rewrite Ed. apply in_concat. exists (fst dm). split; auto. apply in_map. eapply nth_error_In; eauto. }
        destruct HQ as [HQ|HQ]; auto. exfalso. rewrite epoch_dir_params in HQ. exact (seg_end _ _ _ (params_slashless k) (eq_sym HQ)). }
    apply Forall2_of_nth.
    + rewrite map_length. apply (Forall2_length' _ _ _ F).
    + intros r run m Hr Hm. rewrite nth_error_map in Hm. destruct (nth_error pairs r) as [dm|] eqn:Hd; [|discriminate].
      cbn [option_map fst snd] in Hm. injection Hm as <-. exact (F2 _ _ _ Hr Hd).
  - intros j seed e Lj Hjk. apply GB. exists (params_dir j). split; [|apply below_params; auto].
    assert (Hin : In (params_dir j) (params_dir k :: sel_disposed s)).
    { apply (Permutation_in _ PM). apply in_app_iff. left. apply in_map, in_seq. lia. }
    destruct Hin as [E|Hin]; auto. apply params_dir_inj in E. congruence.
Qed.
