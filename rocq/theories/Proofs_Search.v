(* What is compared in a successful experiment can be compared; so the choice is determined *)
From Coq Require Import String Ascii ZArith NArith QArith Bool Lia List.
From Verif Require Import Base BaseFacts Model_UDEval Model_Harness Spec_Harness Proofs_Harness Proofs_Harness4
  Model_Experiment Spec_Experiment Proofs_Experiment Proofs_Experiment2 Proofs_Experiment3 Proofs_Experiment5.
Import ListNotations.
Open Scope Z_scope.

Section Compared.
Variables (fields : list str) (a : attr).
Definition has_worth (t : table) : Prop := exists q, worth fields a t q.

Lemma consider_worths {X} p (x : X) sc s s' t0 : consider fields a p x (Some sc) s = Ok s' -> best_scores s = Some t0 ->
  has_worth sc /\ has_worth t0 /\ (best_scores s' = Some sc \/ best_scores s' = Some t0).
Proof.
  intros H B. unfold consider in H. rewrite B in H. unfold is_better, compare_scores in H.
  destruct (score_sum fields a (Some sc)) as [q|e] eqn:E; [|discriminate].
  destruct (score_sum fields a (Some t0)) as [q0|e] eqn:E0; [|discriminate].
  split; [exists q; apply sum_worth; exact E|]. split; [exists q0; apply sum_worth; exact E0|].
  cbn [bind] in H. injection H as <-. destruct (Qgt q q0); [left|right]; auto.
Qed.

Lemma epochs_worths {T} metrics path_of (ys : list (table * T)) : forall epoch s s' t0,
  epochs_loop metrics fields a path_of epoch ys s = (s', None) -> best_scores s = Some t0 -> ys <> [] ->
  has_worth t0 /\ Forall (fun y => has_worth (fst y)) ys.
Proof.
  induction ys as [|(sc & tg) ys IH]; intros epoch s s' t0 H B N; [congruence|]. cbn [epochs_loop] in H.
  destruct (print_metrics metrics (Some sc)); [|discriminate]. cbn [bind] in H.
  destruct (consider fields a (path_of epoch) tg (Some sc) s) as [s1|e] eqn:C; [|discriminate].
  destruct (consider_worths _ _ _ _ _ _ C B) as (W & W0 & Q). split; auto. constructor; auto.
  destruct ys as [|y ys]; [constructor|]. destruct Q as [Q|Q]; (eapply IH; [exact H|exact Q|discriminate]).
Qed.

Lemma epochs_start {T} metrics path_of (ys : list (table * T)) epoch s' :
  epochs_loop metrics fields a path_of epoch ys (mkSel None []) = (s', None) -> (2 <= length ys)%nat ->
  Forall (fun y => has_worth (fst y)) ys.
Proof.
  intros H L. destruct ys as [|(sc & tg) ys]; [constructor|]. cbn [epochs_loop] in H.
  destruct (print_metrics metrics (Some sc)); [|discriminate]. cbn [bind] in H. unfold consider in H. cbn [best_scores sel_best is_better bind] in H.
  cbn [length] in L. destruct (epochs_worths _ _ _ _ _ _ sc H) as (W & F); [reflexivity|destruct ys; [cbn in L; lia|discriminate]|].
  constructor; auto.
Qed.

Lemma search_worths {P M} (cands : list (P * (list str * result (M * option table)))) : forall index s s' t0,
  search_loop fields a index cands s = (s', None) -> best_scores s = Some t0 -> cands <> [] ->
  Forall (fun c => forall ms o, snd (snd c) = Ok (ms, o) -> exists t, o = Some t) cands ->
  has_worth t0 /\ Forall (fun c => exists ms t, snd (snd c) = Ok (ms, Some t) /\ has_worth t) cands.
Proof.
  induction cands as [|(p & d & o) cands IH]; intros index s s' t0 H B N F; [congruence|]. cbn [search_loop] in H.
  destruct o as [(ms & o)|e]; [|discriminate]. cbn [bind fst snd] in H. inversion F as [|? ? F1 F2]; subst.
  destruct (F1 ms o eq_refl) as (t & ->).
  destruct (consider fields a (params_name index) (p, ms) (Some t) _) as [s1|e] eqn:C; [|discriminate].
  destruct (consider_worths _ _ _ _ _ t0 C) as (W & W0 & Q); [exact B|]. split; auto. constructor; [exists ms, t; auto|].
  destruct cands as [|y cands]; [constructor|]. destruct Q as [Q|Q]; (eapply IH; [exact H|exact Q|discriminate|exact F2]).
Qed.

Lemma search_start {P M} (cands : list (P * (list str * result (M * option table)))) index s' :
  search_loop fields a index cands (mkSel None []) = (s', None) -> (2 <= length cands)%nat ->
  Forall (fun c => forall ms o, snd (snd c) = Ok (ms, o) -> exists t, o = Some t) cands ->
  Forall (fun c => exists ms t, snd (snd c) = Ok (ms, Some t) /\ has_worth t) cands.
Proof.
  intros H L F. destruct cands as [|(p & d & o) cands]; [constructor|]. cbn [search_loop] in H.
  destruct o as [(ms & o)|e]; [|discriminate]. cbn [bind fst snd] in H. inversion F as [|? ? F1 F2]; subst.
  destruct (F1 ms o eq_refl) as (t & ->). unfold consider in H. cbn [best_scores sel_best is_better bind] in H.
  cbn [length] in L. destruct (search_worths _ _ _ _ t H) as (W & G); [reflexivity|destruct cands; [cbn in L; lia|discriminate]|exact F2|].
  constructor; auto. exists ms, t. auto.
Qed.

Lemma search_all_ok {P M} (cands : list (P * (list str * result (M * option table)))) : forall index s s',
  search_loop fields a index cands s = (s', None) -> Forall (fun c => exists x, snd (snd c) = Ok x) cands.
Proof.
  induction cands as [|(p & d & o) cands IH]; intros index s s' H; [constructor|]. cbn [search_loop] in H.
  destruct o as [x|e]; [|discriminate]. constructor; [exists x; reflexivity|]. cbn [bind] in H.
  destruct (consider _ _ _ _ _ _); [|discriminate]. eapply IH. exact H.
Qed.
End Compared.

Section Determined.
Context {M P : Type}.
Variables (c : settings M) (nt : training M) (dirs : files M -> str -> list str).
Notation seeds := (runs_of (random_seed c)).
Notation W := (has_worth (fields c) (compared c)).

(* what a successful search compares *)
Definition all_compared (n : nat) : Prop :=
  (forall k j run, (k < n)%nat -> (j < length seeds)%nat -> trained c nt k j run -> (2 <= length run)%nat -> Forall (fun x => W (ep_scores x)) run).

Lemma seed_compared k z run d o :
  evaluate_seed (printed c) (fields c) (compared c) (params_name (Z.of_nat k)) z (yielded c k z 0 run, None) = (d, Ok o) ->
  (2 <= length run)%nat -> Forall (fun x => W (ep_scores x)) run.
Proof.
  unfold evaluate_seed. cbn [fst snd].
  destruct (epochs_loop _ _ _ _ _ _ _) as (s & e) eqn:E. destruct e; [intros H; injection H; discriminate|]. intros _ L.
  assert (F := epochs_start _ _ _ _ _ _ _ E). rewrite yielded_length in F. specialize (F L).
  apply Forall_forall. intros x I. apply In_nth_error in I. destruct I as (i & I). rewrite Forall_forall in F.
  apply (F (ep_scores x, model_file c k z i)). eapply nth_error_In with (n := i). rewrite yielded_nth, I. reflexivity.
Qed.

Lemma seeds_compared k zs : forall runs d xs, length runs = length zs ->
  evaluate_seeds (printed c) (fields c) (compared c) (params_name (Z.of_nat k)) (generators c k zs runs) = (d, Ok xs) ->
  forall run, In run runs -> (2 <= length run)%nat -> Forall (fun x => W (ep_scores x)) run.
Proof.
  induction zs as [|z zs IH]; intros [|run0 runs] d xs L H run I; cbn in L; try lia; [destruct I|]. cbn [generators evaluate_seeds] in H.
  destruct (evaluate_seed _ _ _ _ _ _) as (d1 & r1) eqn:E. destruct r1 as [x|e]; [|discriminate].
  destruct (evaluate_seeds _ _ _ _ _) as (d2 & r2) eqn:E2. destruct r2 as [xs2|e]; [|discriminate].
  destruct I as [<-|I]; [eapply seed_compared; exact E|]. eapply IH; [|exact E2|exact I]. lia.
Qed.

Lemma candidate_compared k runs d o : length runs = length seeds ->
  evaluate_candidate (printed c) (fields c) (compared c) (params_name (Z.of_nat k)) (seeding_of c k runs) = (d, Ok o) ->
  forall run, In run runs -> (2 <= length run)%nat -> Forall (fun x => W (ep_scores x)) run.
Proof.
  unfold seeding_of, evaluate_candidate, evaluate_average. destruct (random_seed c) as [z|zs]; cbn [runs_of]; intros L H run I.
  - destruct runs as [|r [|? ?]]; cbn in L; try lia. destruct I as [<-|[]]. cbn [hd] in H.
    destruct (evaluate_seed _ _ _ _ _ _) as (d1 & r1) eqn:E. destruct r1; [|discriminate]. eapply seed_compared. exact E.
  - destruct (evaluate_seeds _ _ _ _ _) as (d1 & r1) eqn:E. destruct r1 as [xs|e]; [|discriminate].
    eapply seeds_compared; eauto.
Qed.

Lemma chosen_unique run x y : chosen c run x -> chosen c run y -> ((2 <= length run)%nat -> Forall (fun x => W (ep_scores x)) run) -> x = y.
Proof.
  intros (i & Hi & Fi) (j & Hj & Fj) C. destruct run as [|x0 [|x1 run]]; [destruct i; discriminate| |].
  - destruct i as [|[|i]], j as [|[|j]]; try discriminate. congruence.
  - assert (exists qs, Forall2 (worth (fields c) (compared c)) (map ep_scores (x0 :: x1 :: run)) qs) as (qs & Q).
    { assert (F : Forall (fun x => W (ep_scores x)) (x0 :: x1 :: run)) by (apply C; cbn; lia). clear -F.
      induction F as [|x l (q & Hq) _ (qs & IH)]; [exists []; constructor|]. exists (q :: qs). cbn [map]. constructor; auto. }
    assert (i = j) by (eapply first_best_unique; [apply Fi|apply Fj]; exact Q). subst j. congruence.
Qed.

Lemma summary_unique scs sc sc' : summary c scs sc -> summary c scs sc' -> sc = sc'.
Proof. unfold summary. destruct (random_seed c); congruence. Qed.

Lemma forall2_chosen runs : forall bs bs', Forall2 (chosen c) runs bs -> Forall2 (chosen c) runs bs' ->
  (forall run, In run runs -> (2 <= length run)%nat -> Forall (fun x => W (ep_scores x)) run) -> bs = bs'.
Proof.
  induction runs as [|run runs IH]; intros bs bs' H H' C; inversion H; inversion H'; subst; auto. f_equal.
  - eapply chosen_unique; eauto. apply C. left. reflexivity.
  - apply IH; auto. intros r I. apply C. right. exact I.
Qed.

(* the outcome of a candidate is determined *)
Lemma evaluated_unique n k x y : all_compared n -> (k < n)%nat -> evaluated c nt k x -> evaluated c nt k y -> x = y.
Proof.
  intros C K (L & T & B & S) (L' & T' & B' & S'). destruct x as [runs bs sc], y as [runs' bs' sc']. cbn [c_runs c_best c_scores] in *.
  assert (runs = runs') as <-.
  { apply nth_ext with (d := []) (d' := []); [congruence|]. intros j Hj.
    apply (trained_unique c nt k j); [apply T|apply T']; apply nth_error_nth'; congruence. }
  assert (bs = bs') as <-.
  { eapply forall2_chosen; eauto. intros run I. apply In_nth_error in I. destruct I as (j & I). eapply (C k j); eauto.
    rewrite <- L. apply nth_error_Some. congruence. }
  f_equal. eapply summary_unique; eauto.
Qed.

Lemma trained_nonempty_dec (runs : list (list (epoch M))) k : (printed c <> [] \/ epochs nt k <> 0%nat) ->
  (forall j run, nth_error runs j = Some run -> trained c nt k j run) -> printed c <> [] \/ Forall (fun r => r <> []) runs.
Proof.
  intros [N|N] T; [left; auto|right]. apply Forall_forall. intros r I. apply In_nth_error in I. destruct I as (j & I).
  destruct (T j r I) as (_ & L & _). intros ->. cbn in L. congruence.
Qed.

Lemma search_compared (hyper : list P) fs fs1 s : NoDup seeds -> (printed c <> [] \/ forall k, (k < length hyper)%nat -> epochs nt k <> 0%nat) ->
  search_params c nt dirs Neural 0 hyper (mkSel None []) fs = (fs1, (s, None)) ->
  all_compared (length hyper) /\
  ((2 <= length hyper)%nat -> forall i x, (i < length hyper)%nat -> evaluated c nt i x -> W (c_scores x)).
Proof.
  intros ND NE H.
  destruct (search_sim c nt dirs hyper ND 0 (mkSel None []) fs fs1 s [] H) as (all & L & T & SL & _).
  { intros ? ? ? ? []. } { constructor. } { intros ? ? ? _ []. }
  assert (OK := search_all_ok _ _ _ _ _ _ SL). rewrite Forall_forall in OK.
  assert (OUT : forall i p runs, nth_error hyper i = Some p -> nth_error all i = Some runs ->
    In (p, evaluate_candidate (printed c) (fields c) (compared c) (params_name (Z.of_nat i)) (seeding_of c i runs)) (outcomes c 0 (candidates c 0 hyper all))).
  { intros i p runs Hi Ha. rewrite outcomes_search. apply in_map_iff. exists (Z.of_nat i, (p, seeding_of c i runs)). split; auto.
    apply nth_error_In with (n := i). rewrite enumerate_nth. rewrite candidates_nth by auto. rewrite Hi, Ha. reflexivity. }
  assert (AC : all_compared (length hyper)).
  { intros k j run K J Tr Lr. destruct (nth_error hyper k) as [p|] eqn:Hk; [|apply nth_error_None in Hk; lia].
    destruct (nth_error all k) as [runs|] eqn:Ha; [|apply nth_error_None in Ha; lia].
    destruct (T k runs Ha) as (Lr' & Tr'). destruct (nth_error runs j) as [run'|] eqn:Hr; [|apply nth_error_None in Hr; lia].
    assert (run = run') as -> by (eapply trained_unique; [exact Tr|]; apply (Tr' j run' Hr)).
    destruct (OK _ (OUT k p runs Hk Ha)) as (o & E). cbn [snd] in E.
    destruct (evaluate_candidate _ _ _ _ _) as (d & r) eqn:EC. cbn [snd] in E. subst r.
    eapply candidate_compared; [|exact EC| |exact Lr]; auto. eapply nth_error_In. exact Hr. }
  split; auto. intros L2 i x Hi Ev.
  destruct (nth_error hyper i) as [p|] eqn:Hk; [|apply nth_error_None in Hk; lia].
  destruct (nth_error all i) as [runs|] eqn:Ha; [|apply nth_error_None in Ha; lia].
  assert (PICK : forall i p runs d models sc, nth_error hyper i = Some p -> nth_error all i = Some runs ->
     evaluate_candidate (printed c) (fields c) (compared c) (params_name (Z.of_nat i)) (seeding_of c i runs) = (d, Ok (models, sc)) ->
     exists picks dev, picked c runs picks /\ sc = Some dev /\ summary c (map (fun p => ep_scores (snd p)) picks) dev).
  { intros i' p' runs' d models sc Hk' Ha' EC. destruct (T i' runs' Ha') as (Lr & Tr).
    destruct (candidate_picks c i' runs' d models sc Lr) as (picks & dev & H1 & _ & H3 & H4); eauto.
    apply trained_nonempty_dec with (k := i').
    - destruct NE as [NE|NE]; [left; auto|right]. apply NE. apply nth_error_Some. congruence.
    - exact Tr. }
  assert (F := search_start _ _ _ _ _ SL). specialize (F ltac:(rewrite outcomes_search, map_length, enumerate_len, candidates_length by auto; lia)).
  assert (F' : Forall (fun c0 : P * (list str * result (list (option str * str) * option table)) =>
      forall ms o, snd (snd c0) = Ok (ms, o) -> exists t, o = Some t) (outcomes c 0 (candidates c 0 hyper all))).
  { apply Forall_forall. intros (p0 & out) I ms o E. rewrite outcomes_search in I. apply in_map_iff in I.
    destruct I as ((iz & (p1 & sd)) & E1 & I). cbn [fst snd] in E1. injection E1 as <- <-.
    apply In_nth_error in I. destruct I as (n & I). rewrite enumerate_nth, candidates_nth in I by auto.
    destruct (nth_error hyper n) as [p2|] eqn:Hn; [|discriminate]. destruct (nth_error all n) as [r2|] eqn:An; [|discriminate].
    cbn in I. injection I as <- <- <-. cbn [snd fst] in E.
    destruct (evaluate_candidate _ _ _ _ _) as (d & r) eqn:EC. cbn [snd] in E. subst r.
    destruct (PICK n p2 r2 d ms o Hn An EC) as (picks & dev & _ & -> & _). eauto. }
  specialize (F F'). rewrite Forall_forall in F. destruct (F _ (OUT i p runs Hk Ha)) as (ms & t & E & Wt). cbn [snd] in E.
  destruct (evaluate_candidate _ _ _ _ _) as (d & r) eqn:EC. cbn [snd] in E. subst r.
  destruct (PICK i p runs d ms (Some t) Hk Ha EC) as (picks & dev & (Pz & Pb) & E & Sm). injection E as <-.
  assert (x = mkCandidate runs (map snd picks) t) as ->; [|exact Wt].
  eapply evaluated_unique; [exact AC|exact Hi|exact Ev|]. destruct (T i runs Ha) as (Lr & Tr).
  split; [exact Lr|]. split; [exact Tr|]. split; cbn [c_runs c_best c_scores].
  - clear -Pb. induction Pb as [|run p rs ps Hb _ IH]; cbn [map]; constructor; auto. eapply best_chosen. exact Hb.
  - rewrite map_map. exact Sm.
Qed.
End Determined.
