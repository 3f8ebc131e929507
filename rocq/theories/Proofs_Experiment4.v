(* What an experiment does to files, and the methods that cannot be evaluated *)
From Coq Require Import String Ascii ZArith NArith QArith Bool Lia Permutation List.
From Verif Require Import Base BaseFacts Proofs_Datamodel Proofs_Conllu3 Model_UDEval Model_Harness Spec_Harness Proofs_Builder3 Proofs_Harness
  Proofs_Harness2 Proofs_Harness3 Proofs_Harness4 Model_Experiment Spec_Experiment Proofs_Experiment Proofs_Experiment2 Proofs_Experiment3.
Import ListNotations.
Open Scope Z_scope.

Section Frame.
Context {M P : Type}.
Variables (c : settings M) (nt : training M) (dirs : files M -> str -> list str).

(* ---- a relation that holds between the files before and after ---- *)

Variable R : files M -> files M -> Prop.
Hypothesis R_refl : forall fs, R fs fs.
Hypothesis R_trans : forall a b d, R a b -> R b d -> R a d.
Hypothesis R_save : forall fs k z e m, R fs (dict_set fs (model_file c k z e) (Saved m)).
Hypothesis R_write : forall fs t name text, (t = dev_set c \/ test_set c = Some t) -> t_results t <> [] ->
  R fs (dict_set fs (based (t_results t) name) (Written text)).
Hypothesis R_dispose : forall fs d, delete_after c = true -> candidate_path d -> R fs (rmtree (path_join (model_dir c) d) fs).

Lemma R_dispose_list l : delete_after c = true -> Forall candidate_path l -> forall fs,
  R fs (fold_left (fun fs d => rmtree (path_join (model_dir c) d) fs) l fs).
Proof.
  intros D F. induction F as [|d l G F IH]; intros fs; cbn [fold_left]; auto. eapply R_trans; [apply R_dispose; eauto|apply IH].
Qed.

Lemma R_consider {X} p (x : X) sc s s' fs : consider (fields c) (compared c) p x sc s = Ok s' -> good_sel s -> candidate_path p ->
  good_sel s' /\ R fs (dispose c s s' fs).
Proof.
  intros C G K. destruct (consider_good c _ _ _ _ _ C G K) as (G1 & l & _ & FL & DI). split; auto. rewrite DI.
  case_eq (delete_after c); intros E; auto. apply R_dispose_list; auto.
Qed.

Lemma R_test t tagger name name' fs fs' r : (t = dev_set c \/ test_set c = Some t) -> path_join (t_results t) name = based (t_results t) name' ->
  test_tagger t tagger name fs = (fs', r) -> R fs fs'.
Proof.
  intros HT HN H. unfold test_tagger in H. destruct tagger as [path|]; [|injection H as <- _; auto].
  destruct (do m <- load path fs; t_predict t m) as [text|e]; [|injection H as <- _; auto]. injection H as <- _.
  destruct (t_results t) as [|x r0] eqn:E; auto. rewrite <- E in *. rewrite HN. apply R_write; auto. congruence.
Qed.

Lemma R_dev k z e tagger fs fs' r : test_tagger (dev_set c) tagger (dev_name (seed_path (params_name (Z.of_nat k)) z) (Z.of_nat e)) fs = (fs', r) -> R fs fs'.
Proof. intros H. rewrite seed_dir_path in H. eapply R_test; [left; reflexivity|apply dev_name_file|exact H]. Qed.

Lemma R_choose produce ready k z n : (forall seen fs fs1 p, produce seen fs = Ok (fs1, p) -> R fs fs1) -> forall seen s fs fs' o,
  choose c produce ready (params_name (Z.of_nat k)) z n seen s fs = (fs', o) -> good_sel s -> R fs fs'.
Proof.
  intros HP. induction n as [|n IH]; cbn [choose]; intros seen s fs fs' o H G; [injection H as <- _; auto|].
  destruct (produce seen fs) as [[fs1 tagger]|e] eqn:E; [|injection H as <- _; auto].
  destruct (test_tagger _ _ _ fs1) as [fs2 r] eqn:T. pose proof (R_trans _ _ _ (HP _ _ _ _ E) (R_dev _ _ _ _ _ _ _ T)) as R2.
  destruct (do sc <- r; _) as [[sc s1]|x] eqn:B in H; [|injection H as <- _; auto].
  apply bind_ok_iff in B. destruct B as (sc1 & -> & B). apply bind_ok_iff in B. destruct B as ([] & _ & B).
  apply bind_ok_iff in B. destruct B as ([] & _ & B). apply bind_ok_iff in B. destruct B as (s2 & CO & B). injection B as -> ->.
  destruct (R_consider _ _ _ _ _ fs2 CO G (epoch_candidate k z (length seen))) as [G1 R3].
  eapply R_trans; [exact R2|]. eapply R_trans; [exact R3|]. eapply IH; eauto.
Qed.

Lemma R_run t k j z fs fs' o : evaluate_run c nt dirs t k j (params_name (Z.of_nat k)) z fs = (fs', o) -> R fs fs'.
Proof.
  unfold evaluate_run. destruct (train_and_choose c nt dirs t k j (params_name (Z.of_nat k)) z fs) as [fs1 [s e]] eqn:T.
  intros H. injection H as <- _. unfold train_and_choose in T. destruct t.
  - injection T as <- _ _. auto.
  - destruct (set_up nt k j); [|injection T as <- _ _; auto]. eapply R_choose; [|exact T|exact I].
    intros seen fs0 fs2 p H. unfold train_next in H. apply bind_ok_iff in H. destruct H as (m & _ & H). injection H as <- _.
    rewrite save_file. apply R_save.
  - eapply R_choose; [|exact T|exact I]. intros seen fs0 fs2 p H. apply bind_ok_iff in H. destruct H as (q & _ & H). injection H as <- _. auto.
Qed.

Lemma R_runs t k zs : forall j fs fs' o, evaluate_runs c nt dirs t k j (params_name (Z.of_nat k)) zs fs = (fs', o) -> R fs fs'.
Proof.
  induction zs as [|z zs IH]; cbn [evaluate_runs]; intros j fs fs' o H; [injection H as <- _; auto|].
  destruct (evaluate_run c nt dirs t k j _ z fs) as [fs1 [d r]] eqn:E. pose proof (R_run _ _ _ _ _ _ _ E) as R1. cbn [fst snd] in H.
  destruct r; [|injection H as <- _; auto].
  destruct (evaluate_runs c nt dirs t k (S j) _ zs fs1) as [fs2 [d2 r2]] eqn:E2. injection H as <- _. eauto.
Qed.

Definition run_dir (m : option str * str) : Prop := exists k z, snd m = seed_dir k z.

Lemma run_named t k j z fs fs' d o : evaluate_run c nt dirs t k j (params_name (Z.of_nat k)) z fs = (fs', (d, Ok o)) -> run_dir (fst o).
Proof.
  unfold evaluate_run. destruct (train_and_choose c nt dirs t k j (params_name (Z.of_nat k)) z fs) as [fs1 [s e]].
  intros H. injection H as _ _ H. apply bind_ok_iff in H. destruct H as (u & _ & H). apply bind_ok_iff in H. destruct H as (v & _ & H).
  injection H as <-. exists k, z. cbn [fst snd]. apply seed_dir_path.
Qed.
Lemma runs_named t k zs : forall j fs fs' d xs, evaluate_runs c nt dirs t k j (params_name (Z.of_nat k)) zs fs = (fs', (d, Ok xs)) ->
  Forall (fun x => run_dir (fst x)) xs.
Proof.
  induction zs as [|z zs IH]; cbn [evaluate_runs]; intros j fs fs' d xs H; [injection H as _ _ <-; constructor|].
  destruct (evaluate_run c nt dirs t k j _ z fs) as [fs1 [d1 r]] eqn:E. cbn [fst snd] in H. destruct r as [x|]; [|discriminate].
  destruct (evaluate_runs c nt dirs t k (S j) _ zs fs1) as [fs2 [d2 r2]] eqn:E2. injection H as _ _ H.
  apply bind_ok_iff in H. destruct H as (ys & -> & H). injection H as <-. constructor; [eapply run_named; eauto|eauto].
Qed.

Lemma R_params t k fs fs' d r : evaluate_params c nt dirs t k (params_name (Z.of_nat k)) fs = (fs', (d, r)) ->
  R fs fs' /\ forall ms, r = Ok ms -> Forall run_dir (fst ms).
Proof.
  unfold evaluate_params. destruct (random_seed c) as [z|zs].
  - destruct (evaluate_run c nt dirs t k 0 _ z fs) as [fs1 [d1 r1]] eqn:E. intros H. injection H as <- <- <-.
    split; [eapply R_run; eauto|]. intros ms H. cbn [fst snd] in H. apply bind_ok_iff in H. destruct H as (x & -> & H). injection H as <-.
    cbn [fst]. constructor; [|constructor]. eapply run_named; eauto.
  - destruct (evaluate_runs c nt dirs t k 0 _ zs fs) as [fs1 [d1 r1]] eqn:E. intros H. injection H as <- <- <-.
    split; [eapply R_runs; eauto|]. intros ms H. cbn [fst snd] in H. apply bind_ok_iff in H. destruct H as (xs & -> & H).
    apply bind_ok_iff in H. destruct H as (avg & _ & H). apply bind_ok_iff in H. destruct H as (u & _ & H). injection H as <-. cbn [fst].
    apply runs_named in E. apply Forall_forall. intros m Im. apply in_map_iff in Im. destruct Im as (x & <- & Ix).
    rewrite Forall_forall in E. auto.
Qed.

Definition named_sel (s : selection (P * list (option str * str))) : Prop :=
  match sel_best s with None => True | Some (pm, _, _) => Forall run_dir (snd pm) end.

Lemma R_search t (hyper : list P) : forall k s fs fs' s' e, search_params c nt dirs t k hyper s fs = (fs', (s', e)) ->
  good_sel s -> named_sel s -> R fs fs' /\ named_sel s'.
Proof.
  induction hyper as [|p hyper IH]; cbn [search_params]; intros k s fs fs' s' e H G N; [injection H as <- <- _; auto|].
  destruct (evaluate_params c nt dirs t k _ fs) as [fs1 [d r]] eqn:E. cbn [fst snd] in H. destruct (R_params _ _ _ _ _ _ E) as [R1 NM].
  destruct (do ms <- r; _) as [s2|x] eqn:B in H; [|injection H as <- <- _; auto].
  apply bind_ok_iff in B. destruct B as (ms & -> & CO). specialize (NM _ eq_refl).
  destruct (R_consider _ _ _ _ _ fs1 CO G (params_candidate k)) as [G1 R2].
  assert (N2 : named_sel s2).
  { unfold consider in CO. apply bind_ok_iff in CO. destruct CO as (b & _ & CO). injection CO as <-. destruct b; [exact NM|exact N]. }
  destruct (IH _ _ _ _ _ _ H G1 N2) as [R3 N3]. split; auto. eapply R_trans; [exact R1|]. eapply R_trans; eauto.
Qed.

Lemma R_test_all t taggers : (t = dev_set c \/ test_set c = Some t) -> Forall run_dir taggers -> forall fs fs' r,
  test_all_of t taggers fs = (fs', r) -> R fs fs'.
Proof.
  intros HT F. induction F as [|[tg dir] taggers (k & z & E) F IH]; cbn [test_all_of]; intros fs fs' r H; [injection H as <- _; auto|].
  cbn [snd] in E. subst dir. destruct (test_tagger t tg _ fs) as [fs1 r1] eqn:T.
  pose proof (R_test _ _ _ _ _ _ _ HT (test_name_file t k z) T) as R1. destruct r1; [|injection H as <- _; auto].
  destruct (test_all_of t taggers fs1) as [fs2 rs] eqn:E. injection H as <- _. eauto.
Qed.

Lemma R_tagger_func t taggers fs fs' r : (t = dev_set c \/ test_set c = Some t) -> Forall run_dir taggers ->
  tagger_func c t taggers fs = (fs', r) -> R fs fs'.
Proof.
  intros HT F. unfold tagger_func. destruct (random_seed c).
  - destruct taggers as [|[tg dir] taggers]; [intros H; injection H as <- _; auto|]. inversion F as [|? ? (k & z & E) F']; subst. cbn [snd] in E. subst dir.
    intros H. eapply R_test; [exact HT|apply test_name_file|exact H].
  - destruct (test_all_of t taggers fs) as [fs1 rs] eqn:E. intros H. injection H as <- _. eapply R_test_all; eauto.
Qed.

(* up to the removal at the end *)
Lemma R_main name (hyper : list P) fs fs' r : main c nt dirs name hyper fs = (fs', r) ->
  exists fs2, R fs fs2 /\ fs' = match r with Ok _ => if delete_after c then rmtree (model_dir c) fs2 else fs2 | Err _ => fs2 end /\
    (delete_after c && is_filled (model_dir c) fs = true -> fs2 = fs /\ r = Err EValue).
Proof.
  unfold main. destruct (delete_after c && is_filled (model_dir c) fs) eqn:F.
  { intros H. injection H as <- <-. exists fs. auto. }
  destruct (get_trainer name) as [t|e].
  2:{ intros H. injection H as <- <-. exists fs. split; auto. split; auto. discriminate. }
  destruct (search_params c nt dirs t 0 hyper (mkSel None []) fs) as [fs1 [s e]] eqn:S. cbn [fst snd].
  destruct (R_search _ _ _ _ _ _ _ _ S I I) as [R1 N].
  destruct e as [e|]; [intros H; injection H as <- <-; exists fs1; split; [auto|split; [auto|discriminate]]|].
  destruct (print_metrics (printed c) (best_scores s)) as [u|e]; [|intros H; injection H as <- <-; exists fs1; split; [auto|split; [auto|discriminate]]].
  assert (T : forall fs2 tested,
    match test_set c with
    | None => (fs1, Ok None)
    | Some tt_ => match sel_best s with
        | None => (fs1, Err EType)
        | Some b => let (fs2, r) := tagger_func c tt_ (snd (fst (fst b))) fs1 in
                    (fs2, do sc <- r; do _ <- print_metrics (printed c) (Some sc); Ok (Some sc))
        end
    end = (fs2, tested) -> R fs1 fs2).
  { intros fs2 tested. case_eq (test_set c); [intros t0 TS|intros _ H; injection H as <- _; auto].
    unfold named_sel in N. destruct (sel_best s) as [[[pm sc] pa]|]; [|intros H; injection H as <- _; auto]. cbn [fst snd] in *.
    destruct (tagger_func c t0 (snd pm) fs1) as [fs3 r0] eqn:TF. intros H. injection H as <- _.
    refine (R_tagger_func _ _ _ _ _ _ N TF). auto. }
  destruct (match test_set c with Some _ => _ | None => _ end) as [fs2 tested]. specialize (T _ _ eq_refl).
  intros H. exists fs2. split; [eapply R_trans; eauto|]. destruct tested; injection H as <- <-; (split; [auto|discriminate]).
Qed.
End Frame.

Section Files.
Context {M P : Type}.
Variables (c : settings M) (nt : training M) (dirs : files M -> str -> list str).

Lemma is_filled_get d (fs : files M) : is_filled d fs = true <-> exists p, within d p /\ dict_get fs p <> None.
Proof.
  unfold is_filled. destruct d as [|x d].
  - split; [discriminate|]. intros (p & [N _] & _). congruence.
  - rewrite existsb_exists. split.
    + intros ((p & v) & I & T). exists p. split; [apply in_tree_within; [discriminate|exact T]|]. intros E. apply dict_get_None in E. apply E.
      apply (in_map fst) in I. exact I.
    + intros (p & W & G). destruct (dict_get fs p) as [v|] eqn:E; [|congruence]. exists (p, v). split; [apply dict_get_In; auto|].
      apply in_tree_within; [discriminate|auto].
Qed.

Lemma model_within k z e : model_dir c <> [] -> within (model_dir c) (model_file c k z e).
Proof. intros N. split; auto. right. eexists. reflexivity. Qed.

(* files outside of the directory of the models *)
Definition untouched (fs fs' : files M) : Prop :=
  forall p, ~ within (model_dir c) p -> ~ results_file c p -> dict_get fs' p = dict_get fs p.

Lemma main_untouched name (hyper : list P) fs fs' r : model_dir c <> [] -> main c nt dirs name hyper fs = (fs', r) ->
  exists fs2, untouched fs fs2 /\ fs' = match r with Ok _ => if delete_after c then rmtree (model_dir c) fs2 else fs2 | Err _ => fs2 end /\
    (delete_after c && is_filled (model_dir c) fs = true -> fs2 = fs /\ r = Err EValue).
Proof.
  intros N. apply R_main.
  - intros fs0 p _ _. auto.
  - intros a b d H1 H2 p W F. rewrite H2, H1; auto.
  - intros fs0 k z e m p W _. apply dict_get_set_other. intros E. apply W. rewrite <- E. apply model_within; auto.
  - intros fs0 t nm text HT HR p _ F. apply dict_get_set_other. intros E. apply F. exists t, nm. auto.
  - intros fs0 d _ G p W _. apply dispose_path; auto. intros B. apply W. eapply based_below; eauto.
Qed.

Lemma restored name (hyper : list P) fs fs' r : model_dir c <> [] -> delete_after c = true -> main c nt dirs name hyper fs = (fs', r) ->
  (forall p v, dict_get fs p = Some v -> ~ results_file c p -> dict_get fs' p = Some v) /\
  (forall rep, r = Ok rep -> (forall p, within (model_dir c) p -> dict_get fs' p = None) /\
     forall p, ~ results_file c p -> dict_get fs' p = dict_get fs p).
Proof.
  intros N D H. destruct (main_untouched _ _ _ _ _ N H) as (fs2 & U & -> & F). rewrite D in *. cbn [andb] in F.
  assert (DEC : forall p, within (model_dir c) p \/ ~ within (model_dir c) p).
  { intros p. destruct (in_tree (model_dir c) p) eqn:E; [left; apply in_tree_within; auto|right; intros W; apply in_tree_within in W; auto; congruence]. }
  split.
  - intros p v E NR. destruct (DEC p) as [W|W].
    + assert (IF : is_filled (model_dir c) fs = true) by (apply is_filled_get; exists p; split; auto; congruence).
      destruct (F IF) as [-> ->]. auto.
    + destruct r; [rewrite rmtree_within by auto|]; rewrite U; auto.
  - intros rep ->. split; [intros p W; apply rmtree_gone; auto|]. intros p NR. destruct (DEC p) as [W|W].
    + rewrite rmtree_gone by auto. destruct (dict_get fs p) as [v|] eqn:E; auto. exfalso.
      assert (IF : is_filled (model_dir c) fs = true) by (apply is_filled_get; exists p; split; auto; congruence).
      destruct (F IF) as [_ X]. discriminate.
    + rewrite rmtree_within by auto. apply U; auto.
Qed.

Lemma kept name (hyper : list P) fs fs' r : delete_after c = false -> main c nt dirs name hyper fs = (fs', r) ->
  (forall p, dict_get fs p <> None -> dict_get fs' p <> None) /\
  (forall p, ~ results_file c p -> (forall k z e, p <> model_file c k z e) -> dict_get fs' p = dict_get fs p).
Proof.
  intros D H.
  set (R := fun a b : files M => (forall p, dict_get a p <> None -> dict_get b p <> None) /\
    (forall p, ~ results_file c p -> (forall k z e, p <> model_file c k z e) -> dict_get b p = dict_get a p)).
  assert (SET : forall (a : files M) q v p, dict_get a p <> None -> dict_get (dict_set a q v) p <> None).
  { intros a q v p HN. destruct (list_eq_dec N.eq_dec q p) as [->|NE]; [rewrite dict_get_set_same; discriminate|rewrite dict_get_set_other; auto]. }
  assert (G : exists fs2, R fs fs2 /\ fs' = match r with Ok _ => if delete_after c then rmtree (model_dir c) fs2 else fs2 | Err _ => fs2 end /\
    (delete_after c && is_filled (model_dir c) fs = true -> fs2 = fs /\ r = Err EValue)).
  { refine (R_main c nt dirs R _ _ _ _ _ name hyper fs fs' r H).
    - intros a. split; auto.
    - intros a b d [A1 A2] [B1 B2]. split; auto. intros p N1 N2. rewrite B2, A2; auto.
    - intros a k z e m. split; [intros p; apply SET|]. intros p _ N2. apply dict_get_set_other. intros E. apply (N2 k z e). auto.
    - intros a t nm text HT HR. split; [intros p; apply SET|]. intros p N1 _. apply dict_get_set_other. intros E. apply N1. exists t, nm. auto.
    - congruence. }
  destruct G as (fs2 & [G1 G2] & -> & _). rewrite D. destruct r; auto.
Qed.

(* ---- methods that cannot be evaluated ---- *)

Lemma stub_run k j dir z fs : exists d e, evaluate_run c nt dirs Stub k j dir z fs = (fs, (d, Err e)).
Proof. unfold evaluate_run, train_and_choose. do 2 eexists. reflexivity. Qed.

Lemma params_err t k dir fs : runs_of (random_seed c) <> [] ->
  (forall j z, exists d e, evaluate_run c nt dirs t k j dir z fs = (fs, (d, Err e))) ->
  exists d e, evaluate_params c nt dirs t k dir fs = (fs, (d, Err e)).
Proof.
  intros N H. unfold evaluate_params. destruct (random_seed c) as [z|[|z zs]]; cbn [runs_of] in N; [|congruence|].
  - destruct (H 0%nat z) as (d & e & ->). do 2 eexists. reflexivity.
  - cbn [evaluate_runs]. destruct (H 0%nat z) as (d & e & ->). do 2 eexists. reflexivity.
Qed.

Lemma main_err name t (hyper : list P) fs : get_trainer name = Ok t -> hyper <> [] ->
  (delete_after c && is_filled (model_dir c) fs = false -> exists d e, evaluate_params c nt dirs t 0 (params_name 0) fs = (fs, (d, Err e))) ->
  exists e, main c nt dirs name hyper fs = (fs, Err e).
Proof.
  intros T NH H. unfold main. destruct (delete_after c && is_filled (model_dir c) fs); [eauto|]. rewrite T. destruct hyper as [|p hyper]; [congruence|].
  cbn [search_params]. change (Z.of_nat 0) with 0. destruct (H eq_refl) as (d & e & ->). cbn [fst snd bind]. eauto.
Qed.

Lemma stub_errs (hyper : list P) fs : hyper <> [] -> runs_of (random_seed c) <> [] ->
  exists e, main c nt dirs (of_string "stub") hyper fs = (fs, Err e).
Proof.
  intros NH NS. apply (main_err _ Stub); auto. intros _. apply params_err; auto. intros j z. apply stub_run.
Qed.

Lemma pretrained_errs (hyper : list P) fs : hyper <> [] -> runs_of (random_seed c) <> [] -> printed c <> [] ->
  delete_after c = true -> model_dir c <> [] ->
  (forall fs d, (forall p, within d p -> dict_get fs p = None) -> dirs fs d = []) ->
  exists e, main c nt dirs (of_string "neural_pretrained") hyper fs = (fs, Err e).
Proof.
  intros NH NS NP D NM HD. apply (main_err _ Pretrained); auto. intros F. rewrite D in F. cbn [andb] in F. apply params_err; auto. intros j z.
  unfold evaluate_run, train_and_choose. rewrite HD.
  - cbn [length choose]. unfold best_scores. cbn [sel_best bind option_map]. destruct (printed c) as [|m ms] eqn:EP; [congruence|]. cbn. eauto.
  - intros p W. destruct (dict_get fs p) as [v|] eqn:E; auto. exfalso. assert (IF : is_filled (model_dir c) fs = true); [|congruence].
    apply is_filled_get. exists p. split; [|congruence]. 
    change (params_name 0) with (params_name (Z.of_nat 0)) in W. rewrite seed_dir_path in W.
    assert (PL : path_join (model_dir c) (seed_dir 0 z) = based (model_dir c) (seed_dir 0 z)).
    { apply path_join_plain. unfold seed_dir. intros d. split; [unfold params_dir; discriminate|]. rewrite app_assoc. intros X.
      destruct (exists_last (print_Z_nonnil z)) as (s' & x & EX). rewrite EX in X. rewrite app_assoc in X. apply app_last in X.
      apply (print_slashless z). rewrite EX, X. apply in_app_iff. right. left. reflexivity. }
    rewrite PL in W. destruct W as [_ [->|(r & ->)]]; split; auto; right; [eexists; reflexivity|].
    exists (seed_dir 0 z ++ of_string "/" ++ r). destruct (based_prefix (model_dir c)) as (b & HB). rewrite !HB. unfold seed_dir.
    rewrite !app_assoc. rewrite based_end by (apply print_Z_nonnil || apply print_slashless). rewrite <- !app_assoc. reflexivity.
Qed.

Lemma unknown_errs name (hyper : list P) fs : name <> of_string "stub" -> name <> of_string "neural" -> name <> of_string "neural_pretrained" ->
  main c nt dirs name hyper fs = (fs, Err EValue) \/ main c nt dirs name hyper fs = (fs, Err ENotImpl).
Proof.
  intros N1 N2 N3. unfold main. destruct (delete_after c && is_filled (model_dir c) fs); [auto|]. right.
  unfold get_trainer. rewrite (str_eqb_neq _ _ N1), (str_eqb_neq _ _ N2), (str_eqb_neq _ _ N3). reflexivity.
Qed.
End Files.
