(* Properties C95-C98: whole experiments. *)
From Coq Require Import String Ascii ZArith NArith QArith Bool Lia List.
From Verif Require Import Base BaseFacts Model_Datamodel Model_UDEval Model_Harness Spec_Harness Proofs_Harness Model_Experiment Spec_Experiment
  Proofs_Experiment Proofs_Experiment2 Proofs_Experiment3 Proofs_Experiment4 Proofs_Experiment5.
Import ListNotations.
Open Scope Z_scope.

(* one document of a single word with a tag *)
Definition ex_documents : list document :=
  [mkDoc (of_string "no") [mkToken 0 2 (Some (mkPos (Some (of_string "INTJ")) None [])) None None 0 None None None []] [mkSent 0 2]].
(* models are numbers; a model predicts its number, whose remainder is the score *)
Definition ex_table (q : Z) : table :=
  [(of_string "UPOS", mkScore (inject_Z q) (inject_Z q) (inject_Z q) (Some (inject_Z q)))].
Definition ex_tester (results : string) (n : Z) : tester Z :=
  mkTester (of_string results) (fun m => Ok (print_Z m)) (fun text => do z <- parse_int text; Ok (ex_table (Z.modulo z n))).
Definition ex_settings (dir : string) (delete : bool) (seeds : seeding Z) : settings Z :=
  mkSettings (of_string dir) delete [of_string "UPOS"] [of_string "UPOS"] AF1 seeds (Ok ex_documents)
             (ex_tester "out" 7) (Some (ex_tester "tests" 5)).
(* three epochs per run *)
Definition ex_training : training Z :=
  mkTraining (fun _ _ => Ok tt) (fun _ => 3%nat) (fun k j seen => Ok (100 * Z.of_nat k + 10 * Z.of_nat j + Z.of_nat (length seen)))
             (fun _ _ _ => Ok tt).
Definition ex_directories : files Z -> str -> list str := fun fs d =>
  map fst (filter (fun e => in_tree d (fst e)) fs).
Definition ex_before : files Z := [(of_string "notes", Other (of_string "mine"))].

(* ---------------- C95 ---------------- *)

(* In full: after an experiment without an error, the taggers tested are those of the best epochs, also when a seed is given twice.

   This is false when a seed is listed twice: the runs save their models under the same names. *)
Theorem C95_tested_is_best_refuted : exists (c : settings Z) (nt : training Z) dirs (hyper : list Z) fs fs' rep,
  main c nt dirs (of_string "neural") hyper fs = (fs', Ok rep) /\ delete_after c = false /\
  exists seed run0 run1 x0 x1 t text0 text1 sc0 sc1 avg other,
    length hyper = 1%nat /\ random_seed c = ManySeeds [seed; seed] /\
    trained c nt 0 0 run0 /\ chosen c run0 x0 /\ trained c nt 0 1 run1 /\ chosen c run1 x1 /\
    test_set c = Some t /\ scored t (ep_model x0) text0 sc0 /\ scored t (ep_model x1) text1 sc1 /\
    average_scores (printed c) [Some sc0; Some sc1] = Ok avg /\ r_test rep = Some other /\ other <> avg.
Proof.
  set (c := ex_settings "models" false (ManySeeds [4; 4])).
  set (nt := mkTraining (M := Z) (fun _ _ => Ok tt) (fun _ => 1%nat) (fun k j seen => Ok (Z.of_nat j)) (fun _ _ _ => Ok tt)).
  exists c, nt, ex_directories, [1], [].
  destruct (main c nt ex_directories (of_string "neural") [1] []) as [fs' r] eqn:E. vm_compute in E. injection E as <- <-.
  do 2 eexists. split; [reflexivity|]. split; [reflexivity|].
  assert (ONE : forall j, trained c nt 0 j [mkEpoch (Z.of_nat j) (print_Z (Z.of_nat j)) (ex_table (Z.modulo (Z.of_nat j) 7))]).
  { intros j. split; [reflexivity|]. split; [reflexivity|]. intros [|[|e]] x H; try discriminate. cbn in H. injection H as <-.
    split; [reflexivity|]. split; [|reflexivity]. split; [reflexivity|]. cbn [ep_scores ep_text]. unfold c. cbn [ex_settings dev_set t_score ex_tester].
    rewrite parse_print_Z. reflexivity. }
  assert (BEST : forall x, chosen c [x] x).
  { intros x. exists 0%nat. split; [reflexivity|]. intros qs F. inversion F as [|? q ? ? W F']; subst. inversion F'; subst. apply first_best_nil_snoc. }
  exists 4. do 2 eexists. do 9 eexists. split; [reflexivity|]. split; [reflexivity|]. split; [exact (ONE 0%nat)|]. split; [apply BEST|].
  split; [exact (ONE 1%nat)|]. split; [apply BEST|]. split; [reflexivity|].
  split; [split; vm_compute; reflexivity|]. split; [split; vm_compute; reflexivity|]. split; [vm_compute; reflexivity|].
  split; [reflexivity|]. vm_compute. discriminate.
Qed.
Print Assumptions C95_tested_is_best_refuted.

(* With different seeds it holds: every candidate was trained with every seed, the first best epoch of each run was chosen (if the scores
   can be compared), the winner is the first best candidate by (averaged) dev score, its hyperparameters and dev scores are reported, and
   the test score is that of the models of the chosen epochs, loaded again from their files. *)
Theorem C95_tested_is_best_partial : forall (P M : Type) (c : settings M) nt dirs (hyper : list P) fs fs' rep,
  hyper <> [] -> NoDup (runs_of (random_seed c)) ->
  (printed c <> [] \/ forall k, (k < length hyper)%nat -> epochs nt k <> 0%nat) ->
  main c nt dirs (of_string "neural") hyper fs = (fs', Ok rep) ->
  exists cands k w, length cands = length hyper /\ (forall i x, nth_error cands i = Some x -> evaluated c nt i x) /\
    nth_error cands k = Some w /\
    (forall qs, Forall2 (worth (fields c) (compared c)) (map c_scores cands) qs -> first_best qs k) /\
    r_params rep = nth_error hyper k /\ r_dev rep = Some (c_scores w) /\
    match test_set c with
    | None => r_test rep = None
    | Some t => exists scs sc, Forall2 (fun x sc => exists text, scored t (ep_model x) text sc) (c_best w) scs /\
                  summary c scs sc /\ r_test rep = Some sc
    end.
Proof.
  intros P M c nt dirs hyper fs fs' rep NH ND NE H.
  destruct (experiment c nt dirs hyper fs fs' rep NH ND NE H) as (cands & k & w & H1 & H2 & H3 & H4 & H5 & H6 & H7 & _).
  exists cands, k, w. auto 8.
Qed.
Print Assumptions C95_tested_is_best_partial.

(* two candidates, two seeds, models deleted as soon as they are not the best: models 0 1 2 and 10 11 12, then 100 101 102 and
   110 111 112; the best of their runs are 2 and 12 (scores 2 and 5), 102 and 111 (scores 4 and 6); 102 and 111 are tested *)
Example C95_case :
  exists fs' rep, main (ex_settings "models" true (ManySeeds [1; 2])) ex_training ex_directories (of_string "neural") [7; 8] ex_before = (fs', Ok rep) /\
    r_params rep = Some 8 /\
    option_map (map (fun e => Qred (s_f1 (snd e)))) (r_dev rep) = Some [5%Q] /\
    option_map (map (fun e => Qred (s_f1 (snd e)))) (r_test rep) = Some [(3 # 2)%Q] /\
    map fst fs' = map of_string
      ["notes"; "out/params-0/1/epoch-0-dev.conll"; "out/params-0/1/epoch-1-dev.conll"; "out/params-0/1/epoch-2-dev.conll";
       "out/params-0/2/epoch-0-dev.conll"; "out/params-0/2/epoch-1-dev.conll"; "out/params-0/2/epoch-2-dev.conll";
       "out/params-1/1/epoch-0-dev.conll"; "out/params-1/1/epoch-1-dev.conll"; "out/params-1/1/epoch-2-dev.conll";
       "out/params-1/2/epoch-0-dev.conll"; "out/params-1/2/epoch-1-dev.conll"; "out/params-1/2/epoch-2-dev.conll";
       "tests/params-1/1/best-test.conll"; "tests/params-1/2/best-test.conll"]%string.
Proof. do 2 eexists. split; [vm_compute; reflexivity|]. repeat (split; [vm_compute; reflexivity|]). vm_compute. reflexivity. Qed.

(* ---------------- C96 ---------------- *)

(* In full: with delete_after an experiment leaves nothing behind but predictions, and removes nothing that was there before.

   Both parts are false.  Without a directory for the models, the check that it is empty passes, the models are saved in the current
   directory, and with a candidate a directory that was there before is removed. *)
Theorem C96_foreign_files_refuted : exists (c : settings Z) nt dirs (hyper : list Z) fs fs' rep p v,
  main c nt dirs (of_string "neural") hyper fs = (fs', Ok rep) /\ delete_after c = true /\
  ~ results_file c p /\ dict_get fs p = Some v /\ dict_get fs' p = None.
Proof.
  exists (ex_settings "" true (OneSeed 1)), ex_training, ex_directories, [7; 8], [(of_string "params-0/thesis.tex", Other (of_string "mine"))].
  do 2 eexists. exists (of_string "params-0/thesis.tex"), (Other (of_string "mine")).
  split; [vm_compute; reflexivity|]. split; [reflexivity|]. split; [|split; [reflexivity|vm_compute; reflexivity]].
  intros (t & name & [->|E] & _ & H); [vm_compute in H; discriminate|]. injection E as <-. vm_compute in H. discriminate.
Qed.
Print Assumptions C96_foreign_files_refuted.

(* and when an epoch fails, the models saved before stay, so that the experiment cannot be started again *)
Theorem C96_left_behind_refuted : exists (c : settings Z) nt dirs (hyper : list Z) fs fs' e p,
  main c nt dirs (of_string "neural") hyper fs = (fs', Err e) /\ delete_after c = true /\ model_dir c <> [] /\
  ~ results_file c p /\ dict_get fs p = None /\ dict_get fs' p <> None /\
  main c nt dirs (of_string "neural") hyper fs' = (fs', Err EValue).
Proof.
  exists (ex_settings "models" true (OneSeed 1)),
    (mkTraining (fun _ _ => Ok tt) (fun _ => 3%nat) (fun k j seen => match seen with [_; _] => Err EExc | _ => Ok (Z.of_nat (length seen)) end) (fun _ _ _ => Ok tt)),
    ex_directories, [7], ex_before.
  do 2 eexists. exists (of_string "models/params-0/1/epoch-1"). split; [vm_compute; reflexivity|]. split; [reflexivity|]. split; [discriminate|].
  split; [|split; [reflexivity|split; [vm_compute; discriminate|vm_compute; reflexivity]]].
  intros (t & name & [->|E] & _ & H); [vm_compute in H; discriminate|]. injection E as <-. vm_compute in H. discriminate.
Qed.
Print Assumptions C96_left_behind_refuted.

(* What holds, with a directory for the models, for every method and outcome: no file that was there before is changed or removed, except
   where predictions are written; and without an error the files are what they were, apart from predictions outside of the directory. *)
Theorem C96_restored_partial : forall (P M : Type) (c : settings M) nt dirs name (hyper : list P) fs fs' r,
  model_dir c <> [] -> delete_after c = true -> main c nt dirs name hyper fs = (fs', r) ->
  (forall p v, dict_get fs p = Some v -> ~ results_file c p -> dict_get fs' p = Some v) /\
  (forall rep, r = Ok rep -> (forall p, within (model_dir c) p -> dict_get fs' p = None) /\
     forall p, ~ results_file c p -> dict_get fs' p = dict_get fs p).
Proof. intros. eapply restored; eauto. Qed.
Print Assumptions C96_restored_partial.

(* Without delete_after nothing is removed, and only models and predictions are written. *)
Theorem C96_kept : forall (P M : Type) (c : settings M) nt dirs name (hyper : list P) fs fs' r,
  delete_after c = false -> main c nt dirs name hyper fs = (fs', r) ->
  (forall p, dict_get fs p <> None -> dict_get fs' p <> None) /\
  (forall p, ~ results_file c p -> (forall k z e, p <> model_file c k z e) -> dict_get fs' p = dict_get fs p).
Proof. intros. eapply kept; eauto. Qed.
Print Assumptions C96_kept.

(* the models of all epochs are kept beside a file that was there *)
Example C96_case :
  exists fs' rep, main (ex_settings "models/" false (OneSeed 1)) ex_training ex_directories (of_string "neural") [7]
      (ex_before ++ [(of_string "models/old", Other [])]) = (fs', Ok rep) /\
    map fst (filter (fun e => in_tree (of_string "models/") (fst e)) fs') =
      map of_string ["models/old"; "models/params-0/1/epoch-0"; "models/params-0/1/epoch-1"; "models/params-0/1/epoch-2"]%string /\
    dict_get fs' (of_string "notes") = Some (Other (of_string "mine")).
Proof. do 2 eexists. split; [vm_compute; reflexivity|]. split; vm_compute; reflexivity. Qed.

(* ---------------- C97 ---------------- *)

(* In full: an experiment can be run with every method that get_trainer knows.

   It is false of the first method, for all settings: its trainer yields taggers instead of pairs. *)
Theorem C97_stub_refuted : forall (P M : Type) (c : settings M) nt dirs (hyper : list P) fs,
  hyper <> [] -> runs_of (random_seed c) <> [] -> exists e, main c nt dirs (of_string "stub") hyper fs = (fs, Err e).
Proof. intros. apply stub_errs; auto. Qed.
Print Assumptions C97_stub_refuted.

(* It is false of trained models if they are to be deleted: the directory they are read from has to be empty. *)
Theorem C97_pretrained_refuted : forall (P M : Type) (c : settings M) nt dirs (hyper : list P) fs,
  hyper <> [] -> runs_of (random_seed c) <> [] -> printed c <> [] -> delete_after c = true -> model_dir c <> [] ->
  (forall fs d, (forall p, within d p -> dict_get fs p = None) -> dirs fs d = []) ->
  exists e, main c nt dirs (of_string "neural_pretrained") hyper fs = (fs, Err e).
Proof. intros. apply pretrained_errs; auto. Qed.
Print Assumptions C97_pretrained_refuted.

(* What holds: an experiment that trains succeeds if the directory for the models is empty or they are not deleted, the seeds are
   different, every run trains at least one epoch, the trained models can be tested, and all scores can be printed, compared and averaged. *)
Theorem C97_neural_partial : forall (P M : Type) (c : settings M) nt dirs (hyper : list P) fs,
  hyper <> [] -> NoDup (runs_of (random_seed c)) -> runs_of (random_seed c) <> [] ->
  (delete_after c = true -> forall p, within (model_dir c) p -> dict_get fs p = None) ->
  (forall k j, (k < length hyper)%nat -> (j < length (runs_of (random_seed c)))%nat ->
     exists run, trained c nt k j run /\ run <> [] /\ Forall (fun x => comparable c (ep_scores x)) run) ->
  (forall t k j run x, test_set c = Some t -> trained c nt k j run -> In x run ->
     exists text sc, scored t (ep_model x) text sc /\ comparable c sc) ->
  exists fs' rep, main c nt dirs (of_string "neural") hyper fs = (fs', Ok rep).
Proof. intros. apply success; auto. Qed.
Print Assumptions C97_neural_partial.

(* Other names are refused and nothing is done. *)
Theorem C97_unknown : forall (P M : Type) (c : settings M) nt dirs name (hyper : list P) fs,
  name <> of_string "stub" -> name <> of_string "neural" -> name <> of_string "neural_pretrained" ->
  main c nt dirs name hyper fs = (fs, Err EValue) \/ main c nt dirs name hyper fs = (fs, Err ENotImpl).
Proof. intros. apply unknown_errs; auto. Qed.
Print Assumptions C97_unknown.

(* trained models can be tested when they are not deleted; the stub cannot; a name that is not there *)
Example C97_case :
  let saved := [(of_string "models/params-0/1/epoch-0", Saved 5); (of_string "models/params-0/1/epoch-1", Saved 13)] in
  (exists fs' rep, main (ex_settings "models" false (OneSeed 1)) ex_training ex_directories (of_string "neural_pretrained") [7] saved = (fs', Ok rep) /\
     option_map (map (fun e => s_f1 (snd e))) (r_dev rep) = Some [6%Q] /\ dict_get fs' (of_string "tests/params-0/1/best-test.conll") = Some (Written (of_string "13"))) /\
  main (ex_settings "models" true (OneSeed 1)) ex_training ex_directories (of_string "neural_pretrained") [7] saved = (saved, Err EValue) /\
  main (ex_settings "models" true (OneSeed 1)) ex_training ex_directories (of_string "neural_pretrained") [7] ex_before = (ex_before, Err EType) /\
  main (ex_settings "models" true (OneSeed 1)) ex_training ex_directories (of_string "stub") [7] ex_before = (ex_before, Err EType) /\
  main (ex_settings "models" true (OneSeed 1)) ex_training ex_directories (of_string "tdozat") [7] ex_before = (ex_before, Err ENotImpl).
Proof.
  split; [do 2 eexists; split; [vm_compute; reflexivity|]; split; vm_compute; reflexivity|].
  repeat (split; [vm_compute; reflexivity|]). vm_compute. reflexivity.
Qed.

(* ---------------- C98 ---------------- *)

(* After an experiment without an error, with different seeds and a directory for results that is not removed with the models, the
   predictions of every epoch of every run of every candidate are in a file of their own, and so are the test predictions of the best
   epochs of the winner. *)
Theorem C98_predictions : forall (P M : Type) (c : settings M) nt dirs (hyper : list P) fs fs' rep,
  hyper <> [] -> NoDup (runs_of (random_seed c)) ->
  (printed c <> [] \/ forall k, (k < length hyper)%nat -> epochs nt k <> 0%nat) ->
  main c nt dirs (of_string "neural") hyper fs = (fs', Ok rep) ->
  exists cands k w, length cands = length hyper /\ (forall i x, nth_error cands i = Some x -> evaluated c nt i x) /\
    nth_error cands k = Some w /\ r_params rep = nth_error hyper k /\
    (forall i x j z run e y, nth_error cands i = Some x -> nth_error (runs_of (random_seed c)) j = Some z ->
       nth_error (c_runs x) j = Some run -> nth_error run e = Some y -> t_results (dev_set c) <> [] -> elsewhere c (dev_set c) ->
       dict_get fs' (dev_file c i z e) = Some (Written (ep_text y))) /\
    (forall t j z y, test_set c = Some t -> nth_error (runs_of (random_seed c)) j = Some z -> nth_error (c_best w) j = Some y ->
       t_results t <> [] -> elsewhere c t ->
       exists text, t_predict t (ep_model y) = Ok text /\ dict_get fs' (test_file t k z) = Some (Written text)).
Proof.
  intros P M c nt dirs hyper fs fs' rep NH ND NE H.
  destruct (experiment c nt dirs hyper fs fs' rep NH ND NE H) as (cands & k & w & H1 & H2 & H3 & _ & H5 & _ & _ & H8 & H9).
  exists cands, k, w. auto 8.
Qed.
Print Assumptions C98_predictions.

Example C98_case :
  exists fs' rep, main (ex_settings "models" true (ManySeeds [1; 2])) ex_training ex_directories (of_string "neural") [7; 8] ex_before = (fs', Ok rep) /\
    dict_get fs' (of_string "out/params-0/2/epoch-1-dev.conll") = Some (Written (of_string "11")) /\
    dict_get fs' (of_string "tests/params-1/1/best-test.conll") = Some (Written (of_string "102")) /\
    elsewhere (ex_settings "models" true (ManySeeds [1; 2])) (ex_tester "out" 7).
Proof.
  do 2 eexists. split; [vm_compute; reflexivity|]. split; [vm_compute; reflexivity|]. split; [vm_compute; reflexivity|].
  right. split; [discriminate|]. intros name [_ [H|(r & H)]]; vm_compute in H; discriminate.
Qed.
