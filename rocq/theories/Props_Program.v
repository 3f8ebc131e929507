(* Property C137: what the programs leave, from the command line on.

   parse_json is json.load, the other parameters are as in Props_Search. *)
From Coq Require Import String Ascii ZArith NArith QArith Bool Lia List.
From Verif Require Import Base BaseFacts Model_Datamodel Model_UDEval Model_Harness Spec_Harness Model_Training Model_Grid Model_Experiment Spec_Experiment Model_Search Spec_Search Props_Search
  Model_Cli Spec_Cli Model_Program Proofs_Program.
Import ListNotations.
Open Scope Z_scope.

(* ---- material for the concrete cases ---- *)

Definition ex_json (text : str) : result parsed :=
  if str_eqb text (of_string "settings") then Ok (PDict (ex_settings None []))
  else if str_eqb text (of_string "hyper") then Ok (PDict (ex_hyper 0))
  else if str_eqb text (of_string "list") then Ok (PList [ex_hyper 1; ex_hyper 3])
  else if str_eqb text (of_string "grid") then Ok (PGrid ex_grid)
  else Err EValue.
Definition ex_disk : files Z :=
  map (fun s : string => (of_string s, Other (of_string s))) ["settings"; "hyper"; "list"; "grid"]%string ++ [(of_string "old", Saved 0)].
Definition ex_evaluation_program (l : list string) := evaluation_program ex_json ex_predict ex_score ex_data (fun z => z) ex_below 0 ex_learner ex_dirs (map of_string l) ex_disk.
Definition ex_grid_program (l : list string) := grid_program ex_json ex_predict ex_score ex_data (fun z => z) ex_below 0 ex_learner ex_dirs (map of_string l) ex_disk.
Definition ex_given : list (list given) :=
  [[Value (of_string "settings") (of_string "settings")]; [Value (of_string "hypers") (of_string "hyper")]; [Value (of_string "grid") (of_string "grid")];
   [Value (of_string "method") (of_string "neural")]].
Definition ex_line : list (list str) :=
  map (map of_string) [["--settings"; "settings"]; ["--hyperparams"; "hyper"]; ["--grid"; "grid"]; ["--method"; "neural"]]%string.

Lemma ex_says : Forall2 (says grid_parser (texts ex_disk)) ex_given ex_line.
Proof.
  assert (S : forall n d v, In (of_string n, Store (of_string d)) (options grid_parser) -> hd 0%N (of_string v) <> chDASH -> of_string v <> [] ->
    says grid_parser (texts ex_disk) [Value (of_string d) (of_string v)] [of_string n; of_string v]).
  { intros n d v I H1 H2. apply says_one, separate; [now left|]. right. right. destruct (of_string v) as [|c r]; [contradiction|]. exists c, r. auto. }
  unfold ex_given, ex_line. cbn [map]. repeat (apply Forall2_cons || apply Forall2_nil); apply S; try discriminate; cbn; tauto.
Qed.

(* ------------------------------------------------------------------ *)

(* In full: the models are deleted after the experiment exactly if --delete_after is given.

   grid_eval has the option, but grid_eval.py:70 always deletes. *)
Theorem C137_kept_refuted :
  ~ (forall (M R : Type) parse_json predict score data (seed_of : Z -> R) below clock (l : learner M) dirs gss chunks fs fs' x s d,
       Forall2 (says grid_parser (texts fs)) gss chunks -> places_of (concat gss) = [] -> times (of_string "delete_after") (concat gss) = 0%nat ->
       value_of (of_string "method") (concat gss) = Some (of_string "neural") -> (forall h v, l_epochs l h v <> 0%nat) ->
       grid_program parse_json predict score data seed_of below clock l dirs (concat chunks) fs = Started (fs', Ok x) ->
       load_json parse_json (texts fs) (value_of (of_string "settings") (concat gss)) = Ok (PDict s) -> at_keys ["model_dir"]%string s = Some (JLeaf (LStr d)) ->
       exists p m, within d p /\ dict_get fs' p = Some (Saved m)).
Proof.
  intro H.
  assert (E : exists fs' x, grid_program ex_json ex_predict ex_score ex_data (fun z => z) ex_below 0 ex_learner ex_dirs (concat ex_line) ex_disk = Started (fs', Ok x)).
  { do 2 eexists. vm_compute. reflexivity. }
  destruct E as (fs' & x & E).
  assert (J : load_json ex_json (texts ex_disk) (value_of (of_string "settings") (concat ex_given)) = Ok (PDict (ex_settings None []))) by (vm_compute; reflexivity).
  assert (D : at_keys ["model_dir"]%string (ex_settings None []) = Some (JLeaf (LStr (of_string "models")))) by (vm_compute; reflexivity).
  assert (L : forall h v, l_epochs ex_learner h v <> 0%nat) by (intros; discriminate).
  assert (P : places_of (concat ex_given) = []) by reflexivity.
  assert (T : times (of_string "delete_after") (concat ex_given) = 0%nat) by reflexivity.
  assert (Me : value_of (of_string "method") (concat ex_given) = Some (of_string "neural")) by reflexivity.
  assert (Ne : of_string "models" <> []) by discriminate.
  destruct (H Z Z ex_json ex_predict ex_score ex_data (fun z => z) ex_below 0 ex_learner ex_dirs ex_given ex_line ex_disk fs' x (ex_settings None []) (of_string "models")
    ex_says P T Me L E J D) as (p & m & W & G).
  destruct (grid_deleted ex_json ex_predict ex_score ex_data (fun z => z) ex_below 0 ex_learner ex_dirs ex_given ex_line ex_disk fs' x (ex_settings None []) (of_string "models")
    ex_says P E J D Ne) as [N _].
  rewrite (N p W) in G. discriminate.
Qed.
Print Assumptions C137_kept_refuted.

(* the option changes nothing in grid_eval: with the same values the programs end alike, whatever switches are given *)
Theorem C137_ignored_partial : forall (M R : Type) parse_json predict score data (seed_of : Z -> R) below clock (l : learner M) dirs gss chunks gss' chunks' fs,
  Forall2 (says grid_parser (texts fs)) gss chunks -> Forall2 (says grid_parser (texts fs)) gss' chunks' ->
  places_of (concat gss) = [] -> places_of (concat gss') = [] -> (forall d, value_of d (concat gss) = value_of d (concat gss')) ->
  grid_program parse_json predict score data seed_of below clock l dirs (concat chunks) fs =
  grid_program parse_json predict score data seed_of below clock l dirs (concat chunks') fs.
Proof. intros. eapply grid_values; eauto. Qed.
Print Assumptions C137_ignored_partial.

(* it always deletes *)
Theorem C137_grid_partial : forall (M R : Type) parse_json predict score data (seed_of : Z -> R) below clock (l : learner M) dirs gss chunks fs fs' x s d,
  Forall2 (says grid_parser (texts fs)) gss chunks -> places_of (concat gss) = [] ->
  grid_program parse_json predict score data seed_of below clock l dirs (concat chunks) fs = Started (fs', Ok x) ->
  load_json parse_json (texts fs) (value_of (of_string "settings") (concat gss)) = Ok (PDict s) -> at_keys ["model_dir"]%string s = Some (JLeaf (LStr d)) -> d <> [] ->
  (forall p, within d p -> dict_get fs' p = None) /\ forall p, no_result s p -> dict_get fs' p = dict_get fs p.
Proof. intros. eapply grid_deleted; eauto. Qed.
Print Assumptions C137_grid_partial.

(* evaluation: without the option nothing that was there is removed, even if the experiment ends with an error *)
Theorem C137_present_partial : forall (M R : Type) parse_json predict score data (seed_of : Z -> R) below clock (l : learner M) dirs gss chunks fs fs' r,
  Forall2 (says evaluation_parser (texts fs)) gss chunks -> places_of (concat gss) = [] -> times (of_string "delete_after") (concat gss) = 0%nat ->
  evaluation_program parse_json predict score data seed_of below clock l dirs (concat chunks) fs = Started (fs', r) ->
  forall p, dict_get fs p <> None -> dict_get fs' p <> None.
Proof. intros until p. eapply evaluation_kept; eauto. Qed.
Print Assumptions C137_present_partial.

(* with it the directory of models is left empty and other files but results are as before *)
Theorem C137_evaluation_partial : forall (M R : Type) parse_json predict score data (seed_of : Z -> R) below clock (l : learner M) dirs gss chunks fs fs' x s d,
  Forall2 (says evaluation_parser (texts fs)) gss chunks -> places_of (concat gss) = [] -> times (of_string "delete_after") (concat gss) <> 0%nat ->
  evaluation_program parse_json predict score data seed_of below clock l dirs (concat chunks) fs = Started (fs', Ok x) ->
  load_json parse_json (texts fs) (value_of (of_string "settings") (concat gss)) = Ok (PDict s) -> at_keys ["model_dir"]%string s = Some (JLeaf (LStr d)) -> d <> [] ->
  (forall p, within d p -> dict_get fs' p = None) /\ forall p, no_result s p -> dict_get fs' p = dict_get fs p.
Proof. intros. eapply evaluation_deleted; eauto. Qed.
Print Assumptions C137_evaluation_partial.

(* and the models of all epochs, seeds and hyperparameters that were trained are there *)
Theorem C137_models_partial : forall (M R : Type) parse_json predict score data (seed_of : Z -> R) below clock (l : learner M) dirs gss chunks fs fs' x s d zs z k e,
  Forall2 (says evaluation_parser (texts fs)) gss chunks -> places_of (concat gss) = [] ->
  times (of_string "delete_after") (concat gss) = 0%nat -> value_of (of_string "method") (concat gss) = Some (of_string "neural") ->
  evaluation_program parse_json predict score data seed_of below clock l dirs (concat chunks) fs = Started (fs', Ok x) ->
  load_json parse_json (texts fs) (value_of (of_string "settings") (concat gss)) = Ok (PDict s) -> at_keys ["model_dir"]%string s = Some (JLeaf (LStr d)) ->
  seeds_are s zs -> In z zs ->
  (k = 0%nat /\ (exists j, load_json parse_json (texts fs) (value_of (of_string "hypers") (concat gss)) = Ok (PDict j)) \/
   exists hs, load_json parse_json (texts fs) (value_of (of_string "hypers") (concat gss)) = Ok (PList hs) /\ (k < length hs)%nat) ->
  (forall h v, (e < l_epochs l h v)%nat) ->
  dict_get fs' (based d (epoch_dir (params_dir k) z e)) <> None.
Proof. intros. eapply evaluation_stays; eauto. Qed.
Print Assumptions C137_models_partial.

(* evaluation keeps the models of both sets of hyperparameters, or deletes them; grid_eval deletes them; a grid is needed *)
Example C137_evaluation_partial_case :
  let left o := match o with Started (fs, Ok _) => Some (map fst (filter (fun f => negb (dict_mem ex_disk (fst f))) fs)) | _ => None end in
  left (ex_evaluation_program ["--settings"; "settings"; "--hyperparams=list"; "--method"; "neural"]%string) =
    Some (map of_string ["models/params-0/1/epoch-0"; "out/params-0/1/epoch-0-dev.conll"; "models/params-1/1/epoch-0"; "out/params-1/1/epoch-0-dev.conll"]%string) /\
  left (ex_evaluation_program ["--settings"; "settings"; "--hyperparams=list"; "--delete"; "--method"; "neural"]%string) =
    Some (map of_string ["out/params-0/1/epoch-0-dev.conll"; "out/params-1/1/epoch-0-dev.conll"]%string) /\
  left (ex_grid_program ["--settings"; "settings"; "--hyperparams=hyper"; "--method"; "neural"; "--grid"; "grid"]%string) =
    Some (map of_string ["out/params-0/1/epoch-0-dev.conll"; "out/params-1/1/epoch-0-dev.conll"]%string) /\
  ex_grid_program ["--settings"; "settings"; "--hyperparams=hyper"; "--method"; "neural"]%string = Failed EType /\
  based (of_string "models") (epoch_dir (params_dir 1) 1 0) = of_string "models/params-1/1/epoch-0" /\
  ex_evaluation_program ["--settings"; "settings"; "--hyperparams=hyper"]%string = Started (ex_disk, Err ENotImpl).
Proof.
  cbv zeta. repeat match goal with |- _ /\ _ => split end; vm_compute; reflexivity.
Qed.
