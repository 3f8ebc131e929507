(* Properties C134-C136: command lines. *)
From Coq Require Import String Ascii ZArith NArith QArith Bool List Permutation.
From Verif Require Import Base BaseFacts Model_UDEval Model_Script Model_Cli Spec_Cli Proofs_Cli Proofs_Cli2 Proofs_Cli3 Props_Datamodel Props_Conllu.
Import ListNotations.
Open Scope Z_scope.

(* ---- material for the concrete cases ---- *)

Definition words_ (l : list string) : list str := map of_string l.
Definition ex_cli_files : dict str := [(of_string "s.json", of_string "1"); (of_string "h.json", of_string "2"); (of_string "g.json", of_string "3")].
Definition show (r : started namespace) : option (list (str * str) * list (str * nat) * list str) :=
  match r with Started ns => Some (stored ns, switched ns, places ns) | _ => None end.

Ltac unique_option := intros ? ? ? I E; cbn in I; repeat (destruct I as [I | I]; [injection I as <- <-; try reflexivity; discriminate E|]); contradiction.
Ltac abbreviates name := right; split; [eexists _, _; reflexivity|]; split; [cbn; intuition discriminate|];
  exists (of_string name); eexists; split; [cbn; tauto|]; split; [reflexivity | unique_option].
Ltac plain := right; right; eexists _, _; split; [reflexivity | discriminate].

(* ------------------------------------------------------------------ *)

(* what is said in any of the notations is what the parsers understand *)
Theorem C134_understood : forall p files gss chunks,
  ours p -> Forall2 (says p files) gss chunks -> length (places_of (concat gss)) = positionals p ->
  exists ns, parse p files (concat chunks) = Started ns /\ holds (concat gss) ns.
Proof. exact understood. Qed.
Print Assumptions C134_understood.

Example C134_understood_case :
  Forall2 (says script_parser ex_cli_files)
    [[Place (of_string "gold")]; [Switched (of_string "verbose")]; [Value (of_string "weights") (of_string "s.json")]; [Place (of_string "sys")];
     [Switched (of_string "verbose")]; [Value (of_string "weights") (of_string "h.json")]]
    (map words_ [["gold"]; ["--verb"]; ["-ws.json"]; ["sys"]; ["-v"]; ["--weights=h.json"]]%string) /\
  show (parse script_parser ex_cli_files (words_ ["gold"; "--verb"; "-ws.json"; "sys"; "-v"; "--weights=h.json"]%string)) =
    Some ([(of_string "weights", of_string "h.json")], [(of_string "verbose", 2%nat)], words_ ["gold"; "sys"]%string) /\
  Forall2 (says script_parser ex_cli_files)
    [[Switched (of_string "verbose"); Switched (of_string "verbose"); Value (of_string "weights") (of_string "s.json")]; [Place (of_string "x")]; [Place (of_string "-")]]
    (map words_ [["-vvws.json"]; ["x"]; ["-"]]%string) /\
  show (parse script_parser ex_cli_files (words_ ["-vvws.json"; "-5"; "-"]%string)) =
    Some ([(of_string "weights", of_string "s.json")], [(of_string "verbose", 2%nat)], words_ ["-5"; "-"]%string) /\
  parse script_parser ex_cli_files (words_ ["a"; "b"; "-wno.json"]%string) = Usage /\
  parse script_parser ex_cli_files (words_ ["a"; "-v="; "b"]%string) = Usage.
Proof.
  split; [|split; [vm_compute; reflexivity|]; split; [|repeat match goal with |- _ /\ _ => split end; vm_compute; reflexivity]];
    repeat (apply Forall2_cons || apply Forall2_nil).
  - apply says_one, in_place. plain.
  - apply says_one, switch. abbreviates "--verbose"%string.
  - apply says_one. refine (file_short script_parser ex_cli_files 119%N _ (of_string "s.json") _ _ _ _ _); [cbn; tauto | discriminate | discriminate | discriminate | discriminate].
  - apply says_one, in_place. plain.
  - apply says_one, switch. left. cbn. tauto.
  - apply says_one. refine (file_joined script_parser ex_cli_files (of_string "--weights") _ (of_string "h.json") _ _ _); [left; cbn; tauto | discriminate | discriminate].
  - refine (says_value script_parser ex_cli_files (of_string "vv") [of_string "verbose"; of_string "verbose"] 119%N (of_string "weights") (of_string "s.json") _ _ _ _ _ _ _);
      try discriminate; [|cbn; tauto]. repeat constructor; cbn; tauto.
  - apply says_one, in_place. plain.
  - apply says_one, in_place. right. now left.
Qed.

(* hence the order does not matter, except of positional arguments and of values that are overwritten *)
Theorem C134_order : forall gs gs', Permutation gs gs' -> once gs -> places_of gs = places_of gs' ->
  forall ns ns', holds gs ns -> holds gs' ns' ->
  places ns = places ns' /\ (forall d, dict_get (stored ns) d = dict_get (stored ns') d) /\ (forall d, dict_get (switched ns) d = dict_get (switched ns') d).
Proof.
  intros gs gs' P O L ns ns' (A1 & A2 & A3) (B1 & B2 & B3). destruct (any_order gs gs' P O L) as [V T].
  split; [congruence|]. split; intro d; [rewrite A2, B2; apply V | rewrite A3, B3, T; reflexivity].
Qed.
Print Assumptions C134_order.

Example C134_order_case :
  let read l := match parse evaluation_parser [] (words_ l) with
                | Started ns => Some (dict_get (stored ns) (of_string "settings"), dict_get (stored ns) (of_string "hypers"), dict_get (switched ns) (of_string "delete_after"))
                | _ => None
                end in
  read ["--settings"; "a"; "--delete_after"; "--hyperparams"; "b"]%string = Some (Some (of_string "a"), Some (of_string "b"), Some 1%nat) /\
  read ["--hyperparams"; "b"; "--settings"; "a"; "--delete_after"]%string = Some (Some (of_string "a"), Some (of_string "b"), Some 1%nat) /\
  read ["--settings"; "a"; "--settings"; "b"]%string = Some (Some (of_string "b"), None, None).
Proof. cbv zeta. repeat match goal with |- _ /\ _ => split end; vm_compute; reflexivity. Qed.

(* the arguments that the evaluation gets *)
Theorem C134_evaluation : forall (J : Type) (parse_json : str -> result J) files gss chunks s h ts th js jh,
  Forall2 (says evaluation_parser files) gss chunks -> places_of (concat gss) = [] ->
  value_of (of_string "settings") (concat gss) = Some s -> value_of (of_string "hypers") (concat gss) = Some h ->
  dict_get files s = Some ts -> parse_json ts = Ok js -> dict_get files h = Some th -> parse_json th = Ok jh ->
  evaluation_arguments parse_json files (concat chunks) =
    Started (mkArguments js (value_of (of_string "method") (concat gss)) jh (negb (Nat.eqb (times (of_string "delete_after") (concat gss)) 0))).
Proof. intros. eapply arguments_read; eauto. Qed.
Print Assumptions C134_evaluation.

Example C134_evaluation_case :
  evaluation_arguments parse_int ex_cli_files (words_ ["--set"; "s.json"; "--hyp=h.json"; "--m"; "x"]%string) =
    Started (mkArguments 1 (Some (of_string "x")) 2 false) /\
  evaluation_arguments parse_int ex_cli_files (words_ ["--set"; "s.json"; "--hyp=h.json"; "--del"]%string) = Started (mkArguments 1 None 2 true) /\
  evaluation_arguments parse_int ex_cli_files (words_ ["--set"; "s.json"; "--h=h.json"]%string) = Usage /\
  evaluation_arguments parse_int ex_cli_files (words_ ["--settings"; "no.json"; "--hyp"; "h.json"]%string) = Failed EExc.
Proof. repeat match goal with |- _ /\ _ => split end; vm_compute; reflexivity. Qed.

(* and those of the grid *)
Theorem C134_grid : forall (J : Type) (parse_json : str -> result J) files gss chunks s h g ts th tg js jh jg,
  Forall2 (says grid_parser files) gss chunks -> places_of (concat gss) = [] ->
  value_of (of_string "settings") (concat gss) = Some s -> value_of (of_string "hypers") (concat gss) = Some h -> value_of (of_string "grid") (concat gss) = Some g ->
  dict_get files s = Some ts -> parse_json ts = Ok js -> dict_get files h = Some th -> parse_json th = Ok jh ->
  dict_get files g = Some tg -> parse_json tg = Ok jg ->
  grid_arguments parse_json files (concat chunks) =
    Started (mkArguments js (value_of (of_string "method") (concat gss)) jh (negb (Nat.eqb (times (of_string "delete_after") (concat gss)) 0)), jg).
Proof. intros. eapply grid_read; eauto. Qed.
Print Assumptions C134_grid.

Example C134_grid_case :
  grid_arguments parse_int ex_cli_files (words_ ["--g"; "g.json"; "--set"; "s.json"; "--hyp=h.json"; "--m=x y"]%string) =
    Started (mkArguments 1 (Some (of_string "x y")) 2 false, 3).
Proof. vm_compute. reflexivity. Qed.

(* the evaluation script *)
Theorem C134_script : forall parse_float lower fixed2 files gss chunks g s,
  Forall2 (says script_parser files) gss chunks -> places_of (concat gss) = [g; s] ->
  script parse_float lower fixed2 files (concat chunks) =
    Started (main parse_float lower fixed2 files (mkArgs g s (value_of (of_string "weights") (concat gss)) (times (of_string "verbose") (concat gss)))).
Proof. exact script_read. Qed.
Print Assumptions C134_script.

Example C134_script_case :
  let run files l := script (fun _ => Err EValue) (fun s => s) (fun _ => of_string "x") files (words_ l) in
  let files := [(of_string "a", ex_input); (of_string "w", of_string "")] in
  run files ["a"; "a"]%string = Started (Printed [of_string "LAS F1 Score: x"]) /\
  match run files ["a"; "-v"; "a"]%string with Started (Printed lines) => length lines = 13%nat | _ => False end /\
  match run files ["-ww"; "a"; "a"]%string with Started (Printed lines) => length lines = 14%nat | _ => False end /\
  run files ["a"]%string = Usage /\ run files ["a"; "a"; "a"]%string = Usage /\ run files ["a"; "-h"]%string = Helped.
Proof. cbv zeta. repeat match goal with |- _ /\ _ => split end; vm_compute; reflexivity. Qed.

(* the options by their names, for all values that do not begin with a dash *)
Theorem C134_names : forall (J : Type) (parse_json : str -> result J) parse_float lower fixed2 files s h m g w ts th tg tw js jh jg,
  plain_word s -> plain_word h -> plain_word m -> plain_word g -> plain_word w -> w <> [chDASH] ->
  dict_get files s = Some ts -> parse_json ts = Ok js -> dict_get files h = Some th -> parse_json th = Ok jh ->
  dict_get files g = Some tg -> parse_json tg = Ok jg -> dict_get files w = Some tw ->
  evaluation_arguments parse_json files [of_string "--settings"; s; of_string "--hyperparams"; h] = Started (mkArguments js None jh false) /\
  evaluation_arguments parse_json files [of_string "--settings"; s; of_string "--hyperparams"; h; of_string "--method"; m; of_string "--delete_after"] =
    Started (mkArguments js (Some m) jh true) /\
  grid_arguments parse_json files [of_string "--settings"; s; of_string "--hyperparams"; h; of_string "--method"; m; of_string "--grid"; g] =
    Started (mkArguments js (Some m) jh false, jg) /\
  script parse_float lower fixed2 files [s; h] = Started (main parse_float lower fixed2 files (mkArgs s h None 0)) /\
  script parse_float lower fixed2 files [of_string "--weights"; w; of_string "--verbose"; s; h] = Started (main parse_float lower fixed2 files (mkArgs s h (Some w) 1)) /\
  script parse_float lower fixed2 files [s; of_string "-v"; h; of_string "-w"; w] = Started (main parse_float lower fixed2 files (mkArgs s h (Some w) 1)).
Proof.
  intros * Ps Ph Pm Pg Pw Nw Fs Js Fh Jh Fg Jg Fw.
  assert (St : forall p n d v, In (of_string n, Store (of_string d)) (options p) -> plain_word v -> says p files [Value (of_string d) v] [of_string n; v]).
  { intros p n d v I H. apply says_one, separate; [now left | exact H]. }
  assert (Sf : forall n, In (of_string n, StoreFile (of_string "weights")) (options script_parser) -> says script_parser files [Value (of_string "weights") w] [of_string n; w]).
  { intros n I. apply says_one, file_separate; [now left | exact Pw | exact Nw | congruence]. }
  assert (Sw : forall p n d, In (of_string n, Switch (of_string d)) (options p) -> says p files [Switched (of_string d)] [of_string n]).
  { intros p n d I. apply says_one, switch. now left. }
  assert (Pl : forall v, plain_word v -> says script_parser files [Place v] [v]) by (intros v H; apply says_one, in_place, H).
  repeat match goal with |- _ /\ _ => split end.
  - refine (C134_evaluation J parse_json files [[Value (of_string "settings") s]; [Value (of_string "hypers") h]] [[of_string "--settings"; s]; [of_string "--hyperparams"; h]]
      s h ts th js jh _ eq_refl eq_refl eq_refl Fs Js Fh Jh). repeat (apply Forall2_cons || apply Forall2_nil); apply St; auto; cbn; tauto.
  - refine (C134_evaluation J parse_json files [[Value (of_string "settings") s]; [Value (of_string "hypers") h]; [Value (of_string "method") m]; [Switched (of_string "delete_after")]]
      [[of_string "--settings"; s]; [of_string "--hyperparams"; h]; [of_string "--method"; m]; [of_string "--delete_after"]]
      s h ts th js jh _ eq_refl eq_refl eq_refl Fs Js Fh Jh). repeat (apply Forall2_cons || apply Forall2_nil); (apply St || apply Sw); auto; cbn; tauto.
  - refine (C134_grid J parse_json files [[Value (of_string "settings") s]; [Value (of_string "hypers") h]; [Value (of_string "method") m]; [Value (of_string "grid") g]]
      [[of_string "--settings"; s]; [of_string "--hyperparams"; h]; [of_string "--method"; m]; [of_string "--grid"; g]]
      s h g ts th tg js jh jg _ eq_refl eq_refl eq_refl eq_refl Fs Js Fh Jh Fg Jg). repeat (apply Forall2_cons || apply Forall2_nil); apply St; auto; cbn; tauto.
  - refine (C134_script parse_float lower fixed2 files [[Place s]; [Place h]] [[s]; [h]] s h _ eq_refl). repeat (apply Forall2_cons || apply Forall2_nil); auto.
  - refine (C134_script parse_float lower fixed2 files [[Value (of_string "weights") w]; [Switched (of_string "verbose")]; [Place s]; [Place h]]
      [[of_string "--weights"; w]; [of_string "--verbose"]; [s]; [h]] s h _ eq_refl).
    repeat (apply Forall2_cons || apply Forall2_nil); auto; (apply Sf || apply Sw); cbn; tauto.
  - refine (C134_script parse_float lower fixed2 files [[Place s]; [Switched (of_string "verbose")]; [Place h]; [Value (of_string "weights") w]]
      [[s]; [of_string "-v"]; [h]; [of_string "-w"; w]] s h _ eq_refl).
    repeat (apply Forall2_cons || apply Forall2_nil); auto; (apply Sf || apply Sw); cbn; tauto.
Qed.
Print Assumptions C134_names.

Example C134_names_case :
  plain_word (of_string "s.json") /\ plain_word (of_string "-") /\ ~ plain_word (of_string "-5") /\
  evaluation_arguments parse_int ex_cli_files (words_ ["--settings"; "s.json"; "--hyperparams"; "h.json"; "--method"; "-"; "--delete_after"]%string) =
    Started (mkArguments 1 (Some (of_string "-")) 2 true).
Proof.
  split; [plain|]. split; [right; now left|]. split; [|vm_compute; reflexivity].
  intros [H | [H | (c & r & E & N)]]; try discriminate. injection E as <- _. now apply N.
Qed.

(* ------------------------------------------------------------------ *)

(* the options with files are not declared as required, so open gets None *)
Theorem C135_refused_refuted :
  ~ (forall (J : Type) (parse_json : str -> result J) files gss chunks,
       Forall2 (says evaluation_parser files) gss chunks -> places_of (concat gss) = [] -> value_of (of_string "settings") (concat gss) = None ->
       evaluation_arguments parse_json files (concat chunks) = Usage).
Proof. intro H. specialize (H Z parse_int [] [] [] (Forall2_nil _) eq_refl eq_refl). vm_compute in H. discriminate. Qed.
Print Assumptions C135_refused_refuted.

(* it is always a TypeError *)
Theorem C135_missing_partial : forall (J : Type) (parse_json : str -> result J) files gss chunks,
  Forall2 (says evaluation_parser files) gss chunks -> places_of (concat gss) = [] -> value_of (of_string "settings") (concat gss) = None ->
  evaluation_arguments parse_json files (concat chunks) = Failed EType.
Proof. intros. eapply missing_option; eauto. Qed.
Print Assumptions C135_missing_partial.

Example C135_missing_partial_case :
  evaluation_arguments parse_int ex_cli_files (words_ ["--hyperparams=h.json"]%string) = Failed EType /\
  Forall2 (says evaluation_parser ex_cli_files) [[Value (of_string "hypers") (of_string "h.json")]] [words_ ["--hyperparams=h.json"]%string].
Proof.
  split; [vm_compute; reflexivity|]. constructor; [|constructor]. apply says_one.
  refine (joined evaluation_parser ex_cli_files (of_string "--hyperparams") _ (of_string "h.json") _). left. cbn. tauto.
Qed.

(* nothing runs with an option that the parser does not have or that is abbreviated too much, or with positional arguments too many or
   too few *)
Theorem C135_unknown_partial : forall p files args ns,
  parse p files args = Started ns -> length (places ns) = positionals p /\ forall w, In w args -> dashed w -> an_option p w.
Proof. intros p files args ns E. split; [eapply accepted_places; eauto | intros; eapply accepted; eauto]. Qed.
Print Assumptions C135_unknown_partial.

Theorem C135_programs_partial : forall (J : Type) (parse_json : str -> result J) parse_float lower fixed2 files args w,
  In w args -> dashed w ->
  (~ an_option evaluation_parser w -> forall a, evaluation_arguments parse_json files args <> Started a) /\
  (~ an_option grid_parser w -> forall a, grid_arguments parse_json files args <> Started a) /\
  (~ an_option script_parser w -> forall o, script parse_float lower fixed2 files args <> Started o).
Proof.
  intros J parse_json parse_float lower fixed2 files args w I D. split; [|split]; intros N a E; apply N.
  - eapply accepted_arguments; eauto.
  - apply then_started in E. destruct E as (ns & E & _). eapply accepted; eauto.
  - eapply accepted_script; eauto.
Qed.
Print Assumptions C135_programs_partial.

(* they end with a usage message or with the help, not with an exception *)
Theorem C135_ends_partial : forall (J : Type) (parse_json : str -> result J) files args w,
  In w args -> dashed w -> ~ In [chDASH; chDASH] args ->
  (~ an_option evaluation_parser w -> evaluation_arguments parse_json files args = Usage \/ evaluation_arguments parse_json files args = Helped) /\
  (~ an_option grid_parser w -> grid_arguments parse_json files args = Usage \/ grid_arguments parse_json files args = Helped).
Proof. intros. now apply refused with (w := w). Qed.
Print Assumptions C135_ends_partial.

(* without --settings there would be an exception, but the unknown option is noticed before; the help is printed if it is asked for before *)
Example C135_ends_partial_case :
  evaluation_arguments parse_int ex_cli_files (words_ ["--grid=g.json"]%string) = Usage /\
  evaluation_arguments parse_int ex_cli_files (words_ ["--help"; "--grid=g.json"]%string) = Helped /\
  evaluation_arguments parse_int ex_cli_files (words_ ["--grid=g.json"; "-h"]%string) = Helped /\
  grid_arguments parse_int ex_cli_files (words_ ["--gridx"]%string) = Usage.
Proof. repeat split. Qed.

Example C135_programs_partial_case :
  dashed (of_string "--delete") /\ an_option evaluation_parser (of_string "--delete") /\
  dashed (of_string "--grid=g.json") /\ ~ an_option evaluation_parser (of_string "--grid=g.json") /\
  dashed (of_string "--h") /\ ~ an_option evaluation_parser (of_string "--h") /\
  dashed (of_string "-vx") /\ ~ an_option script_parser (of_string "-vx") /\
  dashed (of_string "--verbose=3") /\ ~ an_option script_parser (of_string "--verbose=3") /\
  parse script_parser ex_cli_files (words_ ["a"; "b"; "-vx"]%string) = Usage /\
  evaluation_arguments parse_int ex_cli_files (words_ ["--settings"; "s.json"; "--hyperparams"; "h.json"; "--grid=g.json"]%string) = Usage /\
  evaluation_arguments parse_int ex_cli_files (words_ ["--settings"; "--method"; "--hyperparams"; "h.json"]%string) = Usage.
Proof.
  assert (D : forall w c rest, w = chDASH :: c :: rest -> is_ascii_digit c = false -> c <> 46%N -> existsb (N.eqb 32) w = false -> dashed w).
  { intros w c rest -> H1 H2 H3. split; [eauto|]. intro I. enough (X : existsb (N.eqb 32) (chDASH :: c :: rest) = true) by congruence.
    apply existsb_exists. exists 32%N. split; [exact I | reflexivity]. }
  split; [eapply D; try reflexivity; discriminate|]. split.
  { exists (of_string "--delete_after"), (Switch (of_string "delete_after")). split; [cbn; tauto|]. right. right. left. split.
    - intros n1 a1 t1 n2 a2 t2 I1 I2 E1 E2. cbn in I1, I2.
      repeat (destruct I1 as [I1 | I1]; [injection I1 as <- <-; try discriminate E1|]); try contradiction;
      repeat (destruct I2 as [I2 | I2]; [injection I2 as <- <-; try discriminate E2; try reflexivity|]); contradiction.
    - exists (of_string "_after"). reflexivity. }
  split; [eapply D; try reflexivity; discriminate|]. split.
  { intros (n & a & I & H). cbn in I.
    assert (X : n = of_string "-h" \/ n = of_string "--help" \/ n = of_string "--settings" \/ n = of_string "--method" \/ n = of_string "--hyperparams" \/ n = of_string "--delete_after").
    { repeat (destruct I as [I | I]; [injection I as <- _; tauto|]). contradiction. }
    destruct H as [H | [(cs & E & Lt) | [(_ & t & E) | (st & t & v & E & En & _)]]].
    - subst n. intuition discriminate.
    - injection E as <-. inversion Lt as [? ? I' | ? ? ? I' | ? ? ? I']; subst; cbn in I'; intuition discriminate.
    - rewrite E in X. intuition discriminate.
    - assert (St : st = of_string "--grid").
      { destruct st as [|c1 [|c2 [|c3 [|c4 [|c5 [|c6 [|c7 st]]]]]]]; cbn in E; unfold chEQ in E; try discriminate E.
        - injection E as <- <- <- <- <- <-. reflexivity.
        - exfalso. injection E as <- <- <- <- <- <- <- E. subst n. cbn in X. intuition discriminate. }
      subst st n. cbn in X. intuition discriminate. }
  split; [eapply D; try reflexivity; discriminate|]. split.
  { intros (n & a & I & H).
    assert (U : one_option evaluation_parser (of_string "--h") -> False).
    { intro U. specialize (U (of_string "--help") Help (of_string "elp") (of_string "--hyperparams") (Store (of_string "hypers")) (of_string "yperparams")).
      assert (X : of_string "--help" = of_string "--hyperparams") by (apply U; try reflexivity; cbn; tauto). discriminate X. }
    destruct H as [H | [(cs & E & Lt) | [(H & _) | (st & t & v & E & _)]]].
    - subst n. cbn in I. intuition discriminate.
    - injection E as <-. inversion Lt as [? ? I' | ? ? ? I' | ? ? ? I']; subst; cbn in I'; intuition discriminate.
    - exact (U H).
    - destruct st as [|c1 [|c2 [|c3 [|c4 st]]]]; cbn in E; unfold chEQ in E; discriminate E. }
  split; [eapply D; try reflexivity; discriminate|]. split.
  { intros (n & a & I & H). destruct H as [H | [(cs & E & Lt) | [(_ & t & E) | (st & t & v & E & _)]]].
    - subst n. cbn in I. intuition discriminate.
    - injection E as <-. inversion Lt as [| ? ? ? I' T | ? ? ? I' T Lt']; subst.
      + cbn in I'. repeat (destruct I' as [I' | I']; [try discriminate I'; injection I' as <-; discriminate T|]). contradiction.
      + inversion Lt' as [? ? I2 | ? ? ? I2 | ? ? ? I2]; subst; cbn in I2; intuition discriminate.
    - subst n. cbn in I. intuition discriminate.
    - destruct st as [|c1 [|c2 [|c3 [|c4 st]]]]; cbn in E; unfold chEQ in E; discriminate E. }
  split; [eapply D; try reflexivity; discriminate|]. split; [|repeat match goal with |- _ /\ _ => split end; vm_compute; reflexivity].
  intros (n & a & I & H). destruct H as [H | [(cs & E & Lt) | [(_ & t & E) | (st & t & v & E & En & T & _)]]].
  - subst n. cbn in I. intuition discriminate.
  - injection E as <-. inversion Lt as [? ? I' | ? ? ? I' | ? ? ? I']; subst; cbn in I'; intuition discriminate.
  - subst n. cbn in I. intuition discriminate.
  - assert (St : exists r, st = of_string "--v" ++ r).
    { destruct st as [|c1 [|c2 [|c3 st]]]; cbn in E; unfold chEQ in E; try discriminate E. injection E as <- <- <- _. exists st. reflexivity. }
    destruct St as [r ->]. subst n. cbn in I. repeat (destruct I as [I | I]; [try discriminate I; injection I as _ <-; discriminate T|]). contradiction.
Qed.

(* ------------------------------------------------------------------ *)

(* an argument with a space is not taken for an unknown option, but for a known one *)
Theorem C136_same_refuted :
  ~ (forall files args ns, parse evaluation_parser files args = Started ns -> parse grid_parser files args = Started ns).
Proof.
  intro H. specialize (H [] (words_ ["--method"; "--grid=a b"]%string) (mkNS [(of_string "method", of_string "--grid=a b")] [] [])).
  specialize (H ltac:(vm_compute; reflexivity)). vm_compute in H. discriminate.
Qed.
Print Assumptions C136_same_refuted.

Theorem C136_same_partial : forall files args, (forall w rest, In w args -> w <> of_string "--g" ++ rest) ->
  parse grid_parser files args = parse evaluation_parser files args.
Proof. intros files args H. apply parse_grid. apply Forall_forall. intros w I r. now apply H. Qed.
Print Assumptions C136_same_partial.

Example C136_same_partial_case :
  show (parse grid_parser [] (words_ ["--settings"; "-g"]%string)) = None /\
  show (parse grid_parser [] (words_ ["--settings"; "g"; "--me=--grid"]%string)) =
    Some ([(of_string "settings", of_string "g"); (of_string "method", of_string "--grid")], [], []).
Proof. split; vm_compute; reflexivity. Qed.
