(* Model of the command lines: _build_parser and _parse_arguments of babylondigger/evaluation/evaluation.py:335-352, the arguments of
   babylondigger/evaluation/grid_eval.py:19-25 and of babylondigger/evaluation/conll17_ud_eval.py:478-494.
   Definitions only.  The arguments are given to argparse, whose parse_args (python 3.11.10) is modelled for parsers with options of one value,
   options without value and positional arguments.

   Simplifications: command lines with the argument `--` and `-` as a file of weights give Unmodelled.  Digits are ASCII digits.  Messages
   are left out.  json.load is any function of the text; files are given by name, with their text. *)
From Coq Require Import String Ascii ZArith NArith QArith Bool List.
From Verif Require Import Base Model_UDEval Model_Script.
Import ListNotations.
Open Scope Z_scope.

Definition chDASH : char := 45%N.
Definition chEQ : char := 61%N.

(* what add_argument says of an option: action='store', the same with type=argparse.FileType('r'), 'store_true' or 'count', and the
   option -h that every parser has *)
Inductive action := Store (dest : str) | StoreFile (dest : str) | Switch (dest : str) | Help.

(* the option strings with their actions, and the number of positional arguments *)
Record parser := mkParser { options : dict action; positionals : nat }.

(* _build_parser, evaluation.py:335-343 *)
Definition evaluation_parser : parser :=
  mkParser [(of_string "-h", Help); (of_string "--help", Help); (of_string "--settings", Store (of_string "settings"));
            (of_string "--method", Store (of_string "method")); (of_string "--hyperparams", Store (of_string "hypers"));
            (of_string "--delete_after", Switch (of_string "delete_after"))] 0.
(* grid_eval.py:20-21 *)
Definition grid_parser : parser :=
  mkParser (options evaluation_parser ++ [(of_string "--grid", Store (of_string "grid"))]) 0.
(* conll17_ud_eval.py:480-490 *)
Definition script_parser : parser :=
  mkParser [(of_string "-h", Help); (of_string "--help", Help); (of_string "--weights", StoreFile (of_string "weights"));
            (of_string "-w", StoreFile (of_string "weights")); (of_string "--verbose", Switch (of_string "verbose"));
            (of_string "-v", Switch (of_string "verbose"))] 2.

(* the namespace: values that are stored, how often switches were given, positional arguments *)
Record namespace := mkNS { stored : dict str; switched : dict nat; places : list str }.

(* what a program does with its command line: it goes on, ends with a usage message, with the help, or with an exception *)
Inductive started (A : Type) := Started (a : A) | Usage | Helped | Failed (e : exn) | Unmodelled.
Arguments Started {A} _.
Arguments Usage {A}.
Arguments Helped {A}.
Arguments Failed {A} _.
Arguments Unmodelled {A}.

Definition is_ascii_digit (c : char) : bool := ((48 <=? c) && (c <=? 57))%N.

(* _negative_number_matcher: '^-\d+$|^-\d*\.\d+$' *)
Definition negative_number (s : str) : bool :=
  match s with
  | c :: s' =>
      N.eqb c chDASH &&
      match drop_while is_ascii_digit s' with
      | [] => match s' with [] => false | _ => true end
      | d :: rest => N.eqb d 46%N && match rest with [] => false | _ => forallb is_ascii_digit rest end
      end
  | [] => false
  end.

(* s.split('=', 1) if there is a '=' *)
Fixpoint split_eq (s : str) : option (str * str) :=
  match s with
  | [] => None
  | c :: s' => if N.eqb c chEQ then Some ([], s') else match split_eq s' with Some (a, b) => Some (c :: a, b) | None => None end
  end.

(* an argument: a value, an option with its string and the value written in the same argument, behind `=` or not, an unknown option, or
   an abbreviation of several options *)
Inductive arg_class := Plain | Known (a : action) (name : str) (eq : bool) (explicit : option str) | Unknown | Ambiguous.

(* _get_option_tuples *)
Definition candidates (p : parser) (s : str) : list (action * str * bool * option str) :=
  match s with
  | c :: d :: rest =>
      if N.eqb d chDASH then
        let (prefix, explicit) := match split_eq s with Some (a, b) => (a, Some b) | None => (s, None) end in
        flat_map (fun o => if startswith (fst o) prefix then [(snd o, fst o, true, explicit)] else []) (options p)
      else
        flat_map (fun o => if str_eqb (fst o) [c; d] then [(snd o, fst o, false, Some rest)]
                           else if startswith (fst o) s then [(snd o, fst o, false, None)] else []) (options p)
  | _ => []
  end.

(* _parse_optional, after the options known exactly *)
Definition classify_rest (p : parser) (s : str) : arg_class :=
  match candidates p s with
  | [(a, name, eq, explicit)] => Known a name eq explicit
  | _ :: _ => Ambiguous
  | [] => if negative_number s then Plain else if mem_char 32%N s then Plain else Unknown
  end.

(* _parse_optional *)
Definition classify (p : parser) (s : str) : arg_class :=
  match s with
  | [] => Plain
  | c :: s' =>
      if negb (N.eqb c chDASH) then Plain
      else
        match dict_get (options p) s with
        | Some a => Known a s false None
        | None =>
            match s' with
            | [] => Plain
            | _ =>
                match split_eq s with
                | Some (name, v) => match dict_get (options p) name with Some a => Known a name true (Some v) | None => classify_rest p s end
                | None => classify_rest p s
                end
            end
        end
  end.

Definition takes_value (a : action) : bool := match a with Store _ | StoreFile _ => true | Switch _ | Help => false end.

(* the actions of one argument: those without value, and one with its value or with the next argument; or some without value and a rest
   that is not recognized *)
Inductive step := Bad | Leftover (plain : list action) | Run (plain : list action) (last : option (action * option str)).

(* consume_optional for a value written in the same argument: short options without value may be followed by others *)
Fixpoint cluster (p : parser) (done : list action) (short eq : bool) (a : action) (explicit : str) : step :=
  if takes_value a then Run done (Some (a, Some explicit))
  else
    match explicit with
    | [] => Bad
    | c :: rest =>
        if negb short || eq || N.eqb c chDASH then Bad
        else
          match dict_get (options p) [chDASH; c] with
          | None => Leftover (done ++ [a])
          | Some a' =>
              match rest with
              | [] => if takes_value a' then Run (done ++ [a]) (Some (a', None)) else Run (done ++ [a; a']) None
              | d :: rest' => if N.eqb d chEQ then cluster p (done ++ [a]) true true a' rest' else cluster p (done ++ [a]) true false a' rest
              end
          end
    end.

Definition is_short (name : str) : bool := match name with _ :: d :: _ => negb (N.eqb d chDASH) | _ => false end.

Definition consume (p : parser) (a : action) (name : str) (eq : bool) (explicit : option str) : step :=
  match explicit with
  | Some v => cluster p [] (is_short name) eq a v
  | None => if takes_value a then Run [] (Some (a, None)) else Run [a] None
  end.

(* take_action; a file that cannot be opened is an ArgumentTypeError, hence a usage message *)
Definition perform (files : dict str) (a : action) (v : str) (ns : namespace) : started namespace :=
  match a with
  | Store d => Started (mkNS (dict_set (stored ns) d v) (switched ns) (places ns))
  | StoreFile d =>
      if str_eqb v (of_string "-") then Unmodelled
      else if dict_mem files v then Started (mkNS (dict_set (stored ns) d v) (switched ns) (places ns)) else Usage
  | Switch d =>
      Started (mkNS (stored ns) (dict_set (switched ns) d (S (match dict_get (switched ns) d with Some n => n | None => 0 end))) (places ns))
  | Help => Helped
  end.
Fixpoint perform_all (files : dict str) (l : list action) (ns : namespace) : started namespace :=
  match l with
  | [] => Started ns
  | a :: l' => match perform files a [] ns with Started ns' => perform_all files l' ns' | o => o end
  end.

(* the loop of _parse_known_args and the check of parse_args; extra tells that an argument was not recognized *)
Fixpoint scan (p : parser) (files : dict str) (args : list str) (ns : namespace) (extra : bool) : started namespace :=
  match args with
  | [] => if extra || (length (places ns) <? positionals p)%nat then Usage else Started ns
  | s :: rest =>
      match classify p s with
      | Ambiguous => Usage
      | Unknown => scan p files rest ns true
      | Plain =>
          if (length (places ns) <? positionals p)%nat then scan p files rest (mkNS (stored ns) (switched ns) (places ns ++ [s])) extra
          else scan p files rest ns true
      | Known a name eq explicit =>
          match consume p a name eq explicit with
          | Bad => Usage
          | Leftover l => match perform_all files l ns with Started ns' => scan p files rest ns' true | o => o end
          | Run l None => match perform_all files l ns with Started ns' => scan p files rest ns' extra | o => o end
          | Run l (Some (a', Some v)) =>
              match perform_all files l ns with
              | Started ns' => match perform files a' v ns' with Started ns'' => scan p files rest ns'' extra | o => o end
              | o => o
              end
          | Run l (Some (a', None)) =>
              match rest with
              | v :: rest' =>
                  match classify p v with
                  | Plain =>
                      match perform_all files l ns with
                      | Started ns' => match perform files a' v ns' with Started ns'' => scan p files rest' ns'' extra | o => o end
                      | o => o
                      end
                  | _ => Usage
                  end
              | [] => Usage
              end
          end
      end
  end.

(* parser.parse_args() *)
Definition parse (p : parser) (files : dict str) (args : list str) : started namespace :=
  if existsb (fun s => str_eqb s [chDASH; chDASH]) args then Unmodelled
  else if existsb (fun s => match classify p s with Ambiguous => true | _ => false end) args then Usage
  else scan p files args (mkNS [] [] []) false.

Definition then_ {A B} (r : started A) (f : A -> started B) : started B :=
  match r with Started a => f a | Usage => Usage | Helped => Helped | Failed e => Failed e | Unmodelled => Unmodelled end.
Definition checked {A} (r : result A) : started A := match r with Ok a => Started a | Err e => Failed e end.

Section Json.
Context {J : Type}.
Variable parse_json : str -> result J.

(* open and json.load, evaluation.py:348-351, grid_eval.py:23-24; open(None) is a TypeError, FileNotFoundError is EExc *)
Definition load_json (files : dict str) (path : option str) : result J :=
  match path with
  | None => Err EType
  | Some name => do text <- of_option EExc (dict_get files name); parse_json text
  end.

Record arguments := mkArguments { a_settings : J; a_method : option str; a_hyperparams : J; a_delete_after : bool }.

(* _parse_arguments, evaluation.py:346-352 *)
Definition parse_arguments (p : parser) (files : dict str) (args : list str) : started arguments :=
  then_ (parse p files args) (fun ns => checked (
    do settings <- load_json files (dict_get (stored ns) (of_string "settings"));
    do hyperparams <- load_json files (dict_get (stored ns) (of_string "hypers"));
    Ok (mkArguments settings (dict_get (stored ns) (of_string "method")) hyperparams (dict_mem (switched ns) (of_string "delete_after"))))).

(* evaluation.py:355-356 *)
Definition evaluation_arguments (files : dict str) (args : list str) : started arguments := parse_arguments evaluation_parser files args.

(* __parse_arguments_with_grid, grid_eval.py:19-25 *)
Definition grid_arguments (files : dict str) (args : list str) : started (arguments * J) :=
  then_ (parse grid_parser files args) (fun ns =>
  then_ (checked (load_json files (dict_get (stored ns) (of_string "grid")))) (fun grid =>
  then_ (parse_arguments grid_parser files args) (fun a => Started (a, grid)))).

End Json.

(* conll17_ud_eval.py:478-516 *)
Definition script (parse_float : str -> result Q) (lower : str -> str) (fixed2 : Q -> str) (files : dict str) (args : list str) : started outcome :=
  then_ (parse script_parser files args) (fun ns =>
    match places ns with
    | [gold; system] =>
        Started (main parse_float lower fixed2 files
          (mkArgs gold system (dict_get (stored ns) (of_string "weights"))
                  (match dict_get (switched ns) (of_string "verbose") with Some n => n | None => 0%nat end)))
    | _ => Usage
    end).
