(* Vocabulary for statements about command lines. *)
From Coq Require Import String ZArith NArith Bool List.
From Verif Require Import Base Model_Cli.
Import ListNotations.
Open Scope Z_scope.

(* the three parsers *)
Definition ours (p : parser) : Prop := p = evaluation_parser \/ p = grid_parser \/ p = script_parser.

(* an argument that cannot be taken for an option *)
Definition plain_word (s : str) : Prop := s = [] \/ s = [chDASH] \/ exists c s', s = c :: s' /\ c <> chDASH.

(* n is an option with the action a, or two dashes and the beginning of one option only *)
Definition means (p : parser) (n : str) (a : action) : Prop :=
  In (n, a) (options p) \/
  (exists c rest, n = chDASH :: chDASH :: c :: rest) /\ ~ In n (map fst (options p)) /\
  exists name tail, In (name, a) (options p) /\ name = n ++ tail /\
    forall name' a' tail', In (name', a') (options p) -> name' = n ++ tail' -> name' = name.

(* what the user says: a value for an option, a switch, a positional argument *)
Inductive given := Value (d v : str) | Switched (d : str) | Place (v : str).

(* the ways to write it *)
Inductive written (p : parser) (files : dict str) : given -> list str -> Prop :=
| in_place v : plain_word v -> written p files (Place v) [v]
| switch n d : means p n (Switch d) -> written p files (Switched d) [n]
| separate n d v : means p n (Store d) -> plain_word v -> written p files (Value d v) [n; v]
| joined n d v : means p n (Store d) -> written p files (Value d v) [n ++ [chEQ] ++ v]
| file_separate n d v : means p n (StoreFile d) -> plain_word v -> v <> [chDASH] -> dict_get files v <> None -> written p files (Value d v) [n; v]
| file_joined n d v : means p n (StoreFile d) -> v <> [chDASH] -> dict_get files v <> None -> written p files (Value d v) [n ++ [chEQ] ++ v]
| file_short c d v : In ([chDASH; c], StoreFile d) (options p) -> v <> [] -> v <> [chDASH] -> hd 0%N v <> chEQ -> dict_get files v <> None ->
    written p files (Value d v) [chDASH :: c :: v].

(* the same with switches given by letters in one argument, alone, before a value or before an option whose value follows *)
Inductive says (p : parser) (files : dict str) : list given -> list str -> Prop :=
| says_one g chunk : written p files g chunk -> says p files [g] chunk
| says_switches cs ds : (2 <= length cs)%nat -> Forall2 (fun c d => In ([chDASH; c], Switch d) (options p)) cs ds ->
    says p files (map Switched ds) [chDASH :: cs]
| says_value cs ds c d v : cs <> [] -> Forall2 (fun c d => In ([chDASH; c], Switch d) (options p)) cs ds ->
    In ([chDASH; c], StoreFile d) (options p) -> v <> [] -> v <> [chDASH] -> hd 0%N v <> chEQ -> dict_get files v <> None ->
    says p files (map Switched ds ++ [Value d v]) [chDASH :: cs ++ c :: v]
| says_next cs ds c d v : cs <> [] -> Forall2 (fun c d => In ([chDASH; c], Switch d) (options p)) cs ds ->
    In ([chDASH; c], StoreFile d) (options p) -> plain_word v -> v <> [chDASH] -> dict_get files v <> None ->
    says p files (map Switched ds ++ [Value d v]) [chDASH :: cs ++ [c]; v].

(* what it comes to *)
Fixpoint places_of (gs : list given) : list str :=
  match gs with [] => [] | Place v :: gs' => v :: places_of gs' | _ :: gs' => places_of gs' end.
(* the last value of an option *)
Fixpoint value_of (d : str) (gs : list given) : option str :=
  match gs with
  | [] => None
  | Value d' v :: gs' => match value_of d gs' with Some w => Some w | None => if str_eqb d' d then Some v else None end
  | _ :: gs' => value_of d gs'
  end.
Fixpoint times (d : str) (gs : list given) : nat :=
  match gs with [] => 0 | Switched d' :: gs' => (if str_eqb d' d then 1 else 0) + times d gs' | _ :: gs' => times d gs' end%nat.

(* the namespace holds exactly that *)
Definition holds (gs : list given) (ns : namespace) : Prop :=
  places ns = places_of gs /\ (forall d, dict_get (stored ns) d = value_of d gs) /\
  forall d, dict_get (switched ns) d = match times d gs with O => None | n => Some n end.

(* the value of no option is given twice *)
Definition once (gs : list given) : Prop := forall d v w, In (Value d v) gs -> In (Value d w) gs -> v = w.

(* at most one option begins with n *)
Definition one_option (p : parser) (n : str) : Prop :=
  forall name1 a1 tail1 name2 a2 tail2, In (name1, a1) (options p) -> In (name2, a2) (options p) -> name1 = n ++ tail1 -> name2 = n ++ tail2 -> name1 = name2.

(* letters of short options, the last one possibly with its value *)
Inductive letters (p : parser) : str -> Prop :=
| last_letter c a : In ([chDASH; c], a) (options p) -> letters p [c]
| letter_value c a v : In ([chDASH; c], a) (options p) -> takes_value a = true -> letters p (c :: v)
| letter c a cs : In ([chDASH; c], a) (options p) -> takes_value a = false -> letters p cs -> letters p (c :: cs).

(* a word that is an option of the parser, a dash and letters of short options, an abbreviation, or an option or abbreviation with `=` and a value *)
Definition an_option (p : parser) (w : str) : Prop :=
  exists name a, In (name, a) (options p) /\
    (w = name \/ (exists cs, w = chDASH :: cs /\ letters p cs) \/ (one_option p w /\ exists tail, name = w ++ tail) \/
     exists start tail v, w = start ++ [chEQ] ++ v /\ name = start ++ tail /\ takes_value a = true /\ (tail = [] \/ one_option p start)).

(* it looks like an option *)
Definition dashed (w : str) : Prop := (exists c rest, w = chDASH :: c :: rest /\ is_ascii_digit c = false /\ c <> 46%N) /\ ~ In 32%N w.
