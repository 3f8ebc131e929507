(* Model of babylondigger/evaluation/grid_eval.py.  Definitions only.

   Dictionaries are objects: merging stores objects of the grid in the parameter sets.  Values that are no dictionaries are
   opaque; lists are never changed by this file. *)
From Coq Require Import String Ascii ZArith NArith Bool List.
From Verif Require Import Base.
Import ListNotations.
Open Scope Z_scope.

(* what json.load reads; keys of a dictionary are different *)
Inductive json (L : Type) := JLeaf (x : L) | JDict (d : list (str * json L)).
Arguments JLeaf {L}.
Arguments JDict {L}.

(* a value: opaque or the address of a dictionary *)
Inductive jval (L : Type) := VLeaf (x : L) | VRef (a : nat).
Arguments VLeaf {L}.
Arguments VRef {L}.
Definition jheap (L : Type) := list (dict (jval L)).

(* replaces an object *)
Fixpoint put {A} (l : list A) (i : nat) (x : A) : list A :=
  match l, i with
  | [], _ => []
  | _ :: l', O => x :: l'
  | y :: l', S i' => y :: put l' i' x
  end.

(* json.load: every dictionary is a new object *)
Fixpoint load {L} (j : json L) (h : jheap L) : jval L * jheap L :=
  match j with
  | JLeaf x => (VLeaf x, h)
  | JDict d =>
      let (d', h') := (fix go (d : list (str * json L)) (h : jheap L) : dict (jval L) * jheap L :=
                         match d with
                         | [] => ([], h)
                         | (k, j) :: d' =>
                             let (v, h1) := load j h in
                             let (r, h2) := go d' h1 in ((k, v) :: r, h2)
                         end) d h in
      (VRef (length h'), h' ++ [d'])
  end.

(* copy.deepcopy, grid_eval.py:31.  Simplification: an object that occurs twice would be copied once; the hyperparameters
   come from json.load, in which no object occurs twice.  The recursion follows the objects; a cyclic object would need
   more fuel. *)
Fixpoint deepcopy {L} (fuel : nat) (v : jval L) (h : jheap L) : result (jval L * jheap L) :=
  match v with
  | VLeaf x => Ok (VLeaf x, h)
  | VRef a =>
      match fuel with
      | O => Err EFuel
      | S fuel' =>
          do d <- of_option EKey (nth_error h a);
          do r <- foldM (fun s kv => do c <- deepcopy fuel' (snd kv) (snd s);
                                     Ok (fst s ++ [(fst kv, fst c)], snd c)) ([], h) d;
          Ok (VRef (length (snd r)), snd r ++ [fst r])
      end
  end.

(* __merge_dicts, grid_eval.py:7-16: both arguments are dictionaries.  The loop runs over the keys of the grid dictionary;
   keys are never added.  The first dictionary is changed and returned. *)
Fixpoint merge {L} (fuel : nat) (a g : nat) (h : jheap L) : result (jheap L) :=
  match fuel with
  | O => Err EFuel
  | S fuel' =>
      do gd0 <- of_option EKey (nth_error h g);
      foldM (fun h key =>
               do hd <- of_option EKey (nth_error h a);
               do gd <- of_option EKey (nth_error h g);
               do new <- of_option EKey (dict_get gd key);
               match dict_get hd key with
               | None => Err EValue
               | Some old =>
                   match old, new with
                   | VRef a', VRef g' => merge fuel' a' g' h
                   | _, _ => Ok (put h a (dict_set hd key new))
                   end
               end) h (dict_keys gd0)
  end.

(* __take_all_key_path, grid_eval.py:38-45: only the first key counts; None for an empty dictionary *)
Fixpoint key_path {L} (j : json L) : option (list str) :=
  match j with
  | JDict ((key, v) :: _) =>
      match v with
      | JDict _ => option_map (cons key) (key_path v)
      | JLeaf _ => Some [key]
      end
  | _ => None
  end.

Definition path_eqb (p q : option (list str)) : bool :=
  match p, q with
  | None, None => true
  | Some p, Some q => list_eqb str_eqb p q
  | _, _ => false
  end.

Definition set_add (p : option (list str)) (s : list (option (list str))) : list (option (list str)) :=
  if existsb (path_eqb p) s then s else s ++ [p].

(* __check_is_grid_valid, grid_eval.py:48-59.  Alternatives are dictionaries: anything else raises a TypeError unless it is
   an empty list or string, which is not modelled. *)
Definition grid (L : Type) := list (str * list (json L)).
Definition alt_path {L} (j : json L) : result (option (list str)) :=
  match j with JDict _ => Ok (key_path j) | JLeaf _ => Err EType end.
Definition check_grid {L} (g : grid L) : result unit :=
  do big <- foldM (fun big kv =>
                     do new <- foldM (fun s j => do p <- alt_path j; Ok (set_add p s)) [] (snd kv);
                     do _ <- raise_if (negb (length new =? 1)%nat) EValue;
                     Ok (fold_left (fun s p => set_add p s) new big)) [] g;
  raise_if (negb (length big =? length g)%nat) EValue.

(* it.product, line 66 *)
Fixpoint product {A} (ls : list (list A)) : list (list A) :=
  match ls with
  | [] => [[]]
  | l :: ls' => flat_map (fun x => map (cons x) (product ls')) l
  end.

(* the address of a dictionary; alternatives and hyperparameters are dictionaries *)
Definition address {L} (v : jval L) : result nat := match v with VRef a => Ok a | VLeaf _ => Err EType end.

(* __build_list_of_new_hyperparams, grid_eval.py:28-35; the alternatives of each element in the order of the grid keys *)
Definition build_hypers {L} (elements : list (list (jval L))) (params : jval L) (h : jheap L)
  : result (list (jval L) * jheap L) :=
  foldM (fun s element =>
           do c <- deepcopy (length (snd s)) params (snd s);
           do a <- address (fst c);
           do h' <- foldM (fun h alt => do g <- address alt; merge (S (length h)) a g h) (snd c) element;
           Ok (fst s ++ [VRef a], h')) ([], h) elements.

(* the alternatives of a grid as loaded from the file *)
Fixpoint load_list {L} (js : list (json L)) (h : jheap L) : list (jval L) * jheap L :=
  match js with
  | [] => ([], h)
  | j :: js' => let (v, h1) := load j h in let (vs, h2) := load_list js' h1 in (v :: vs, h2)
  end.
Fixpoint load_lists {L} (jss : list (list (json L))) (h : jheap L) : list (list (jval L)) * jheap L :=
  match jss with
  | [] => ([], h)
  | js :: jss' => let (vs, h1) := load_list js h in let (vss, h2) := load_lists jss' h1 in (vs :: vss, h2)
  end.

(* main, grid_eval.py:62-70, without the evaluation: the objects of the parameter sets, the object of the base
   hyperparameters and the heap in which they are evaluated *)
Definition grid_main {L} (base : json L) (g : grid L) : result (list (jval L) * jval L * jheap L) :=
  let (alts, h1) := load_lists (map snd g) [] in
  let (params, h2) := load base h1 in
  do _ <- check_grid g;
  do r <- build_hypers (product alts) params h2;
  Ok (fst r, params, snd r).
