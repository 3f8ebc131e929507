(* Specification vocabulary for grid search (grid_eval.py) *)
From Coq Require Import String ZArith NArith Bool Permutation List.
From Verif Require Import Base Model_Grid.
Import ListNotations.

(* the value at a path *)
Fixpoint at_path {L} (p : list str) (j : json L) : option (json L) :=
  match p with
  | [] => Some j
  | k :: p' =>
      match j with
      | JDict d => match dict_get d k with Some v => at_path p' v | None => None end
      | JLeaf _ => None
      end
  end.

(* no dictionary has a key twice *)
Fixpoint json_ok {L} (j : json L) : Prop :=
  match j with
  | JLeaf _ => True
  | JDict d => NoDup (map fst d) /\
      (fix all (d : list (str * json L)) : Prop := match d with [] => True | (_, v) :: d' => json_ok v /\ all d' end) d
  end.

(* a value of the heap stands for a nested dictionary *)
Fixpoint stands {L} (h : jheap L) (v : jval L) (j : json L) {struct j} : Prop :=
  match j with
  | JLeaf x => v = VLeaf x
  | JDict d => exists a o, v = VRef a /\ nth_error h a = Some o /\
      (fix all (o : dict (jval L)) (d : list (str * json L)) {struct d} : Prop :=
         match d with
         | [] => o = []
         | (k, j) :: d' => exists w o', o = (k, w) :: o' /\ stands h w j /\ all o' d'
         end) o d
  end.

(* a dictionary of its own: the addresses it uses, each once *)
Inductive owns {L} (h : jheap L) : jval L -> json L -> list nat -> Prop :=
| own_leaf x : owns h (VLeaf x) (JLeaf x) []
| own_dict a o d fp : nth_error h a = Some o -> owns_list h o d fp -> owns h (VRef a) (JDict d) (a :: fp)
with owns_list {L} (h : jheap L) : dict (jval L) -> list (str * json L) -> list nat -> Prop :=
| own_nil : owns_list h [] [] []
| own_cons k v j o d fp fp' : owns h v j fp -> owns_list h o d fp' -> owns_list h ((k, v) :: o) ((k, j) :: d) (fp ++ fp').

(* ---- merging ---- *)

(* the grid dictionary names a key that the base does not have at the same place *)
Definition unknown_key {L} (base g : json L) : Prop :=
  exists p k e d, at_path p base = Some (JDict e) /\ at_path p g = Some (JDict d) /\ In k (map fst d) /\ ~ In k (map fst e).

Definition merged {L} (base g r : json L) : Prop :=
  (* named values that are no dictionaries are taken *)
  (forall p x, at_path p g = Some (JLeaf x) -> at_path p r = Some (JLeaf x)) /\
  (* named dictionaries are taken as a whole where the base has none *)
  (forall p x d, at_path p g = Some (JDict d) -> at_path p base = Some (JLeaf x) -> at_path p r = Some (JDict d)) /\
  (* otherwise the keys stay *)
  (forall p d e, at_path p g = Some (JDict d) -> at_path p base = Some (JDict e) ->
     exists f, at_path p r = Some (JDict f) /\ map fst f = map fst e) /\
  (* and what is not named is not changed *)
  (forall p k q d e, at_path p g = Some (JDict d) -> at_path p base = Some (JDict e) -> ~ In k (map fst d) ->
     at_path (p ++ k :: q) r = at_path (p ++ k :: q) base).

(* ---- the grid ---- *)

(* every path of the alternative is a path of the base, and dictionaries correspond to dictionaries *)
Definition fits {L} (base g : json L) : Prop :=
  forall p, match at_path p g with
            | None => True
            | Some (JLeaf _) => exists x, at_path p base = Some (JLeaf x)
            | Some (JDict _) => exists e, at_path p base = Some (JDict e)
            end.

(* the value at a path after the alternatives were applied one after another *)
Definition latest {L} (p : list str) (alts : list (json L)) (x : L) : L :=
  fold_left (fun x g => match at_path p g with Some (JLeaf y) => y | _ => x end) alts x.

(* r is the base with the alternatives applied *)
Definition applied {L} (base : json L) (alts : list (json L)) (r : json L) : Prop :=
  forall p, match at_path p base with
            | None => at_path p r = None
            | Some (JLeaf x) => at_path p r = Some (JLeaf (latest p alts x))
            | Some (JDict e) => exists f, at_path p r = Some (JDict f) /\ map fst f = map fst e
            end.

(* c chooses one element of each list *)
Inductive chosen {A} : list nat -> list (list A) -> list A -> Prop :=
| ch_nil : chosen [] [] []
| ch_cons i c l ls x xs : nth_error l i = Some x -> chosen c ls xs -> chosen (i :: c) (l :: ls) (x :: xs).

(* the path that the check looks at: the first key at each level *)
Inductive first_path {L} : json L -> option (list str) -> Prop :=
| fp_empty : first_path (JDict []) None
| fp_leaf k x d : first_path (JDict ((k, JLeaf x) :: d)) (Some [k])
| fp_none k v d : first_path (JDict v) None -> first_path (JDict ((k, JDict v) :: d)) None
| fp_some k v d p : first_path (JDict v) (Some p) -> first_path (JDict ((k, JDict v) :: d)) (Some (k :: p)).

(* two grid keys have alternatives that set the value at the same path *)
Definition overlapping {L} (g : grid L) : Prop :=
  exists i j k k' alts alts' a a' p x y, i <> j /\ nth_error g i = Some (k, alts) /\ nth_error g j = Some (k', alts') /\
    In a alts /\ In a' alts' /\ at_path p a = Some (JLeaf x) /\ at_path p a' = Some (JLeaf y).

(* an alternative with a single value *)
Inductive single {L} : json L -> Prop :=
| sg_leaf k x : single (JDict [(k, JLeaf x)])
| sg_dict k v : single (JDict v) -> single (JDict [(k, JDict v)]).
