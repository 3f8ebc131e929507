(* Vocabulary of the properties of Model_Heap.v. *)
From Coq Require Import ZArith NArith Bool List.
From Verif Require Import Base Model_Heap.
Import ListNotations.
Open Scope Z_scope.

(* what a program can see of a value: what is reached by each sequence of keys and indices *)
Inductive access := AtKey (k : str) | AtIndex (i : nat).
Inductive shape := ShAtom (x : atom) | ShDict (keys : list str) | ShList (length : nat).

Definition inside (h : heap) (v : hval) (s : access) : option hval :=
  match v, s with
  | HRef a, AtKey k => match nth_error h a with Some (HDict d) => dict_get d k | _ => None end
  | HRef a, AtIndex i => match nth_error h a with Some (HList l) => nth_error l i | _ => None end
  | HAtom _, _ => None
  end.

Definition shape_of (h : heap) (v : hval) : option shape :=
  match v with
  | HAtom x => Some (ShAtom x)
  | HRef a => match nth_error h a with
              | Some (HDict d) => Some (ShDict (dict_keys d))
              | Some (HList l) => Some (ShList (length l))
              | None => None
              end
  end.

Fixpoint look (h : heap) (v : hval) (path : list access) : option shape :=
  match path with
  | [] => shape_of h v
  | s :: path' => match inside h v s with Some v' => look h v' path' | None => None end
  end.

(* the values of a feature dictionary are strings: what the annotation Dict[str, str] of Pos.__init__ says *)
Definition well_typed (w : world) (o : op) : Prop :=
  match o with
  | OPos _ _ f => forall fv a d k v, nth_error (w_vars w) f = Some fv -> fv = HRef a ->
      nth_error (w_heap w) a = Some (HDict d) -> In (k, v) d -> exists x, v = HAtom x
  | _ => True
  end.

Fixpoint typed (w : world) (ops : list op) : Prop :=
  match ops with
  | [] => True
  | o :: ops' => well_typed w o /\ typed (step w o) ops'
  end.

(* the world a program reaches *)
Definition reached (w : world) : Prop := exists ops, typed empty_world ops /\ w = run empty_world ops.
