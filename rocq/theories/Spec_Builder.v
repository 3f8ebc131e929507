(* What the properties of the feature builders say, independently of the model's algorithms. *)
From Coq Require Import ZArith NArith QArith Bool List Permutation.
From Verif Require Import Base Model_Builder.
Import ListNotations.
Open Scope Z_scope.

(* ---- positions in a nested value ---- *)

(* what stands at a position, given by the indices leading to it *)
Fixpoint at_path (p : list nat) (x : nested) : option nested :=
  match p with
  | [] => Some x
  | i :: p' => match x with
               | NInt _ => None
               | NList l => match nth_error l i with Some y => at_path p' y | None => None end
               end
  end.

(* no depth has both lists and scalars *)
Definition homogeneous (x : nested) : Prop :=
  forall p q a b, length p = length q -> at_path p x = Some a -> at_path q x = Some b -> is_list a = is_list b.

(* the lists at every depth are equally long *)
Definition rectangular (x : nested) : Prop :=
  forall p q a b, length p = length q -> at_path p x = Some (NList a) -> at_path q x = Some (NList b) ->
    length a = length b.

(* every entry of x is at its place in y *)
Definition kept_in (x y : nested) : Prop :=
  forall p, (forall z, at_path p x = Some (NInt z) -> at_path p y = Some (NInt z)) /\
            (forall l, at_path p x = Some (NList l) -> exists l', at_path p y = Some (NList l') /\ (length l <= length l')%nat).

(* every scalar of y that is not in x is the padding *)
Definition added_padding (x y : nested) : Prop :=
  forall p z, at_path p y = Some (NInt z) -> at_path p x = None -> z = 0.

(* no list of y is longer than all the lists x has at its depth *)
Definition no_longer (x y : nested) : Prop :=
  forall p l', at_path p y = Some (NList l') ->
    exists q l, length q = length p /\ at_path q x = Some (NList l) /\ length l = length l'.

Definition padded (x y : nested) : Prop :=
  homogeneous y /\ rectangular y /\ kept_in x y /\ added_padding x y /\ no_longer x y.

(* ---- lists as objects ---- *)

(* the value an object stands for *)
Inductive stands_for (h : heap) : hval -> nested -> Prop :=
| sf_int z : stands_for h (HInt z) (NInt z)
| sf_ref a vs xs : nth_error h a = Some vs -> Forall2 (stands_for h) vs xs -> stands_for h (HRef a) (NList xs).

(* the values at depth d below those of l *)
Fixpoint hlevel (h : heap) (d : nat) (l : list hval) : list hval :=
  match d with
  | O => l
  | S d' => hlevel h d' (concat (map (contents h) l))
  end.

(* no list object occurs at two depths *)
Definition layered (h : heap) (l : list hval) : Prop :=
  forall d e a, In (HRef a) (hlevel h d l) -> In (HRef a) (hlevel h e l) -> d = e.

(* ---- sparsification ---- *)

(* the scalars in the order of reading *)
Fixpoint scalars (x : nested) : list Z :=
  match x with
  | NInt z => [z]
  | NList l => concat (map scalars l)
  end.

(* same shape *)
Inductive same_shape : nested -> nested -> Prop :=
| ss_int y z : same_shape (NInt y) (NInt z)
| ss_list l l' : Forall2 same_shape l l' -> same_shape (NList l) (NList l').

(* ---- builders ---- *)

Inductive wrapper := WPad | WSparse | WIter.

(* the basic builders with their wrappers, outermost first *)
Fixpoint leaves {B} (b : builder B) : list (list wrapper * B) :=
  match b with
  | BBasic _ b => [([], b)]
  | BEmpty _ => []
  | BPad _ b => map (fun wl => (WPad :: fst wl, snd wl)) (leaves b)
  | BSparse _ b => map (fun wl => (WSparse :: fst wl, snd wl)) (leaves b)
  | BIter _ b => map (fun wl => (WIter :: fst wl, snd wl)) (leaves b)
  | BComp _ bs => concat (map leaves bs)
  end.

(* no composite of nothing, which cannot be built *)
Inductive buildable {B} : builder B -> Prop :=
| bu_basic b : buildable (BBasic _ b)
| bu_empty : buildable (BEmpty _)
| bu_pad b : buildable b -> buildable (BPad _ b)
| bu_sparse b : buildable b -> buildable (BSparse _ b)
| bu_iter b : buildable b -> buildable (BIter _ b)
| bu_comp bs : bs <> [] -> Forall buildable bs -> buildable (BComp _ bs).

(* d holds exactly what the parts hold, and no two parts have a name in common *)
Definition disjoint_parts {V} (ds : list (dict V)) : Prop :=
  forall i j d e k, nth_error ds i = Some d -> nth_error ds j = Some e ->
    In k (dict_keys d) -> In k (dict_keys e) -> i = j.
Definition union_of {V} (ds : list (dict V)) (d : dict V) : Prop :=
  dict_ok d /\ forall k v, dict_get d k = Some v <-> exists e, In e ds /\ dict_get e k = Some v.

(* the values at index i of the lists of a dictionary *)
Definition row_of {V} (i : nat) (value : dict (list V)) (d : dict V) : Prop :=
  dict_keys d = dict_keys value /\
  forall k l, In (k, l) value -> exists v, nth_error l i = Some v /\ In (k, v) d.
