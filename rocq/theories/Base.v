(* Python primitives used by all models.  Definitions only; facts are in BaseFacts.v. *)
From Coq Require Import String Ascii ZArith NArith Bool List.
From Coq Require Decimal.
Import ListNotations.
Open Scope Z_scope.

(* ------------------------------------------------------------------ *)
(* Results and exceptions                                              *)

(* The python exception classes raised by the modelled code. *)
Inductive exn :=
| EAssert   (* AssertionError *)
| EValue    (* ValueError *)
| EIndex    (* IndexError *)
| EKey      (* KeyError *)
| EType     (* TypeError *)
| EAttr     (* AttributeError *)
| ENotImpl  (* NotImplementedError *)
| EZeroDiv  (* ZeroDivisionError *)
| EUD       (* UDError of conll17_ud_eval.py *)
| ERuntime  (* RuntimeError *)
| EExc      (* bare Exception *)
| EStop     (* StopIteration *)
| EUser     (* an exception raised by code supplied from outside *)
| EFuel.    (* not a python exception: the model ran out of fuel *)

Inductive result (A : Type) :=
| Ok (a : A)
| Err (e : exn).
Arguments Ok {A} a.
Arguments Err {A} e.

Definition bind {A B} (r : result A) (f : A -> result B) : result B :=
  match r with Ok a => f a | Err e => Err e end.

Notation "'do' x <- r ; k" := (bind r (fun x => k))
  (at level 200, x name, r at level 100, k at level 200).
Notation "'do' ' p <- r ; k" := (bind r (fun x => let p := x in k))
  (at level 200, p pattern, r at level 100, k at level 200).

Definition rmap {A B} (f : A -> B) (r : result A) : result B :=
  do x <- r; Ok (f x).

(* `assert cond` *)
Definition assert (b : bool) : result unit := if b then Ok tt else Err EAssert.
(* `if cond: raise e` *)
Definition raise_if (b : bool) (e : exn) : result unit := if b then Err e else Ok tt.

(* [f(x) for x in l] where f may raise: evaluated left to right, the first exception wins *)
Fixpoint mapM {A B} (f : A -> result B) (l : list A) : result (list B) :=
  match l with
  | [] => Ok []
  | x :: l' => do y <- f x; do ys <- mapM f l'; Ok (y :: ys)
  end.

Fixpoint foldM {S A} (f : S -> A -> result S) (s : S) (l : list A) : result S :=
  match l with
  | [] => Ok s
  | x :: l' => do s' <- f s x; foldM f s' l'
  end.

Definition of_option {A} (e : exn) (o : option A) : result A :=
  match o with Some a => Ok a | None => Err e end.

(* a generator: the values it yields, then the exception that ends it, if any *)
Definition gen (A : Type) : Type := list A * option exn.

(* the value of a computation that is known to succeed; used in concrete instances only *)
Definition is_ok {A} (r : result A) : bool := match r with Ok _ => true | Err _ => false end.

(* ------------------------------------------------------------------ *)
(* Strings: lists of code points                                       *)

Definition char := N.
Definition str := list char.

Fixpoint of_string (s : string) : str :=
  match s with
  | EmptyString => []
  | String c s' => N_of_ascii c :: of_string s'
  end.

Definition ch (c : ascii) : char := N_of_ascii c.

Fixpoint list_eqb {A} (eqb : A -> A -> bool) (l1 l2 : list A) : bool :=
  match l1, l2 with
  | [], [] => true
  | x :: l1', y :: l2' => eqb x y && list_eqb eqb l1' l2'
  | _, _ => false
  end.

Definition str_eqb : str -> str -> bool := list_eqb N.eqb.

Definition option_eqb {A} (eqb : A -> A -> bool) (o1 o2 : option A) : bool :=
  match o1, o2 with
  | None, None => true
  | Some x, Some y => eqb x y
  | _, _ => false
  end.

Definition is_none {A} (o : option A) : bool := match o with None => true | Some _ => false end.

(* lexicographic comparison of python sequences *)
Fixpoint lex_cmp {A} (cmp : A -> A -> comparison) (l1 l2 : list A) : comparison :=
  match l1, l2 with
  | [], [] => Eq
  | [], _ :: _ => Lt
  | _ :: _, [] => Gt
  | x :: l1', y :: l2' =>
      match cmp x y with Eq => lex_cmp cmp l1' l2' | c => c end
  end.

(* python compares strings code point by code point *)
Definition str_cmp : str -> str -> comparison := lex_cmp N.compare.

Definition pair_cmp {A B} (ca : A -> A -> comparison) (cb : B -> B -> comparison)
           (x y : A * B) : comparison :=
  match ca (fst x) (fst y) with Eq => cb (snd x) (snd y) | c => c end.

(* str.isspace / str.strip: the code points for which python 3 isspace() holds *)
Definition isspace_char (c : char) : bool :=
  ((9 <=? c) && (c <=? 13) || (28 <=? c) && (c <=? 32) || (c =? 133) || (c =? 160)
   || (c =? 5760) || (8192 <=? c) && (c <=? 8202) || (c =? 8232) || (c =? 8233)
   || (c =? 8239) || (c =? 8287) || (c =? 12288))%N.

(* "".isspace() is False *)
Definition isspace (s : str) : bool :=
  match s with [] => false | _ => forallb isspace_char s end.

Fixpoint drop_while {A} (p : A -> bool) (l : list A) : list A :=
  match l with
  | [] => []
  | x :: l' => if p x then drop_while p l' else l
  end.

Definition lstrip (s : str) : str := drop_while isspace_char s.
Definition rstrip (s : str) : str := rev (lstrip (rev s)).
Definition strip (s : str) : str := rstrip (lstrip s).

(* s.split(sep) for a one character separator: always at least one piece *)
Fixpoint split (sep : char) (s : str) : list str :=
  match s with
  | [] => [[]]
  | c :: s' =>
      if (c =? sep)%N then [] :: split sep s'
      else match split sep s' with
           | [] => [[c]]            (* unreachable *)
           | p :: ps => (c :: p) :: ps
           end
  end.

(* sep.join(pieces) *)
Fixpoint join (sep : str) (l : list str) : str :=
  match l with
  | [] => []
  | [x] => x
  | x :: l' => x ++ sep ++ join sep l'
  end.

Definition mem_char (c : char) (s : str) : bool := existsb (N.eqb c) s.

Fixpoint prefixb {A} (eqb : A -> A -> bool) (p l : list A) : bool :=
  match p, l with
  | [], _ => true
  | x :: p', y :: l' => eqb x y && prefixb eqb p' l'
  | _ :: _, [] => false
  end.

Definition startswith (s p : str) : bool := prefixb N.eqb p s.
Definition endswith (s p : str) : bool := prefixb N.eqb (rev p) (rev s).

(* ------------------------------------------------------------------ *)
(* Integers as text                                                    *)

Fixpoint uint_digits (u : Decimal.uint) : str :=
  match u with
  | Decimal.Nil => []
  | Decimal.D0 u => 48%N :: uint_digits u
  | Decimal.D1 u => 49%N :: uint_digits u
  | Decimal.D2 u => 50%N :: uint_digits u
  | Decimal.D3 u => 51%N :: uint_digits u
  | Decimal.D4 u => 52%N :: uint_digits u
  | Decimal.D5 u => 53%N :: uint_digits u
  | Decimal.D6 u => 54%N :: uint_digits u
  | Decimal.D7 u => 55%N :: uint_digits u
  | Decimal.D8 u => 56%N :: uint_digits u
  | Decimal.D9 u => 57%N :: uint_digits u
  end.

(* str(z) *)
Definition print_N (n : N) : str := uint_digits (N.to_uint n).
Definition print_Z (z : Z) : str :=
  match z with
  | Zneg p => 45%N :: print_N (Npos p)
  | _ => print_N (Z.to_N z)
  end.

(* the digits of int(s): ASCII digits, single underscores between digits.
   [after] tells whether the previous character was a digit. *)
Fixpoint parse_digits (after : bool) (s : str) : option Decimal.uint :=
  match s with
  | [] => if after then Some Decimal.Nil else None
  | c :: s' =>
      if (c =? 95)%N then
        if after then parse_digits false s' else None
      else
        match parse_digits true s' with
        | None => None
        | Some u =>
            match c with
            | 48%N => Some (Decimal.D0 u) | 49%N => Some (Decimal.D1 u) | 50%N => Some (Decimal.D2 u)
            | 51%N => Some (Decimal.D3 u) | 52%N => Some (Decimal.D4 u) | 53%N => Some (Decimal.D5 u)
            | 54%N => Some (Decimal.D6 u) | 55%N => Some (Decimal.D7 u) | 56%N => Some (Decimal.D8 u)
            | 57%N => Some (Decimal.D9 u)
            | _ => None
            end
        end
  end.

Definition parse_nat_str (s : str) : option Z :=
  match parse_digits false s with
  | Some u => Some (Z.of_N (N.of_uint u))
  | None => None
  end.

(* int(s); simplification: digits of other scripts are rejected *)
Definition parse_int (s : str) : result Z :=
  match strip s with
  | [] => Err EValue
  | c :: s' =>
      if (c =? 45)%N then of_option EValue (option_map Z.opp (parse_nat_str s'))
      else if (c =? 43)%N then of_option EValue (parse_nat_str s')
      else of_option EValue (parse_nat_str (c :: s'))
  end.

(* ------------------------------------------------------------------ *)
(* Lists with python indexing                                          *)

Definition zlen {A} (l : list A) : Z := Z.of_nat (length l).

(* l[i], negative indices count from the end *)
Definition py_index {A} (l : list A) (i : Z) : result A :=
  let j := if i <? 0 then i + zlen l else i in
  if j <? 0 then Err EIndex
  else of_option EIndex (nth_error l (Z.to_nat j)).

Definition clamp_index (n i : Z) : Z :=
  let j := if i <? 0 then i + n else i in
  Z.max 0 (Z.min j n).

(* l[a:b] *)
Definition py_slice {A} (l : list A) (a b : Z) : list A :=
  let n := zlen l in
  let a' := clamp_index n a in
  let b' := clamp_index n b in
  firstn (Z.to_nat (b' - a')) (skipn (Z.to_nat a') l).

(* l[a:] and l[:b] *)
Definition py_from {A} (l : list A) (a : Z) : list A := py_slice l a (zlen l).
Definition py_upto {A} (l : list A) (b : Z) : list A := py_slice l 0 b.

(* l[i] = x for 0 <= i < len(l) *)
Fixpoint set_nth {A} (l : list A) (i : nat) (x : A) : list A :=
  match l, i with
  | [], _ => []
  | _ :: l', O => x :: l'
  | y :: l', S i' => y :: set_nth l' i' x
  end.

(* range(n) *)
Definition zrange (n : Z) : list Z := map Z.of_nat (seq 0 (Z.to_nat n)).
(* enumerate(l) *)
Definition enumerate {A} (l : list A) : list (Z * A) :=
  combine (zrange (zlen l)) l.

(* sorted(l, key=...): stable insertion sort, [leb x y] is key(x) <= key(y) *)
Fixpoint insert {A} (leb : A -> A -> bool) (x : A) (l : list A) : list A :=
  match l with
  | [] => [x]
  | y :: l' => if leb x y then x :: y :: l' else y :: insert leb x l'
  end.

Fixpoint isort {A} (leb : A -> A -> bool) (l : list A) : list A :=
  match l with
  | [] => []
  | x :: l' => insert leb x (isort leb l')
  end.

(* ------------------------------------------------------------------ *)
(* Dictionaries: association lists in insertion order, unique keys     *)

Definition dict (V : Type) := list (str * V).

Fixpoint dict_get {V} (d : dict V) (k : str) : option V :=
  match d with
  | [] => None
  | (k', v) :: d' => if str_eqb k k' then Some v else dict_get d' k
  end.

Definition dict_keys {V} (d : dict V) : list str := map fst d.
Definition dict_mem {V} (d : dict V) (k : str) : bool := negb (is_none (dict_get d k)).

(* d[k] = v *)
Fixpoint dict_set {V} (d : dict V) (k : str) (v : V) : dict V :=
  match d with
  | [] => [(k, v)]
  | (k', v') :: d' => if str_eqb k k' then (k', v) :: d' else (k', v') :: dict_set d' k v
  end.

(* d.update(e) *)
Definition dict_update {V} (d e : dict V) : dict V :=
  fold_left (fun acc kv => dict_set acc (fst kv) (snd kv)) e d.

(* d1 == d2: insertion order is irrelevant *)
Definition dict_eqb {V} (eqb : V -> V -> bool) (d1 d2 : dict V) : bool :=
  Nat.eqb (length d1) (length d2)
  && forallb (fun kv => match dict_get d2 (fst kv) with
                        | Some v => eqb (snd kv) v
                        | None => false
                        end) d1.

(* what python guarantees about every dict *)
Definition dict_ok {V} (d : dict V) : Prop := NoDup (dict_keys d).

(* ------------------------------------------------------------------ *)
(* Python values that occur in configuration files and token extras.
   Simplification: floats, tuples and non-string keys are left out. *)

Inductive pyval :=
| PNone
| PBool (b : bool)
| PInt (z : Z)
| PStr (s : str)
| PList (l : list pyval)
| PDict (d : list (str * pyval)).

(* x == y; True == 1 and False == 0 as in python *)
Definition bool_int (b : bool) : Z := if b then 1 else 0.

Fixpoint pyval_eqb (x y : pyval) : bool :=
  match x, y with
  | PNone, PNone => true
  | PBool a, PBool b => Bool.eqb a b
  | PBool a, PInt b => bool_int a =? b
  | PInt a, PBool b => a =? bool_int b
  | PInt a, PInt b => a =? b
  | PStr a, PStr b => str_eqb a b
  | PList a, PList b =>
      (fix go (l1 l2 : list pyval) : bool :=
         match l1, l2 with
         | [], [] => true
         | u :: l1', v :: l2' => pyval_eqb u v && go l1' l2'
         | _, _ => false
         end) a b
  | PDict a, PDict b =>
      Nat.eqb (length a) (length b)
      && (fix go (d : list (str * pyval)) : bool :=
            match d with
            | [] => true
            | (k, v) :: d' =>
                match dict_get b k with
                | Some w => pyval_eqb v w && go d'
                | None => false
                end
            end) a
  | _, _ => false
  end.
