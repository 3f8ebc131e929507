(* Sharing of mutable objects: Pos and TokenExtras of babylondigger/datamodel.py (lines 9-82) and the code that uses them.
   The other models treat dictionaries as values; here dictionaries and lists are objects with an identity.
   Simplifications: dictionary keys are strings; other containers (tuples, sets), objects with their own __deepcopy__ and
   name-mangled access to private attributes are not modelled; TokenExtras.keys is modelled by the keys it shows. *)
From Coq Require Import ZArith NArith Bool List.
From Verif Require Import Base.
Import ListNotations.
Open Scope Z_scope.

Inductive atom := ANone | AStr (s : str) | AInt (z : Z) | ABool (b : bool).

(* a python value: immutable, or a reference to an object *)
Inductive hval := HAtom (x : atom) | HRef (a : nat).
Inductive hobj := HDict (d : dict hval) | HList (l : list hval).

(* objects by address; nothing is ever freed *)
Definition heap := list hobj.

Definition new_obj (h : heap) (o : hobj) : heap * hval := (h ++ [o], HRef (length h)).

Fixpoint write (h : heap) (a : nat) (o : hobj) : heap :=
  match h, a with
  | [], _ => []
  | _ :: h', O => o :: h'
  | x :: h', Datatypes.S a' => x :: write h' a' o
  end.

Definition get_dict (h : heap) (v : hval) : result (nat * dict hval) :=
  match v with
  | HRef a => match nth_error h a with Some (HDict d) => Ok (a, d) | _ => Err EType end
  | HAtom _ => Err EType
  end.
Definition get_list (h : heap) (v : hval) : result (nat * list hval) :=
  match v with
  | HRef a => match nth_error h a with Some (HList l) => Ok (a, l) | _ => Err EType end
  | HAtom _ => Err EType
  end.

(* d.copy() of dict.  Simplification: anything else raises, although lists have copy() too. *)
Definition dict_copy (h : heap) (v : hval) : result (heap * hval) :=
  do ad <- get_dict h v; Ok (new_obj h (HDict (snd ad))).

(* ------------------------------------------------------------------ *)
(* copy.deepcopy of the python library                                 *)

Definition memo := list (nat * nat).
Fixpoint memo_get (m : memo) (a : nat) : option nat :=
  match m with
  | [] => None
  | (x, y) :: m' => if (a =? x)%nat then Some y else memo_get m' a
  end.

(* y[key] = value and y.append(value) for the copy y at address b *)
Definition put_key (h : heap) (b : nat) (k : str) (v : hval) : heap :=
  match nth_error h b with Some (HDict d) => write h b (HDict (dict_set d k v)) | _ => h end.
Definition put_last (h : heap) (b : nat) (v : hval) : heap :=
  match nth_error h b with Some (HList l) => write h b (HList (l ++ [v])) | _ => h end.

Definition copy_state := (memo * heap)%type.

Definition copy_loop {A} (copy : copy_state -> hval -> result (copy_state * hval)) (val : A -> hval)
  (put : heap -> A -> hval -> heap) : copy_state -> list A -> result copy_state :=
  fix go s l := match l with
                | [] => Ok s
                | x :: l' => match copy s (val x) with
                             | Ok (s', v') => go (fst s', put (snd s') x v') l'
                             | Err e => Err e
                             end
                end.

(* _deepcopy_dict and _deepcopy_list register the empty copy before they copy the entries, so cycles are copied *)
Fixpoint deep (fuel : nat) (s : copy_state) (v : hval) : result (copy_state * hval) :=
  match v with
  | HAtom _ => Ok (s, v)
  | HRef a =>
      match memo_get (fst s) a with
      | Some b => Ok (s, HRef b)
      | None =>
          match fuel with
          | O => Err EFuel
          | Datatypes.S f =>
              let b := length (snd s) in
              match nth_error (snd s) a with
              | None => Err ERuntime    (* no such object *)
              | Some (HDict d) =>
                  match copy_loop (deep f) snd (fun h kv v' => put_key h b (fst kv) v') ((a, b) :: fst s, snd s ++ [HDict []]) d with
                  | Ok s' => Ok (s', HRef b)
                  | Err e => Err e
                  end
              | Some (HList l) =>
                  match copy_loop (deep f) (fun v => v) (fun h _ v' => put_last h b v') ((a, b) :: fst s, snd s ++ [HList []]) l with
                  | Ok s' => Ok (s', HRef b)
                  | Err e => Err e
                  end
              end
          end
      end
  end.

Definition deepcopy (h : heap) (v : hval) : result (heap * hval) :=
  do r <- deep (length h) ([], h) v; Ok (snd (fst r), snd r).

(* ------------------------------------------------------------------ *)
(* Pos and TokenExtras                                                 *)

Record hpos := mkHPos { hp_upos : atom; hp_xpos : atom; hp_feats : hval }.

(* Pos.__init__, lines 10-13 *)
Definition new_pos (h : heap) (u x : atom) (feats : hval) : result (heap * hpos) :=
  do r <- match feats with
          | HAtom ANone => Ok (new_obj h (HDict []))
          | _ => dict_copy h feats
          end;
  Ok (fst r, mkHPos u x (snd r)).

(* Pos.feats, lines 23-25 *)
Definition pos_feats (h : heap) (p : hpos) : result (heap * hval) := dict_copy h (hp_feats p).

(* Pos.feature, lines 27-28 *)
Definition pos_feature (h : heap) (p : hpos) (k : str) : result hval :=
  do ad <- get_dict h (hp_feats p);
  Ok (match dict_get (snd ad) k with Some v => v | None => HAtom ANone end).

(* TokenExtras.__init__, lines 54-55; an extras object is the value of its private attribute *)
Definition new_extras (h : heap) (v : hval) : result (heap * hval) := deepcopy h v.

(* __getitem__, lines 57-58 *)
Definition extras_get (h : heap) (e : hval) (k : str) : result (heap * hval) :=
  do ad <- get_dict h e;
  do v <- of_option EKey (dict_get (snd ad) k);
  deepcopy h v.

(* __contains__, __iter__ and keys, lines 60-67 *)
Definition extras_keys (h : heap) (e : hval) : result (list str) :=
  do ad <- get_dict h e; Ok (dict_keys (snd ad)).

(* as_dict, lines 74-75 *)
Definition extras_dict (h : heap) (e : hval) : result (heap * hval) := deepcopy h e.

(* `not updates` *)
Definition falsy (h : heap) (v : hval) : bool :=
  match v with
  | HAtom ANone | HAtom (AStr []) | HAtom (AInt 0) | HAtom (ABool false) => true
  | HAtom _ => false
  | HRef a => match nth_error h a with Some (HDict []) | Some (HList []) => true | _ => false end
  end.

(* update, lines 77-82.  Simplification: result.update of something other than a dictionary raises. *)
Definition extras_update (h : heap) (e updates : hval) : result (heap * hval) :=
  if falsy h updates then Ok (h, e)
  else
    do r <- dict_copy h e;
    do ad <- get_dict (fst r) (snd r);
    do ud <- get_dict (fst r) updates;
    new_extras (write (fst r) (fst ad) (HDict (dict_update (snd ad) (snd ud)))) (snd r).

(* ------------------------------------------------------------------ *)
(* A program that uses them                                            *)

(* the values it holds in variables, and the objects it has made *)
Record world := mkW { w_heap : heap; w_vars : list hval; w_poses : list hpos; w_extras : list hval }.

Definition empty_world : world := mkW [] [] [] [].

(* variables, Pos and TokenExtras by number *)
Inductive op :=
| OAtom (x : atom)                    (* x = "..." *)
| ODict                               (* x = {} *)
| OList                               (* x = [] *)
| OGetKey (d : nat) (k : str)         (* x = d[k] *)
| OSetKey (d : nat) (k : str) (v : nat)
| ODelKey (d : nat) (k : str)
| OClear (d : nat)
| OUpdate (d e : nat)                 (* d.update(e) *)
| OGetIndex (l : nat) (i : nat)       (* x = l[i] *)
| OSetIndex (l : nat) (i : nat) (v : nat)
| OAppend (l v : nat)
| OPop (l : nat)                      (* x = l.pop() *)
| OPos (u x : atom) (feats : nat)     (* Pos(u, x, feats) *)
| OFeats (p : nat)                    (* x = pos.feats *)
| OFeature (p : nat) (k : str)        (* x = pos.feature(k) *)
| OExtras (v : nat)                   (* TokenExtras(v) *)
| OExtrasGet (e : nat) (k : str)      (* x = extras[k] *)
| OExtrasDict (e : nat)               (* x = extras.as_dict() *)
| OExtrasUpdate (e v : nat).          (* extras.update(v), also for Token.update_extras *)

Definition var (w : world) (i : nat) : result hval := of_option EKey (nth_error (w_vars w) i).
Definition push (w : world) (hv : heap * hval) : world :=
  mkW (fst hv) (w_vars w ++ [snd hv]) (w_poses w) (w_extras w).
Definition in_heap (w : world) (h : heap) : world := mkW h (w_vars w) (w_poses w) (w_extras w).

Definition dict_del {V} (d : dict V) (k : str) : dict V := filter (fun kv => negb (str_eqb (fst kv) k)) d.

Fixpoint set_nth {A} (l : list A) (i : nat) (x : A) : list A :=
  match l, i with
  | [], _ => []
  | _ :: l', O => x :: l'
  | y :: l', Datatypes.S i' => y :: set_nth l' i' x
  end.

Definition attempt (w : world) (o : op) : result world :=
  let h := w_heap w in
  match o with
  | OAtom x => Ok (push w (h, HAtom x))
  | ODict => Ok (push w (new_obj h (HDict [])))
  | OList => Ok (push w (new_obj h (HList [])))
  | OGetKey d k => do dv <- var w d; do ad <- get_dict h dv; do v <- of_option EKey (dict_get (snd ad) k); Ok (push w (h, v))
  | OSetKey d k v => do dv <- var w d; do ad <- get_dict h dv; do vv <- var w v;
                     Ok (in_heap w (write h (fst ad) (HDict (dict_set (snd ad) k vv))))
  | ODelKey d k => do dv <- var w d; do ad <- get_dict h dv; do _u <- of_option EKey (dict_get (snd ad) k);
                   Ok (in_heap w (write h (fst ad) (HDict (dict_del (snd ad) k))))
  | OClear d => do dv <- var w d; do ad <- get_dict h dv; Ok (in_heap w (write h (fst ad) (HDict [])))
  | OUpdate d e => do dv <- var w d; do ad <- get_dict h dv; do ev <- var w e; do ed <- get_dict h ev;
                   Ok (in_heap w (write h (fst ad) (HDict (dict_update (snd ad) (snd ed)))))
  | OGetIndex l i => do lv <- var w l; do al <- get_list h lv; do v <- of_option EIndex (nth_error (snd al) i); Ok (push w (h, v))
  | OSetIndex l i v => do lv <- var w l; do al <- get_list h lv; do _u <- of_option EIndex (nth_error (snd al) i); do vv <- var w v;
                       Ok (in_heap w (write h (fst al) (HList (set_nth (snd al) i vv))))
  | OAppend l v => do lv <- var w l; do al <- get_list h lv; do vv <- var w v;
                   Ok (in_heap w (write h (fst al) (HList (snd al ++ [vv]))))
  | OPop l => do lv <- var w l; do al <- get_list h lv; do v <- of_option EIndex (hd_error (rev (snd al)));
              Ok (push w (write h (fst al) (HList (removelast (snd al))), v))
  | OPos u x f => do fv <- var w f; do r <- new_pos h u x fv;
                  Ok (mkW (fst r) (w_vars w) (w_poses w ++ [snd r]) (w_extras w))
  | OFeats p => do pv <- of_option EKey (nth_error (w_poses w) p); do r <- pos_feats h pv; Ok (push w r)
  | OFeature p k => do pv <- of_option EKey (nth_error (w_poses w) p); do v <- pos_feature h pv k; Ok (push w (h, v))
  | OExtras v => do vv <- var w v; do r <- new_extras h vv; Ok (mkW (fst r) (w_vars w) (w_poses w) (w_extras w ++ [snd r]))
  | OExtrasGet e k => do ev <- of_option EKey (nth_error (w_extras w) e); do r <- extras_get h ev k; Ok (push w r)
  | OExtrasDict e => do ev <- of_option EKey (nth_error (w_extras w) e); do r <- extras_dict h ev; Ok (push w r)
  | OExtrasUpdate e v => do ev <- of_option EKey (nth_error (w_extras w) e); do vv <- var w v; do r <- extras_update h ev vv;
                         Ok (mkW (fst r) (w_vars w) (w_poses w) (w_extras w ++ [snd r]))
  end.

(* an operation that raises changes nothing (the temporary dictionary of a failed update is garbage) *)
Definition step (w : world) (o : op) : world := match attempt w o with Ok w' => w' | Err _ => w end.
Definition run (w : world) (ops : list op) : world := fold_left step ops w.
