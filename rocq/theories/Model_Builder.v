(* Model of babylondigger/features/builder.py: padding, sparsification, composition of feature extractors and
   merging of builders.  Definitions only. *)
From Coq Require Import ZArith NArith QArith Bool List.
From Verif Require Import Base Model_Vocab Model_Features.
Import ListNotations.
Open Scope Z_scope.

(* a feature value: an integer or a list of values.  Booleans are integers. *)
Inductive nested := NInt (z : Z) | NList (l : list nested).

Definition is_list (x : nested) : bool := match x with NList _ => true | NInt _ => false end.
Definition items (x : nested) : list nested := match x with NList l => l | NInt _ => [] end.

(* nesting depth of lists; the fuel of _pad_sequence *)
Fixpoint depth (x : nested) : nat :=
  match x with
  | NInt _ => 0
  | NList l => S (fold_right (fun y n => Nat.max (depth y) n) 0%nat l)
  end.
Definition depths (l : list nested) : nat := fold_right (fun y n => Nat.max (depth y) n) 0%nat l.

(* max(map(len, sequence)) *)
Definition longest (lens : list nat) : nat := fold_right Nat.max 0%nat lens.

(* cut a list into pieces of the given lengths *)
Fixpoint regroup {A} (lens : list nat) (l : list A) : list (list A) :=
  match lens with
  | [] => []
  | n :: lens' => firstn n l :: regroup lens' (skipn n l)
  end.

(* _pad_sequence, 141-155, as a function of values: the padding it returns and the sequence as it is afterwards.
   The recursive call pads the elements of the elements in place, so they are put back where they were. *)
Fixpoint pad_seq (fuel : nat) (l : list nested) : result (nested * list nested) :=
  if forallb (fun x => negb (is_list x)) l then Ok (NInt PADDING, l)
  else if negb (forallb is_list l) then Err EValue
  else match fuel with
       | O => Err EFuel
       | S fuel' =>
           let lens := map (fun x => length (items x)) l in
           let m := longest lens in
           do pf <- pad_seq fuel' (concat (map items l));
           Ok (NList (repeat (fst pf) m),
               map (fun e => NList (e ++ repeat (fst pf) (m - length e))) (regroup lens (snd pf)))
       end.
Definition pad (l : list nested) : result (nested * list nested) := pad_seq (depths l) l.

(* ------------------------------------------------------------------ *)
(* The same with list objects that are changed in place                *)

(* a value is an integer or a reference to a list object; an object is its current contents *)
Inductive hval := HInt (z : Z) | HRef (a : nat).
Definition heap := list (list hval).
Definition is_ref (v : hval) : bool := match v with HRef _ => true | HInt _ => false end.
Definition contents (h : heap) (v : hval) : list hval := match v with HRef a => nth a h [] | HInt _ => [] end.

(* element.extend([padding] * (max_len - len(element))) *)
Definition extend (m : nat) (p : hval) (h : heap) (v : hval) : heap :=
  match v with
  | HRef a => set_nth h a (nth a h [] ++ repeat p (m - length (nth a h [])))
  | HInt _ => h
  end.

(* _pad_sequence, 141-155.  FlatMapIterable is read again for every pass over it; the lists it is made from do not
   change during the recursive call. *)
Fixpoint pad_heap (fuel : nat) (l : list hval) (h : heap) : result (hval * heap) :=
  if forallb (fun x => negb (is_ref x)) l then Ok (HInt PADDING, h)
  else if negb (forallb is_ref l) then Err EValue
  else match fuel with
       | O => Err EFuel
       | S fuel' =>
           let m := longest (map (fun v => length (contents h v)) l) in
           do ph <- pad_heap fuel' (concat (map (contents h) l)) h;
           let h2 := fold_left (extend m (fst ph)) l (snd ph) in
           Ok (HRef (length h2), h2 ++ [repeat (fst ph) m])
       end.

(* ------------------------------------------------------------------ *)
(* Sparsification                                                      *)

(* _sparse_rate_sequence, 186-192.  [draws] are the outcomes of random.random(), in order; the rest is returned. *)
Definition qgt (a b : Q) : bool := match Qcompare a b with Gt => true | _ => false end.
Section Sparse.
Variable rate : Q.
Fixpoint sparse (x : nested) (draws : list Q) : result (nested * list Q) :=
  match x with
  | NInt z => match draws with
              | [] => Err EFuel
              | r :: draws' => Ok (NInt (if qgt r rate then z else OOV), draws')
              end
  | NList l =>
      do lr <- (fix go (l : list nested) (draws : list Q) : result (list nested * list Q) :=
                  match l with
                  | [] => Ok ([], draws)
                  | y :: l' => do yr <- sparse y draws; do lr <- go l' (snd yr); Ok (fst yr :: fst lr, snd lr)
                  end) l draws;
      Ok (NList (fst lr), snd lr)
  end.
End Sparse.

(* ------------------------------------------------------------------ *)
(* Dictionaries of features                                            *)

(* _merge_dicts, 257-263 *)
Definition merge_dicts {V} (ds : list (dict V)) : result (dict V) :=
  foldM (fun result d => do _ <- raise_if (existsb (fun kv => dict_mem result (fst kv)) d) EValue;
                         Ok (dict_update result d)) [] ds.

(* the __append of 296-300 *)
Definition append_value {V} (result : dict (list V)) (kv : str * V) : dict (list V) :=
  dict_set result (fst kv) (match dict_get result (fst kv) with Some l => l ++ [snd kv] | None => [snd kv] end).

(* IterableFeatureExtractor.get_features, 295-305, from the features of the elements *)
Definition collect {V} (features : list (dict V)) : dict (list V) :=
  fold_left (fun result f => fold_left append_value f result) features [].

(* zip( *rows): the columns, up to the shortest row *)
Fixpoint cons_all {V} (xs : list V) (cols : list (list V)) : list (list V) :=
  match xs, cols with
  | x :: xs', c :: cols' => (x :: c) :: cons_all xs' cols'
  | _, _ => []
  end.
Fixpoint columns {V} (rows : list (list V)) : list (list V) :=
  match rows with
  | [] => []
  | [r] => map (fun x => [x]) r
  | r :: rows' => cons_all r (columns rows')
  end.

(* (dict(zip(value, t)) for t in zip( *value.values())), 314 *)
Definition per_element {V} (value : dict (list V)) : list (dict V) :=
  map (fun t => combine (dict_keys value) t) (columns (map snd value)).

(* IterableInterpreter.interpret, 312-315 *)
Definition interpret_each {O V} (interpret : O -> dict V -> result O) (objs : list O) (value : dict (list V)) : result (list O) :=
  mapM (fun ov => interpret (fst ov) (snd ov)) (combine objs (per_element value)).

(* CompositeInterpreter.interpret, 239-243 *)
Definition interpret_all {O V} (interpreters : list (O -> dict V -> result O)) (x : O) (value : dict V) : result O :=
  foldM (fun x i => i x value) x interpreters.

(* ------------------------------------------------------------------ *)
(* Builders                                                            *)

Section Builders.
(* B: the builders that are not wrappers, with their classes; they do not define merge *)
Variables (B : Type) (cls : B -> Z).

Inductive builder :=
| BBasic (b : B)
| BEmpty
| BPad (b : builder)
| BSparse (b : builder)
| BIter (b : builder)
| BComp (bs : list builder).

(* type(builder) *)
Inductive btype := TBasic (c : Z) | TEmpty | TPad | TSparse | TIter | TComp.
Definition btype_eqb (a b : btype) : bool :=
  match a, b with
  | TBasic c, TBasic d => c =? d
  | TEmpty, TEmpty | TPad, TPad | TSparse, TSparse | TIter, TIter | TComp, TComp => true
  | _, _ => false
  end.
Definition type_of (b : builder) : btype :=
  match b with
  | BBasic b => TBasic (cls b)
  | BEmpty => TEmpty
  | BPad _ => TPad
  | BSparse _ => TSparse
  | BIter _ => TIter
  | BComp _ => TComp
  end.

(* builder.__builder, builder.__builders *)
Definition inner (b : builder) : list builder :=
  match b with BPad b | BSparse b | BIter b => [b] | BComp bs => bs | _ => [] end.

(* type2builder, 390-392 *)
Definition group (bs : list builder) : list (btype * list builder) :=
  fold_left (fun g b => gset btype_eqb g (type_of b)
               (match gget btype_eqb g (type_of b) with Some l => l ++ [b] | None => [b] end)) bs [].

Definition is_empty_type (t : btype) : bool := match t with TEmpty => true | _ => false end.

(* merge, 383-409, and the merge methods 124-127, 168-171, 213-215, 285-288, 377-378 *)
Fixpoint merge (fuel : nat) (bs : list builder) : result builder :=
  match fuel with
  | O => Err EFuel
  | S fuel' =>
      let merge_type (t : btype) (values : list builder) : result (list builder) :=
        match t with
        | TBasic _ => Ok values          (* NotImplementedError is caught *)
        | TEmpty => Ok (firstn 1 values)
        | TPad => do b <- merge fuel' (concat (map inner values)); Ok [BPad b]
        | TSparse => do b <- merge fuel' (concat (map inner values)); Ok [BSparse b]
        | TIter => do b <- merge fuel' (concat (map inner values)); Ok [BIter b]
        | TComp => do b <- merge fuel' (concat (map inner values)); Ok [b]
        end in
      let type2builder := group bs in
      do _ <- raise_if (match type2builder with [] => true | _ => false end) EValue;
      let skip_empty := (1 <? zlen type2builder) in
      do parts <- mapM (fun tv =>
          if skip_empty && is_empty_type (fst tv) then Ok []
          else match snd tv with
               | [b] => Ok [b]
               | values => merge_type (fst tv) values
               end) type2builder;
      match concat parts with
      | [b] => Ok b
      | r => Ok (BComp r)
      end
  end.

Fixpoint bsize (b : builder) : nat :=
  match b with
  | BBasic _ | BEmpty => 1
  | BPad b | BSparse b | BIter b => S (bsize b)
  | BComp bs => S (fold_right (fun b n => (bsize b + n)%nat) 0%nat bs)
  end.
Definition bsizes (bs : list builder) : nat := fold_right (fun b n => (bsize b + n)%nat) 0%nat bs.
Definition merge_builders (bs : list builder) : result builder := merge (S (bsizes bs)) bs.

(* ---- the features a builder's extractor computes ---- *)

(* O: batches, sentences and tokens; elements: iterating over an object; basic: get_features of the extractor that a
   basic builder builds for the training set at hand *)
Variables (O : Type) (elements : O -> result (list O)) (basic : B -> O -> result (dict nested)).
(* the random draws: what sparsification makes of the value of a feature of an object *)
Variable sparsify : O -> str -> Q -> nested -> nested.

(* the loop of 136-137; only lists can be iterated *)
Definition pad_value (v : nested) : result nested :=
  match v with
  | NList l => do pl <- pad l; Ok (NList (snd pl))
  | NInt _ => Err EType
  end.
Definition pad_values (d : dict nested) : result (dict nested) :=
  mapM (fun kv => do v <- pad_value (snd kv); Ok (fst kv, v)) d.

(* get_features: 134-138, 178-183, 206-210 and 231-232, 295-305, 326-327.  The keyword argument sparse_rate is passed
   on by all but the sparse extractor, which calls its part without it.
   The extractor of a composite of one builder is that builder's extractor; without builders building fails. *)
Fixpoint features (b : builder) (rate : Q) (x : O) : result (dict nested) :=
  match b with
  | BBasic b => basic b x
  | BEmpty => Ok []
  | BPad b => do d <- features b rate x; pad_values d
  | BSparse b => do d <- features b 0%Q x; Ok (map (fun kv => (fst kv, sparsify x (fst kv) rate (snd kv))) d)
  | BIter b => do xs <- elements x;
               do ds <- mapM (features b rate) xs;
               Ok (map (fun kv => (fst kv, NList (snd kv))) (collect ds))
  | BComp bs =>
      match bs with
      | [] => Err EValue
      | [b] => features b rate x
      | _ => do ds <- (fix go (bs : list builder) : result (list (dict nested)) :=
                         match bs with
                         | [] => Ok []
                         | b :: bs' => do d <- features b rate x; do ds <- go bs'; Ok (d :: ds)
                         end) bs;
             merge_dicts ds
      end
  end.

(* ---- shapes() and initial_values() of the initializer a builder builds: 250-254, 330-354; the wrappers hand on
   the initializer of the wrapped builder ---- *)
Variables (S : Type) (init : B -> result (dict S)).
Fixpoint initial (b : builder) : result (dict S) :=
  match b with
  | BBasic b => init b
  | BEmpty => Ok []
  | BPad b | BSparse b | BIter b => initial b
  | BComp bs =>
      match bs with
      | [] => Err EValue
      | [b] => initial b
      | _ => do ds <- (fix go (bs : list builder) : result (list (dict S)) :=
                         match bs with
                         | [] => Ok []
                         | b :: bs' => do d <- initial b; do ds <- go bs'; Ok (d :: ds)
                         end) bs;
             merge_dicts ds
      end
  end.
End Builders.
