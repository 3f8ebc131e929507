(* Notions used in the statements about networks; independent of the functions of Model_Network.v. *)
From Coq Require Import String Ascii ZArith NArith QArith Bool List.
From Verif Require Import Base Spec_Harness Model_Network.
Import ListNotations.
Open Scope Z_scope.

(* the tensors and operations an initializer and a network consist of *)
Definition init_tensors {T O} (i : initializer T O) : list T :=
  match i with IGlobal _ => [] | IMatrix _ ix vs up => [ix; vs; up] end.
Definition init_ops {T O} (i : initializer T O) : list O :=
  match i with IGlobal op => [op] | IMatrix _ _ _ _ => [] end.
Definition tensors_of {T O} (n : network T O) : list T :=
  map snd (n_inputs n) ++ map snd (n_outputs n) ++ map snd (n_gold n) ++ n_loss n :: flat_map init_tensors (n_initializers n).
Definition ops_of {T O} (n : network T O) : list O := n_optimizer n :: flat_map init_ops (n_initializers n).

(* a graph: its tensors and operations, each with a name of its own *)
Definition by_name {T} (tname : T -> str) (g : list T) (name : str) : result T :=
  match find (fun t => str_eqb name (tname t)) g with Some t => Ok t | None => Err EKey end.
Definition uniquely_named {T} (tname : T -> str) (g : list T) : Prop := NoDup (map tname g).

(* the names of two initializers and two networks agree at every place *)
Inductive same_init {T O T' O'} (tname : T -> str) (oname : O -> str) (tname' : T' -> str) (oname' : O' -> str)
  : initializer T O -> initializer T' O' -> Prop :=
| SameGlobal op op' : oname op = oname' op' -> same_init tname oname tname' oname' (IGlobal op) (IGlobal op')
| SameMatrix p ix vs up ix' vs' up' :
    tname ix = tname' ix' -> tname vs = tname' vs' -> tname up = tname' up' ->
    same_init tname oname tname' oname' (IMatrix p ix vs up) (IMatrix p ix' vs' up').
Definition same_dict {T T'} (tname : T -> str) (tname' : T' -> str) (d : dict T) (d' : dict T') : Prop :=
  Forall2 (fun kt kt' => fst kt = fst kt' /\ tname (snd kt) = tname' (snd kt')) d d'.
Definition same_network {T O T' O'} (tname : T -> str) (oname : O -> str) (tname' : T' -> str) (oname' : O' -> str)
           (n : network T O) (n' : network T' O') : Prop :=
  same_dict tname tname' (n_inputs n) (n_inputs n') /\ same_dict tname tname' (n_outputs n) (n_outputs n')
  /\ same_dict tname tname' (n_gold n) (n_gold n') /\ oname (n_optimizer n) = oname' (n_optimizer n')
  /\ tname (n_loss n) = tname' (n_loss n')
  /\ Forall2 (same_init tname oname tname' oname') (n_initializers n) (n_initializers n').

(* a test for the identity of tensors (or matrices) *)
Definition identity_test {T} (eqb : T -> T -> bool) : Prop := forall a b, eqb a b = true <-> a = b.

(* the value d holds for a name belongs to the placeholder t *)
Definition given {T V} (keys : dict T) (d : dict V) (t : T) (v : V) : Prop :=
  exists name, dict_get keys name = Some t /\ dict_get d name = Some v.

(* the matrices the initializers of a list write to *)
Definition written {T O M} (matrix : T -> M) (l : list (initializer T O)) : list M :=
  flat_map (fun i => match i with IGlobal _ => [] | IMatrix _ _ _ up => [matrix up] end) l.
Definition only_matrices {T O} (l : list (initializer T O)) : Prop :=
  Forall (fun i => match i with IGlobal _ => False | IMatrix _ _ _ _ => True end) l.

(* what one task contributes to a network: its inputs, gold labels, outputs, loss and initializers *)
Record contribution (T O : Type) := mkContribution {
  c_inputs : dict T;
  c_gold : dict T;
  c_output : dict T;
  c_loss : T;
  c_inits : list (initializer T O)
}.
Arguments mkContribution {T O} c_inputs c_gold c_output c_loss c_inits.
Arguments c_inputs {T O} c.
Arguments c_gold {T O} c.
Arguments c_output {T O} c.
Arguments c_loss {T O} c.
Arguments c_inits {T O} c.

(* d is a dictionary with the bindings of a, where a binds, and else those of b *)
Definition prefers {T} (d a b : dict T) : Prop :=
  dict_ok d /\ forall k, dict_get d k = match dict_get a k with Some t => Some t | None => dict_get b k end.

(* the task builders were called one after another, each on the graph its predecessor left; a builder is given its own
   inputs together with the shared ones (which win), the shared results, its gold labels and the dropout placeholder *)
Inductive tasks_called {T O G SH P} (shapes : SH) (sh_inputs sh : dict T) (dropout : T)
  : G -> list (task T O G SH P) -> list (contribution T O) -> G -> Prop :=
| CalledNone g : tasks_called shapes sh_inputs sh dropout g [] [] g
| CalledTask g g1 g2 g3 g4 t ts c cs seen :
    k_inputs t shapes g = Ok (g1, c_inputs c) ->
    k_gold t shapes g1 = Ok (g2, c_gold c) ->
    prefers seen sh_inputs (c_inputs c) ->
    k_build t shapes seen sh (c_gold c) dropout g2 = Ok (g3, (c_output c, c_loss c, Some (c_inits c))) ->
    tasks_called shapes sh_inputs sh dropout g3 ts cs g4 ->
    tasks_called shapes sh_inputs sh dropout g (t :: ts) (c :: cs) g4.

(* what python guarantees of the dictionaries of a builder; and the builder's gold labels have names of their own *)
Definition task_ok {T O G SH P} (t : task T O G SH P) : Prop :=
  (forall shapes g g' d, k_inputs t shapes g = Ok (g', d) -> dict_ok d)
  /\ (forall shapes g g' d, k_gold t shapes g = Ok (g', d) ->
        dict_ok d /\ ~ In (of_string "dropout_probability") (dict_keys d) /\ ~ In (of_string "learning_rate") (dict_keys d))
  /\ (forall shapes i s gold p g g' d l x, k_build t shapes i s gold p g = Ok (g', (d, l, x)) -> dict_ok d).
Definition shared_ok {T O G SH P} (s : shared T O G SH P) : Prop :=
  forall shapes g g' d, s_inputs s shapes g = Ok (g', d) -> dict_ok d.

(* the binding of a name in the last of some dictionaries that has it *)
Fixpoint last_binding {T} (ds : list (dict T)) (k : str) : option T :=
  match ds with
  | [] => None
  | d :: ds' => match last_binding ds' k with Some t => Some t | None => dict_get d k end
  end.

(* no two of the dictionaries have a name in common *)
Definition disjoint_names {T} (ds : list (dict T)) : Prop :=
  ForallOrdPairs (fun d e => forall k, In k (dict_keys d) -> ~ In k (dict_keys e)) ds.

(* names without a slash, as directories have them *)
Definition simple_name (s : str) : Prop := s <> [] /\ ~ In (ch "/"%char) s.
Inductive dir_ok : dir -> Prop :=
| DirOk subs : NoDup (map fst subs) -> Forall (fun nd => simple_name (fst nd) /\ dir_ok (snd nd)) subs -> dir_ok (Dir subs).

(* the directories below a directory, as lists of names *)
Inductive below : dir -> list str -> Prop :=
| BelowHere subs name d : In (name, d) subs -> below (Dir subs) [name]
| BelowDeep subs name d p : In (name, d) subs -> below d p -> below (Dir subs) (name :: p).

(* a directory with one subdirectory for each epoch, listed in the given order *)
Definition epochs_of (order : list nat) : dir :=
  Dir (map (fun i => (of_string "epoch-" ++ print_Z (Z.of_nat i), Dir [])) order).
(* the paths of the first k epochs *)
Definition epoch_paths (base : str) (k : nat) : list str :=
  map (fun i => based base (of_string "epoch-" ++ print_Z (Z.of_nat i))) (seq 0 k).
