(* Model of networks and their initialization (babylondigger/neural/network.py, initializers.py), of the parts of a model
   that use them (babylondigger/neural/model.py:17-41) and of PretrainedTaggerTrainer
   (babylondigger/neural/tagger/neural_tagger.py:77-87).  Definitions only.

   Tensors and operations are arbitrary types T and O.  A graph is known through what it answers: the tensor and the
   operation of a name.  Values fed to a session are of an arbitrary type V. *)
From Coq Require Import String Ascii ZArith NArith Bool List.
From Verif Require Import Base Model_Features Model_UDEval Model_Harness.
Import ListNotations.
Open Scope Z_scope.

(* ------------------------------------------------------------------ *)
(* Networks and their mappings                                         *)

(* initializers.py:17-66: GlobalInitializer and MatrixInitializer.  With names in place of tensors and operations these are
   GlobalInitializerMapping and MatrixInitializerMapping. *)
Inductive initializer (T O : Type) :=
| IGlobal (init_op : O)
| IMatrix (param : str) (indices values update_op : T).
Arguments IGlobal {T O} init_op.
Arguments IMatrix {T O} param indices values update_op.

(* network.py:21-29; with names in place of tensors and operations NeuralNetworkMapping, lines 50-57 *)
Record network (T O : Type) := mkNetwork {
  n_inputs : dict T;
  n_outputs : dict T;
  n_gold : dict T;
  n_optimizer : O;
  n_loss : T;
  n_initializers : list (initializer T O)
}.
Arguments mkNetwork {T O} n_inputs n_outputs n_gold n_optimizer n_loss n_initializers.
Arguments n_inputs {T O} n.
Arguments n_outputs {T O} n.
Arguments n_gold {T O} n.
Arguments n_optimizer {T O} n.
Arguments n_loss {T O} n.
Arguments n_initializers {T O} n.

(* _tensor2name, network.py:201-202 *)
Definition tensor2name {T} (tname : T -> str) (d : dict T) : dict str := map (fun kv => (fst kv, tname (snd kv))) d.
(* _name2tensor, network.py:205-206 *)
Definition name2tensor {T} (get_tensor : str -> result T) (d : dict str) : result (dict T) :=
  mapM (fun kv => do t <- get_tensor (snd kv); Ok (fst kv, t)) d.

(* GlobalInitializer.mapping and MatrixInitializer.mapping, initializers.py:33-34,64-66 *)
Definition init_mapping {T O} (tname : T -> str) (oname : O -> str) (i : initializer T O) : initializer str str :=
  match i with
  | IGlobal op => IGlobal (oname op)
  | IMatrix p ix vs up => IMatrix p (tname ix) (tname vs) (tname up)
  end.
(* attach of the two mappings, initializers.py:23-24,46-51 *)
Definition init_attach {T O} (get_tensor : str -> result T) (get_operation : str -> result O) (i : initializer str str)
  : result (initializer T O) :=
  match i with
  | IGlobal op => do op' <- get_operation op; Ok (IGlobal op')
  | IMatrix p ix vs up =>
      do ix' <- get_tensor ix; do vs' <- get_tensor vs; do up' <- get_tensor up; Ok (IMatrix p ix' vs' up')
  end.

(* NeuralNetworkMapping.__init__, network.py:51-57 *)
Definition mapping {T O} (tname : T -> str) (oname : O -> str) (n : network T O) : network str str :=
  mkNetwork (tensor2name tname (n_inputs n)) (tensor2name tname (n_outputs n)) (tensor2name tname (n_gold n))
            (oname (n_optimizer n)) (tname (n_loss n)) (map (init_mapping tname oname) (n_initializers n)).

(* NeuralNetworkMapping.attach, network.py:59-67 *)
Definition attach {T O} (get_tensor : str -> result T) (get_operation : str -> result O) (m : network str str)
  : result (network T O) :=
  do inputs <- name2tensor get_tensor (n_inputs m);
  do outputs <- name2tensor get_tensor (n_outputs m);
  do gold <- name2tensor get_tensor (n_gold m);
  do optimizer <- get_operation (n_optimizer m);
  do loss <- get_tensor (n_loss m);
  do initializers <- mapM (init_attach get_tensor get_operation) (n_initializers m);
  Ok (mkNetwork inputs outputs gold optimizer loss initializers).

(* ------------------------------------------------------------------ *)
(* Feeding                                                             *)

(* a dictionary with tensors as keys; teqb decides the identity of tensors *)
Definition feed (T V : Type) := list (T * V).

(* d[t] = v *)
Fixpoint feed_set {T V} (teqb : T -> T -> bool) (d : feed T V) (t : T) (v : V) : feed T V :=
  match d with
  | [] => [(t, v)]
  | (t', v') :: d' => if teqb t t' then (t', v) :: d' else (t', v') :: feed_set teqb d' t v
  end.

(* _fill_dict, network.py:194-198 *)
Definition fill_dict {T V} (teqb : T -> T -> bool) (keys : dict T) (values : dict V) : result (feed T V) :=
  foldM (fun r kv => do t <- of_option EKey (dict_get keys (fst kv)); Ok (feed_set teqb r t (snd kv))) [] values.

(* get_feed_dict, network.py:40-44 *)
Definition get_feed_dict {T O V} (teqb : T -> T -> bool) (n : network T O) (input : dict V) (gold : option (dict V))
  : result (feed T V) :=
  do f <- fill_dict teqb (n_inputs n) input;
  match gold with
  | None => Ok f
  | Some g =>
      do h <- fill_dict teqb (n_gold n) g;
      Ok (fold_left (fun acc tv => feed_set teqb acc (fst tv) (snd tv)) h f)
  end.

(* Model.train and Model.predict, model.py:21-41.  A session is a state of type S; run_train evaluates the loss and the
   optimizer operation for a feed, run_outputs a dictionary of outputs. *)
Definition model_train {T O V S L} (teqb : T -> T -> bool) (run_train : S -> T * O -> feed T V -> result (S * L))
           (n : network T O) (s : S) (features labels : dict V) : result (S * L) :=
  do f <- get_feed_dict teqb n features (Some labels);
  run_train s (n_loss n, n_optimizer n) f.
Definition model_predict {T O V S W} (teqb : T -> T -> bool) (run_outputs : S -> dict T -> feed T V -> result W)
           (n : network T O) (s : S) (features : dict V) : result W :=
  do f <- get_feed_dict teqb n features None;
  run_outputs s (n_outputs n) f.

(* ------------------------------------------------------------------ *)
(* Initialization                                                      *)

(* zip( *embeddings) unpacked into two names, initializers.py:61: no pair gives a ValueError *)
Definition unzip {A B} (l : list (A * B)) : result (list A * list B) :=
  match l with [] => Err EValue | _ => Ok (map fst l, map snd l) end.

(* one call of session.run made by an initializer: an operation, or an update tensor with the feed
   {indices: ..., values: ...}.  The two placeholders are different tensors (utils.py:158-159). *)
Inductive init_run (T O V : Type) :=
| RGlobal (op : O)
| RUpdate (update_op indices values : T) (rows : list Z) (vectors : list V).
Arguments RGlobal {T O V} op.
Arguments RUpdate {T O V} update_op indices values rows vectors.

(* initialize, initializers.py:29-31,59-62; params are the keyword arguments: pairs of a row and a vector *)
Definition init_call {T O V} (params : dict (list (Z * V))) (i : initializer T O) : result (init_run T O V) :=
  match i with
  | IGlobal op => Ok (RGlobal op)
  | IMatrix p ix vs up =>
      do embeddings <- of_option EKey (dict_get params p);
      do rv <- unzip embeddings;
      Ok (RUpdate up ix vs (fst rv) (snd rv))
  end.

(* Model.initialize, model.py:17-19: the calls of session.run and the exception that ends it, if any *)
Fixpoint init_calls {T O V} (params : dict (list (Z * V))) (l : list (initializer T O)) : gen (init_run T O V) :=
  match l with
  | [] => ([], None)
  | i :: l' =>
      match init_call params i with
      | Err e => ([], Some e)
      | Ok r => let (rs, e) := init_calls params l' in (r :: rs, e)
      end
  end.

(* What the calls do to the matrices: the global operation gives every matrix its initial contents, an update writes its
   vectors into the rows of the matrix of the update operation one after another (tf.scatter_update, utils.py:160, is not
   ordered for repeated rows).  M is the type of matrices, meqb decides their identity. *)
Definition store (M V : Type) := M -> Z -> V.
Definition write_row {M V} (meqb : M -> M -> bool) (m : M) (st : store M V) (rv : Z * V) : store M V :=
  fun m' r => if meqb m' m && (r =? fst rv) then snd rv else st m' r.
Definition apply_run {T O M V} (meqb : M -> M -> bool) (matrix : T -> M) (fresh : store M V) (st : store M V)
           (c : init_run T O V) : store M V :=
  match c with
  | RGlobal _ => fresh
  | RUpdate up _ _ rows vectors => fold_left (write_row meqb (matrix up)) (combine rows vectors) st
  end.
Definition model_initialize {T O M V} (meqb : M -> M -> bool) (matrix : T -> M) (fresh : store M V)
           (n : network T O) (params : dict (list (Z * V))) (st : store M V) : result (store M V) :=
  match init_calls params (n_initializers n) with
  | (rs, None) => Ok (fold_left (apply_run meqb matrix fresh) rs st)
  | (_, Some e) => Err e
  end.

(* ------------------------------------------------------------------ *)
(* Building                                                            *)

(* a task builder, network.py:84-99.  G is the state of the graph under construction and SH the type of the shapes.
   k_build gives output, loss and what initializers() returns afterwards: None for the builders that do not override it
   (LemmaSuffixBinaryTaskNetworkBuilder). *)
Record task (T O G SH P : Type) := mkTask {
  k_providers : list P;
  k_inputs : SH -> G -> result (G * dict T);
  k_gold : SH -> G -> result (G * dict T);
  k_build : SH -> dict T -> dict T -> dict T -> T -> G -> result (G * (dict T * T * option (list (initializer T O))))
}.
Arguments mkTask {T O G SH P} k_providers k_inputs k_gold k_build.
Arguments k_providers {T O G SH P} t.
Arguments k_inputs {T O G SH P} t.
Arguments k_gold {T O G SH P} t.
Arguments k_build {T O G SH P} t.

(* a shared builder, network.py:102-111.  s_providers is the list the builder keeps and hands out
   (shared_builders.py:82-83). *)
Record shared (T O G SH P : Type) := mkShared {
  s_providers : list P;
  s_inputs : SH -> G -> result (G * dict T);
  s_build : SH -> dict T -> T -> G -> result (G * (dict T * list (initializer T O)))
}.
Arguments mkShared {T O G SH P} s_providers s_inputs s_build.
Arguments s_providers {T O G SH P} s.
Arguments s_inputs {T O G SH P} s.
Arguments s_build {T O G SH P} s.

(* feature_providers, network.py:122-126: the list of the shared builder itself is extended, so the builder keeps the
   longer list.  The result: what is returned and the builder afterwards. *)
Definition feature_providers {T O G SH P} (sb : shared T O G SH P) (tasks : list (task T O G SH P))
  : list P * shared T O G SH P :=
  let r := fold_left (fun r t => r ++ k_providers t) tasks (s_providers sb) in
  (r, mkShared r (s_inputs sb) (s_build sb)).

Definition n_dropout : str := of_string "dropout_probability".
Definition n_lr : str := of_string "learning_rate".

(* the names collected by the loop of build *)
Record parts (T O : Type) := mkParts {
  b_inputs : dict T;
  b_gold : dict T;
  b_outputs : dict T;
  b_losses : list T;
  b_inits : list (initializer T O)
}.
Arguments mkParts {T O} b_inputs b_gold b_outputs b_losses b_inits.
Arguments b_inputs {T O} p.
Arguments b_gold {T O} p.
Arguments b_outputs {T O} p.
Arguments b_losses {T O} p.
Arguments b_inits {T O} p.

(* one pass of the loop, network.py:150-161; sh_inputs and sh are the inputs and the result of the shared part *)
Definition build_task {T O G SH P} (shapes : SH) (sh_inputs sh : dict T) (s : G * parts T O) (t : task T O G SH P)
  : result (G * parts T O) :=
  do gi <- k_inputs t shapes (fst s);
  let inputs := dict_update (b_inputs (snd s)) (snd gi) in
  let task_inputs := dict_update (snd gi) sh_inputs in
  do gg <- k_gold t shapes (fst gi);
  let gold := dict_update (b_gold (snd s)) (snd gg) in
  do dropout <- of_option EKey (dict_get gold n_dropout);
  do gb <- k_build t shapes task_inputs sh (snd gg) dropout (fst gg);
  let '(output, loss, inits) := snd gb in
  do l <- of_option EType inits;
  Ok (fst gb, mkParts inputs gold (dict_update (b_outputs (snd s)) output) (b_losses (snd s) ++ [loss])
                      (b_inits (snd s) ++ l)).

(* build, network.py:128-175.  placeholders creates the placeholders of the dropout probability and the learning rate,
   sum_losses is lines 162-165 for at least one loss, optimize is _optimizer (line 177-188; a ValueError for an unknown type)
   and global_init is global_variables_initializer. *)
Definition build {T O G SH P} (placeholders : G -> G * (T * T)) (sum_losses : list T -> G -> G * T)
           (optimize : T -> T -> G -> result (G * O)) (global_init : G -> G * O)
           (sb : shared T O G SH P) (tasks : list (task T O G SH P)) (shapes : SH) (g : G)
  : result (network T O * G) :=
  let (g0, dl) := placeholders g in
  let gold := [(n_dropout, fst dl); (n_lr, snd dl)] in
  do gi <- s_inputs sb shapes g0;
  let sh_inputs := snd gi in
  do gs <- s_build sb shapes sh_inputs (fst dl) (fst gi);
  let (sh, sh_inits) := snd gs in
  do r <- foldM (build_task shapes sh_inputs sh) (fst gs, mkParts (dict_update [] sh_inputs) gold [] [] []) tasks;
  let b := snd r in
  match b_losses b with
  | [] => Err EValue
  | losses =>
      let (g1, loss) := sum_losses losses (fst r) in
      do lr <- of_option EKey (dict_get (b_gold b) n_lr);
      do go <- optimize loss lr g1;
      let (g2, init) := global_init (fst go) in
      Ok (mkNetwork (b_inputs b) (b_outputs b) (b_gold b) (snd go) loss (IGlobal init :: sh_inits ++ b_inits b), g2)
  end.

(* ------------------------------------------------------------------ *)
(* PretrainedTaggerTrainer                                             *)

(* a directory as far as os.walk looks at it here: its subdirectories, in any order *)
Inductive dir := Dir (subdirs : list (str * dir)).

(* [os.path.join(root, dir) for root, dirs, _ in os.walk(path) for dir in dirs]: top-down, so the subdirectories of a
   directory are listed before it descends into the first of them *)
Fixpoint walk (path : str) (d : dir) : list str :=
  match d with
  | Dir subs =>
      map (fun nd => path_join path (fst nd)) subs
      ++ flat_map (fun nd => walk (path_join path (fst nd)) (snd nd)) subs
  end.

(* PretrainedTaggerTrainer.train, neural_tagger.py:77-87; a LazyNeuralTagger is its path *)
Fixpoint test_all {R} (test : str -> result R) (models : list str) : gen (R * str) :=
  match models with
  | [] => ([], None)
  | m :: ms =>
      match test m with
      | Err e => ([], Some e)
      | Ok r => let (ys, e) := test_all test ms in ((r, m) :: ys, e)
      end
  end.
Definition pretrained_train {R} (model_dir : str) (d : dir) (dev_tester : option (str -> result R)) : gen (R * str) :=
  let models := isort str_le (walk model_dir d) in
  match dev_tester with
  | None => ([], None)
  | Some test => test_all test models
  end.
