(* Model of saving and loading taggers: NeuralTagger.save, NeuralTagger.load and _feature_extractor_path of
   babylondigger/neural/tagger/neural_tagger.py:34-47,59-60, Model.save, Model.load and the two paths of
   babylondigger/neural/model.py:46-75,88-94, and the saves of the training loop (neural_tagger.py:111,122-123).
   Definitions only.

   Simplifications: there are no links and no "..", permissions and full disks are left out; every OSError is EExc.  What is
   written reaches the disk in the order in which it is written.  Pickles and the files of tf.train.Saver are sequences of
   bytes of an arbitrary type B, made and read by arbitrary functions; pickling itself does not raise.  A graph is its
   tensors, operations and the names of its variables; importing a graph gives a graph of the same tensors. *)
From Coq Require Import String Ascii ZArith NArith Bool List.
From Verif Require Import Base Model_Harness Model_Network.
Import ListNotations.
Open Scope Z_scope.

(* ------------------------------------------------------------------ *)
(* Files                                                               *)

(* a place in the file system: the names from the root *)
Definition place := list str.
Definition place_eqb : place -> place -> bool := list_eqb str_eqb.

Inductive node (B : Type) := Folder | Regular (c : list B).
Arguments Folder {B}.
Arguments Regular {B} c.
Definition files (B : Type) := place -> option (node B).
Definition put {B} (fs : files B) (p : place) (n : node B) : files B := fun q => if place_eqb p q then Some n else fs q.

(* the place of a path for a process in the directory cwd *)
Definition components (s : str) : place := filter (fun c => negb (str_eqb c [] || str_eqb c (of_string "."))) (split slash s).
Definition resolve (cwd : place) (s : str) : place := if startswith s [slash] then components s else cwd ++ components s.

(* os.path.exists *)
Definition there {B} (fs : files B) (p : place) : bool := negb (is_none (fs p)).
Definition path_exists {B} (cwd : place) (fs : files B) (s : str) : bool :=
  match s with [] => false | _ => there fs (resolve cwd s) end.

(* what changes the file system, one step at a time: os.mkdir, open(path, 'wb'), writing one byte; and raising instead *)
Inductive step (B : Type) :=
| Mkdir (p : place)
| Open (p : place)
| Write (p : place) (b : B)
| Raise (e : exn).
Arguments Mkdir {B} p.
Arguments Open {B} p.
Arguments Write {B} p b.
Arguments Raise {B} e.

Definition run_step {B} (fs : files B) (o : step B) : result (files B) :=
  match o with
  | Mkdir p =>
      match fs p, fs (removelast p) with
      | None, Some Folder => Ok (put fs p Folder)
      | _, _ => Err EExc
      end
  | Open p =>
      match fs p, fs (removelast p) with
      | Some Folder, _ => Err EExc
      | _, Some Folder => Ok (put fs p (Regular []))
      | _, _ => Err EExc
      end
  | Write p b =>
      match fs p with
      | Some (Regular c) => Ok (put fs p (Regular (c ++ [b])))
      | _ => Err EExc
      end
  | Raise e => Err e
  end.

(* steps up to the first that raises: what is there afterwards and what is raised *)
Fixpoint run_steps {B} (fs : files B) (l : list (step B)) : files B * option exn :=
  match l with
  | [] => (fs, None)
  | o :: l' => match run_step fs o with Ok fs' => run_steps fs' l' | Err e => (fs, Some e) end
  end.

(* with open(path, 'wb') as f: f.write(c) *)
Definition write_file {B} (p : place) (c : list B) : list (step B) := Open p :: map (Write p) c.
(* with open(path, 'rb') as f: f.read() *)
Definition read_file {B} (fs : files B) (p : place) : result (list B) :=
  match fs p with Some (Regular c) => Ok c | _ => Err EExc end.

(* os.makedirs of a place given by its names in reverse order: first the parent, if it is missing *)
Fixpoint makedirs {B} (fs : files B) (rp : list str) : list (step B) :=
  match rp with
  | [] => [Raise EExc]
  | _ :: rp' => (if there fs (rev rp') then [] else makedirs fs rp') ++ [Mkdir (rev rp)]
  end.
(* os.makedirs(path); makedirs('') raises *)
Definition makedirs_path {B} (cwd : place) (fs : files B) (s : str) : list (step B) :=
  match s with [] => [Raise EExc] | _ => makedirs fs (rev (resolve cwd s)) end.

(* ------------------------------------------------------------------ *)
(* What is saved                                                       *)

(* pickle.dump and pickle.load, and the same for graphs in *.meta files *)
Record codec (B A : Type) := mkCodec { enc : A -> list B; dec : list B -> result A }.
Arguments mkCodec {B A} enc dec.
Arguments enc {B A} c.
Arguments dec {B A} c.

Record graph (T O : Type) := mkGraph { g_tensors : list T; g_ops : list O; g_variables : list str }.
Arguments mkGraph {T O} g_tensors g_ops g_variables.
Arguments g_tensors {T O} g.
Arguments g_ops {T O} g.
Arguments g_variables {T O} g.

(* NeuralTagger, neural_tagger.py:19-22, with its Model, model.py:13-15: a session is the values of its variables *)
Record tagger (X I T O V : Type) := mkTagger {
  t_extractor : X;
  t_interpreter : I;
  t_network : network T O;
  t_graph : graph T O;
  t_session : dict V
}.
Arguments mkTagger {X I T O V} t_extractor t_interpreter t_network t_graph t_session.
Arguments t_extractor {X I T O V} t.
Arguments t_interpreter {X I T O V} t.
Arguments t_network {X I T O V} t.
Arguments t_graph {X I T O V} t.
Arguments t_session {X I T O V} t.

(* the formats of all files: the two pickles, *.meta, *.data-00000-of-00001, *.index and the file named checkpoint *)
Record formats (B X I T O V : Type) := mkFormats {
  f_pair : codec B (X * I);
  f_mapping : codec B (network str str);
  f_graph : codec B (graph T O);
  f_data : dict V -> list B;
  f_index : dict V -> list B;
  f_values : list B -> list B -> result (dict V);
  f_checkpoint : str -> list B
}.
Arguments mkFormats {B X I T O V} f_pair f_mapping f_graph f_data f_index f_values f_checkpoint.
Arguments f_pair {B X I T O V} f.
Arguments f_mapping {B X I T O V} f.
Arguments f_graph {B X I T O V} f.
Arguments f_data {B X I T O V} f.
Arguments f_index {B X I T O V} f.
Arguments f_values {B X I T O V} f _ _.
Arguments f_checkpoint {B X I T O V} f _.

(* neural_tagger.py:59-60, model.py:88-94 *)
Definition extractor_path (path : str) : str := path_join path (of_string "extractor-interpreter").
Definition graph_path (path : str) : str := path_join path (of_string "graph").
Definition mapping_path (path : str) : str := path_join path (of_string "mapping").
(* the files of tf.train.Saver for the path graph_path path *)
Definition data_path (path : str) : str := graph_path path ++ of_string ".data-00000-of-00001".
Definition index_path (path : str) : str := graph_path path ++ of_string ".index".
Definition meta_path (path : str) : str := graph_path path ++ of_string ".meta".
Definition checkpoint_path (path : str) : str := path_join path (of_string "checkpoint").

(* ------------------------------------------------------------------ *)
(* Saving                                                              *)

(* the values that tf.train.Saver() saves: those of all variables; without variables it raises a ValueError, for a variable
   that has no value FailedPreconditionError *)
Definition saved_values {T O V} (g : graph T O) (session : dict V) : result (dict V) :=
  match g_variables g with
  | [] => Err EValue
  | vs => mapM (fun v => do x <- of_option EExc (dict_get session v); Ok (v, x)) vs
  end.

(* tf.train.Saver().save, model.py:53-54.  A new Saver has no earlier checkpoints to delete. *)
Definition saver_steps {B X I T O V} (f : formats B X I T O V) (cwd : place) (g : graph T O) (session : dict V) (path : str)
  : list (step B) :=
  match saved_values g session with
  | Err e => [Raise e]
  | Ok values =>
      write_file (resolve cwd (data_path path)) (f_data f values)
      ++ write_file (resolve cwd (index_path path)) (f_index f values)
      ++ write_file (resolve cwd (checkpoint_path path)) (f_checkpoint f (graph_path path))
      ++ write_file (resolve cwd (meta_path path)) (enc (f_graph f) g)
  end.

(* Model.save, model.py:46-57 *)
Definition model_steps {B X I T O V} (tname : T -> str) (oname : O -> str) (f : formats B X I T O V) (cwd : place)
           (t : tagger X I T O V) (path : str) : list (step B) :=
  saver_steps f cwd (t_graph t) (t_session t) path
  ++ write_file (resolve cwd (mapping_path path)) (enc (f_mapping f) (mapping tname oname (t_network t))).

(* NeuralTagger.save, neural_tagger.py:34-40: the steps it takes from the given files.  What it returns is LazyNeuralTagger(path). *)
Definition save_steps {B X I T O V} (tname : T -> str) (oname : O -> str) (f : formats B X I T O V) (cwd : place)
           (fs : files B) (t : tagger X I T O V) (path : str) : list (step B) :=
  (if path_exists cwd fs path then [] else makedirs_path cwd fs path)
  ++ write_file (resolve cwd (extractor_path path)) (enc (f_pair f) (t_extractor t, t_interpreter t))
  ++ model_steps tname oname f cwd t path.
Definition save {B X I T O V} (tname : T -> str) (oname : O -> str) (f : formats B X I T O V) (cwd : place)
           (fs : files B) (t : tagger X I T O V) (path : str) : files B * option exn :=
  run_steps fs (save_steps tname oname f cwd fs t path).

(* the saves of the training loop, neural_tagger.py:111,122-123: one tagger for each epoch, from the given epoch on *)
Fixpoint save_epochs {B X I T O V} (tname : T -> str) (oname : O -> str) (f : formats B X I T O V) (cwd : place)
         (model_dir : str) (epoch : Z) (taggers : list (tagger X I T O V)) (fs : files B) : files B * option exn :=
  match taggers with
  | [] => (fs, None)
  | t :: ts =>
      match save tname oname f cwd fs t (path_join model_dir (epoch_name epoch)) with
      | (fs', None) => save_epochs tname oname f cwd model_dir (epoch + 1) ts fs'
      | (fs', Some e) => (fs', Some e)
      end
  end.

(* ------------------------------------------------------------------ *)
(* Loading                                                             *)

(* get_tensor_by_name, get_operation_by_name *)
Definition named {T} (tname : T -> str) (l : list T) (name : str) : result T :=
  of_option EKey (find (fun t => str_eqb name (tname t)) l).

(* Model.load, model.py:61-72: import_meta_graph, restore, and the mapping attached to the graph *)
Definition load_model {B X I T O V} (tname : T -> str) (oname : O -> str) (f : formats B X I T O V) (cwd : place)
           (fs : files B) (path : str) : result (network T O * graph T O * dict V) :=
  do meta <- read_file fs (resolve cwd (meta_path path));
  do g <- dec (f_graph f) meta;
  do index <- read_file fs (resolve cwd (index_path path));
  do data <- read_file fs (resolve cwd (data_path path));
  do values <- f_values f index data;
  do session <- mapM (fun v => do x <- of_option EExc (dict_get values v); Ok (v, x)) (g_variables g);
  do m <- read_file fs (resolve cwd (mapping_path path));
  do names <- dec (f_mapping f) m;
  do n <- attach (named tname (g_tensors g)) (named oname (g_ops g)) names;
  Ok (n, g, session).

(* NeuralTagger.load, neural_tagger.py:42-47; LazyNeuralTagger(path).tag loads before anything else, lines 68-69 *)
Definition load {B X I T O V} (tname : T -> str) (oname : O -> str) (f : formats B X I T O V) (cwd : place)
           (fs : files B) (path : str) : result (tagger X I T O V) :=
  do c <- read_file fs (resolve cwd (extractor_path path));
  do xi <- dec (f_pair f) c;
  do m <- load_model tname oname f cwd fs path;
  let '(n, g, session) := m in
  Ok (mkTagger (fst xi) (snd xi) n g session).
