(* Model of what is opened and closed: babylondigger/neural/model.py:43-89, LazyNeuralTagger and NeuralTagger.load of
   babylondigger/neural/tagger/neural_tagger.py:42-74, the session of NeuralTaggerTrainer.train (105), CoNLLUReader.read_from_file
   and _read of babylondigger/evaluation/conllu_io.py:111-135, load_conllu_file of
   babylondigger/evaluation/conll17_ud_eval.py:464-466.  Definitions only.

   Simplifications: closing does not raise; garbage collection, which may close a file nobody refers to, is left out;
   what a generator computes between two yields opens nothing else. *)
From Coq Require Import String Ascii ZArith NArith Bool List.
From Verif Require Import Base.
Import ListNotations.

(* `except Exception` catches the first kind only; KeyboardInterrupt is of the second kind *)
Inductive raised := Ordinary (e : exn) | Interrupt.

(* files and sessions, numbered in the order in which they are opened *)
Inductive kind := File | Session.
Definition resource : Type := (kind * nat)%type.
Record world := mkWorld { opened : list resource; next_number : nat }.

Definition acquire (k : kind) (w : world) : world * resource :=
  (mkWorld ((k, next_number w) :: opened w) (S (next_number w)), (k, next_number w)).
Definition release (r : resource) (w : world) : world :=
  mkWorld (filter (fun x => negb (snd x =? snd r)%nat) (opened w)) (next_number w).
Definition is_open (r : resource) (w : world) : bool := existsb (fun x => (snd x =? snd r)%nat) (opened w).

(* with open(path) as f: body; None: nothing is raised *)
Definition with_file (opening body : option raised) (w : world) : world * option raised :=
  match opening with
  | Some r => (w, Some r)
  | None => let (w', f) := acquire File w in (release f w', body)
  end.

(* what may be raised while a tagger is loaded: by reading the extractor file, by tf.Session, by importing and restoring the
   graph, by reading the mapping, by attaching it *)
Record loading := mkLoading {
  l_open_extractor : option raised;
  l_read_extractor : option raised;
  l_session : option raised;
  l_graph : option raised;
  l_open_mapping : option raised;
  l_read_mapping : option raised;
  l_attach : option raised
}.

(* Model.load, model.py:62-75 *)
Definition model_load (o : loading) (w : world) : world * (resource + raised) :=
  match l_session o with
  | Some r => (w, inr r)
  | None =>
      let (w1, s) := acquire Session w in
      let (w2, failed) := match l_graph o with
                          | Some r => (w1, Some r)
                          | None => let (w2, e) := with_file (l_open_mapping o) (l_read_mapping o) w1 in
                                    (w2, match e with Some r => Some r | None => l_attach o end)
                          end in
      match failed with
      | None => (w2, inl s)
      | Some (Ordinary e) => (release s w2, inr (Ordinary e))
      | Some Interrupt => (w2, inr Interrupt)
      end
  end.

(* NeuralTagger.load, neural_tagger.py:42-47 *)
Definition tagger_load (o : loading) (w : world) : world * (resource + raised) :=
  let (w1, e) := with_file (l_open_extractor o) (l_read_extractor o) w in
  match e with Some r => (w1, inr r) | None => model_load o w1 end.

(* Model.new, model.py:77-79, at neural_tagger.py:105 *)
Definition model_new (o : option raised) (w : world) : world * (resource + raised) :=
  match o with Some r => (w, inr r) | None => let (w', s) := acquire Session w in (w', inl s) end.

(* ------------------------------------------------------------------ *)
(* Generators                                                          *)

Section Generators.
Variables (V S : Type).

(* what happens between two yields *)
Inductive progress := Yields (v : V) (s : S) | Stops | Raises (r : raised).
Variable proceed : S -> progress.

(* generators by where they are: before the first next (a reader has its file already), at a yield, at the end *)
Inductive generator :=
| FreshTagger (o : loading) (s : S)
| FreshTrainer (o : option raised) (s : S)
| FreshReader (f : resource) (s : S)
| Suspended (r : resource) (s : S)
| Finished.

Inductive outcome := Created | Yielded (v : V) | Stopped | Raised (r : raised) | Closed | Loaded.

(* from a yield, or from the beginning of the with block or the try block: when it is left the session or the file is closed
   (neural_tagger.py:69, 105, conllu_io.py:134-135).  Using something that is closed raises. *)
Definition resume (r : resource) (s : S) (w : world) : generator * world * outcome :=
  if is_open r w then
    match proceed s with
    | Yields v s' => (Suspended r s', w, Yielded v)
    | Stops => (Finished, release r w, Stopped)
    | Raises e => (Finished, release r w, Raised e)
    end
  else (Finished, release r w, Raised (Ordinary ERuntime)).

Definition after_load (s : S) (l : world * (resource + raised)) : generator * world * outcome :=
  match l with
  | (w, inl r) => resume r s w
  | (w, inr e) => (Finished, w, Raised e)
  end.

(* next(g) *)
Definition advance (g : generator) (w : world) : generator * world * outcome :=
  match g with
  | FreshTagger o s => after_load s (tagger_load o w)
  | FreshTrainer o s => after_load s (model_new o w)
  | FreshReader f s => resume f s w
  | Suspended r s => resume r s w
  | Finished => (Finished, w, Stopped)
  end.

(* g.throw(e), and g.close() for e = None: at a yield the block is left, before the first next nothing of the body is run *)
Definition leave (e : option raised) (g : generator) (w : world) : generator * world * outcome :=
  let out := match e with Some r => Raised r | None => Closed end in
  match g with
  | Suspended r s => (Finished, release r w, out)
  | _ => (Finished, w, out)
  end.

(* what a program does with taggers, trainers and readers.  opening: what open raises. *)
Inductive action :=
| CallTag (o : loading) (s : S)
| CallTrain (o : option raised) (s : S)
| CallRead (opening : option raised) (s : S)
| LoadFile (opening body : option raised)
| Next (i : nat)
| Leave (i : nat) (e : option raised).

Record machine := mkMachine { generators : list generator; the_world : world }.

Definition update (m : machine) (i : nat) (r : generator * world * outcome) : machine * outcome :=
  match r with (g, w, o) => (mkMachine (set_nth (generators m) i g) w, o) end.

(* Without a generator i nothing is done. *)
Definition act (m : machine) (a : action) : machine * outcome :=
  match a with
  | CallTag o s => (mkMachine (generators m ++ [FreshTagger o s]) (the_world m), Created)
  | CallTrain o s => (mkMachine (generators m ++ [FreshTrainer o s]) (the_world m), Created)
  | CallRead (Some e) s => (m, Raised e)
  | CallRead None s => let (w, f) := acquire File (the_world m) in (mkMachine (generators m ++ [FreshReader f s]) w, Created)
  (* load_conllu_file, conll17_ud_eval.py:464-466: the file is not closed *)
  | LoadFile (Some e) _ => (m, Raised e)
  | LoadFile None body => let (w, _) := acquire File (the_world m) in
                          (mkMachine (generators m) w, match body with Some e => Raised e | None => Loaded end)
  | Next i => match nth_error (generators m) i with
              | Some g => update m i (advance g (the_world m))
              | None => (m, Stopped)
              end
  | Leave i e => match nth_error (generators m) i with
                 | Some g => update m i (leave e g (the_world m))
                 | None => (m, Closed)
                 end
  end.

Fixpoint run (m : machine) (actions : list action) : machine * list outcome :=
  match actions with
  | [] => (m, [])
  | a :: actions' => let (m1, o) := act m a in
                     let (m2, os) := run m1 actions' in (m2, o :: os)
  end.
End Generators.
