(* Words for the properties of saving: C108 - C111. *)
From Coq Require Import String Ascii ZArith NArith Bool List.
From Verif Require Import Base Spec_Harness Model_Network Spec_Network Model_Saving.
Import ListNotations.
Open Scope Z_scope.

(* reading gives what was written, and what was written only in part cannot be read: a pickle ends with a mark *)
Definition good_codec {B A} (c : codec B A) : Prop :=
  (forall a, dec c (enc c a) = Ok a) /\ (forall a p q, enc c a = p ++ q -> q <> [] -> exists e, dec c p = Err e).
Definition good_formats {B X I T O V} (f : formats B X I T O V) : Prop :=
  good_codec (f_pair f) /\ good_codec (f_mapping f) /\ good_codec (f_graph f)
  /\ (forall v, f_values f (f_index f v) (f_data f v) = Ok v).

(* c is the beginning of c', or all of it *)
Definition beginning {A} (c c' : list A) : Prop := exists r, c' = c ++ r.

(* the files of values have checksums: of the files of two savings, the later ones perhaps written in part, values are read
   only as they were saved *)
Definition checked_values {B X I T O V} (f : formats B X I T O V) : Prop :=
  forall v w d i u, d = f_data f v \/ beginning d (f_data f w) -> i = f_index f v \/ beginning i (f_index f w) ->
    f_values f i d = Ok u -> u = v \/ u = w.

(* a tagger that can be saved: its network is in its graph, tensors and operations have names of their own, there are
   variables and all have values *)
Definition sound_tagger {X I T O V} (tname : T -> str) (oname : O -> str) (t : tagger X I T O V) : Prop :=
  uniquely_named tname (g_tensors (t_graph t)) /\ uniquely_named oname (g_ops (t_graph t))
  /\ incl (tensors_of (t_network t)) (g_tensors (t_graph t)) /\ incl (ops_of (t_network t)) (g_ops (t_graph t))
  /\ g_variables (t_graph t) <> []
  /\ forall v, In v (g_variables (t_graph t)) -> exists x, dict_get (t_session t) v = Some x.

(* the same tagger: sessions may differ only in what is no variable of the graph *)
Definition same_values {V} (vs : list str) (s s' : dict V) : Prop := forall v, In v vs -> dict_get s v = dict_get s' v.
Definition same_tagger {X I T O V} (t t' : tagger X I T O V) : Prop :=
  t_extractor t' = t_extractor t /\ t_interpreter t' = t_interpreter t /\ t_network t' = t_network t
  /\ t_graph t' = t_graph t /\ same_values (g_variables (t_graph t)) (t_session t) (t_session t').

(* files and folders are in folders *)
Definition tree {B} (fs : files B) : Prop :=
  fs [] = Some Folder /\ forall p name, fs (p ++ [name]) <> None -> fs p = Some Folder.

(* the names of the files of a saved tagger *)
Definition tagger_files : list str :=
  map of_string ["extractor-interpreter"; "graph.data-00000-of-00001"; "graph.index"; "checkpoint"; "graph.meta"; "mapping"]%string.

(* nothing is in the way of saving to the path: no file where a folder must be, no folder where a file must be *)
Definition free_path {B} (cwd : place) (fs : files B) (path : str) : Prop :=
  path <> []
  /\ (forall p q c, resolve cwd path = p ++ q -> fs p <> Some (Regular c))
  /\ (forall name, In name tagger_files -> fs (resolve cwd path ++ [name]) <> Some Folder).

(* what is on the disk if saving is interrupted after k steps *)
Definition interrupted {B X I T O V} (tname : T -> str) (oname : O -> str) (f : formats B X I T O V) (cwd : place)
           (fs : files B) (t : tagger X I T O V) (path : str) (k : nat) : files B :=
  fst (run_steps fs (firstn k (save_steps tname oname f cwd fs t path))).

(* the directory that os.walk finds at a path *)
Definition walked {B} (cwd : place) (fs : files B) (path : str) (d : dir) : Prop :=
  dir_ok d /\ forall q, below d q <-> q <> [] /\ fs (resolve cwd path ++ q) = Some Folder.

(* the path of the tagger of an epoch *)
Definition epoch_at (model_dir : str) (i : nat) : str := based model_dir (of_string "epoch-" ++ print_Z (Z.of_nat i)).
