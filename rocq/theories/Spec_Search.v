(* Words for the properties of experiments from their files: C112 - C115. *)
From Coq Require Import String Ascii ZArith NArith QArith Bool List.
From Verif Require Import Base Model_Datamodel Model_UDEval Model_Harness Spec_Harness Model_Grid Spec_Grid Model_Experiment Spec_Experiment Model_Search.
Import ListNotations.
Open Scope Z_scope.

(* the trainer sees only what is in the dictionaries *)
Definition faithful {M} (l : learner M) : Prop :=
  forall h h' v v' r, stands h v r -> stands h' v' r ->
    l_passes l h v = l_passes l h' v' /\ l_epochs l h v = l_epochs l h' v'
    /\ (forall z ds, l_setup l h v z ds = l_setup l h' v' z ds)
    /\ (forall z ds seen, l_learn l h v z ds seen = l_learn l h' v' z ds seen)
    /\ (forall z seen, l_adapt l h v z seen = l_adapt l h' v' z seen).

Definition at_keys (keys : list string) (s : json leaf) : option (json leaf) := at_path (map of_string keys) s.

(* r is the base with one alternative of each key of the grid *)
Definition combination (base : json leaf) (g : grid leaf) (r : json leaf) : Prop :=
  exists c alts, Spec_Grid.chosen c (map snd g) alts /\ applied base alts r.
(* the grid is accepted and its alternatives have other values for parameters of the base *)
Definition fitting (e : list (str * json leaf)) (g : grid leaf) : Prop :=
  check_grid g = Ok tt /\ Forall (fun kv => Forall (fun j => json_ok j /\ fits (JDict e) j) (snd kv)) g.

(* the settings give these seeds *)
Definition seeds_are (s : json leaf) (zs : list Z) : Prop :=
  (exists z, zs = [z] /\ at_keys ["random_seed"]%string s = Some (JLeaf (LInt z)))
  \/ at_keys ["random_seed"]%string s = Some (JLeaf (LList (map LInt zs))).
(* something is printed *)
Definition prints (s : json leaf) : Prop :=
  exists x l, at_keys ["metric_printer"; "fields"]%string s = Some (JLeaf (LList (x :: l))).
Definition unshuffled (s : json leaf) : Prop := at_keys ["train_set"; "shuffler"]%string s = None.
(* the order of the documents does not depend on the time *)
Definition timeless (s : json leaf) : Prop :=
  unshuffled s \/ exists z, at_keys ["train_set"; "shuffler"; "seed"]%string s = Some (JLeaf (LInt z)).

Definition attr_name (a : attr) : str :=
  of_string (match a with APrecision => "precision" | ARecall => "recall" | AF1 => "f1" | AAligned => "aligned_accuracy" end).
(* q is the number by which the settings compare these scores *)
Definition judged (s : json leaf) (sc : table) (q : Q) : Prop :=
  exists fields a, at_keys ["cmp_metric"; "fields"]%string s = Some (JLeaf (LList (map LStr fields)))
    /\ at_keys ["cmp_metric"; "metric"]%string s = Some (JLeaf (LStr (attr_name a))) /\ worth fields a sc q.

(* what the settings must have *)
Definition required : list (list string) :=
  [["model_dir"]; ["metric_printer"; "fields"]; ["cmp_metric"; "fields"]; ["cmp_metric"; "metric"]; ["train_set"; "path"];
   ["dev_set"; "path"]; ["random_seed"]]%string.

(* p is no file that a tester of these settings may write *)
Definition no_result (s : json leaf) (p : str) : Prop :=
  forall key results name, In key ["dev_set"; "test_set"]%string ->
    at_keys [key; "results_path"%string] s = Some (JLeaf (LStr results)) -> results <> [] -> p <> based results name.

(* the two reports say the same about the scores *)
Definition same_scores {P P'} (rep : report P) (rep' : report P') : Prop := r_dev rep' = r_dev rep /\ r_test rep' = r_test rep.
(* the scores of the first report are at least as good as those of the second *)
Definition at_least {P P'} (s : json leaf) (rep : report P) (rep' : report P') : Prop :=
  exists sc sc', r_dev rep = Some sc /\ r_dev rep' = Some sc' /\ forall q q', judged s sc q -> judged s sc' q' -> (q' <= q)%Q.
