(* Properties of grid search over hyperparameters (grid_eval.py): C57, C58, C59.  Leaves are arbitrary values. *)
From Coq Require Import String Ascii ZArith NArith Bool Permutation List.
From Verif Require Import Base Model_Grid Spec_Grid Proofs_Grid Proofs_Grid2 Proofs_Grid4 Proofs_Grid5.
Import ListNotations.
Open Scope nat_scope.

(* ---- C57 ---- *)

(* A grid that passes the check and whose alternatives can all be merged.  A dictionary that was taken into the parameters is
   the object of the grid itself: the second parameter set changes the first.  No parameter set has the value 5. *)
Definition c57_base : json nat := JDict [(of_string "m", JLeaf 0)].
Definition c57_a : json nat := JDict [(of_string "m", JDict [(of_string "x", JLeaf 1); (of_string "y", JLeaf 2)])].
Definition c57_b (n : nat) : json nat := JDict [(of_string "m", JDict [(of_string "y", JLeaf n)])].

Theorem C57_product_refuted :
  exists (base : json nat) (g : grid nat) vs params h a b r,
    grid_main base g = Ok (vs, params, h) /\ chosen [0; 0] (map snd g) [a; b] /\
    (exists r0, merged base a r0 /\ merged r0 b r) /\
    at_path [of_string "m"; of_string "y"] r = Some (JLeaf 5) /\
    (forall v q, In v vs -> stands h v q -> at_path [of_string "m"; of_string "y"] q = Some (JLeaf 6)).
Proof.
  exists c57_base, [(of_string "p", [c57_a]); (of_string "q", [c57_b 5; c57_b 6])]. do 3 eexists.
  exists c57_a, (c57_b 5), (JDict [(of_string "m", JDict [(of_string "x", JLeaf 1); (of_string "y", JLeaf 5)])]).
  split; [vm_compute; reflexivity|]. split; [repeat econstructor|]. split; [|split; [reflexivity|]].
  - exists c57_a. split; apply mergej_merged; try (vm_compute; reflexivity); cbn; repeat constructor; cbn; intuition discriminate.
  - intros v q I S.
    assert (E : q = JDict [(of_string "m", JDict [(of_string "x", JLeaf 1); (of_string "y", JLeaf 6)])]); [|subst q; reflexivity].
    eapply stands_fun; [exact S|]. cbn in I. destruct I as [<-|[<-|[]]]; repeat (eexists || split); reflexivity.
Qed.
Print Assumptions C57_product_refuted.

(* When every alternative only has paths of the base, and dictionaries where the base has dictionaries, the choices cs are
   exactly all choices of one alternative per key, each once; there is one parameter set of its own for each, equal to the base
   with the alternatives applied, and the base keeps its value. *)
Theorem C57_product_partial :
  forall (L : Type) (e : list (str * json L)) (g : grid L),
    check_grid g = Ok tt ->
    Forall (fun kv => Forall (fun j => json_ok j /\ fits (JDict e) j) (snd kv)) g ->
    exists cs vs params h, grid_main (JDict e) g = Ok (vs, params, h) /\
      NoDup cs /\ (forall c, In c cs <-> Forall2 (fun i alts => i < length alts) c (map snd g)) /\
      Forall2 (fun c v => exists alts r, chosen c (map snd g) alts /\ applied (JDict e) alts r /\ stands h v r) cs vs /\
      NoDup vs /\ stands h params (JDict e).
Proof. exact @grid_product. Qed.
Print Assumptions C57_product_partial.

(* two keys with two and one alternatives *)
Example C57_case :
  let base := JDict [(of_string "lr", JLeaf 1); (of_string "net", JDict [(of_string "dim", JLeaf 2); (of_string "drop", JLeaf 3)])] in
  let g := [(of_string "p", [JDict [(of_string "lr", JLeaf 10)]; JDict [(of_string "lr", JLeaf 11)]]);
            (of_string "q", [JDict [(of_string "net", JDict [(of_string "dim", JLeaf 20)])]])] in
  (exists vs params h, grid_main base g = Ok (vs, params, h) /\ length vs = 2) /\ check_grid g = Ok tt /\
  Forall (fun kv => Forall (fun j => json_ok j /\ fits base j) (snd kv)) g.
Proof.
  intros base g. split; [do 3 eexists; split; vm_compute; reflexivity|]. split; [reflexivity|].
  repeat constructor; cbn; try (intuition discriminate); apply fits_intro; repeat constructor; eexists; (split; [vm_compute; reflexivity|]);
    try apply fits_leaf; apply fits_intro; repeat constructor; eexists; (split; [vm_compute; reflexivity|]); apply fits_leaf.
Qed.

(* ---- C58 ---- *)

(* A path that is not named loses its value: the grid replaces a dictionary by another value. *)
Theorem C58_keeps_unnamed_refuted :
  exists (base g r : json nat) a ga h h' p x,
    fst (load base []) = VRef a /\ load g (snd (load base [])) = (VRef ga, h) /\ merge 5 a ga h = Ok h' /\ stands h' (VRef a) r /\
    at_path p g = None /\ at_path p base = Some (JLeaf x) /\ at_path p r = None.
Proof.
  exists (JDict [(of_string "m", JDict [(of_string "x", JLeaf 1)])]), (JDict [(of_string "m", JLeaf 5)]), (JDict [(of_string "m", JLeaf 5)]).
  do 4 eexists. exists [of_string "m"; of_string "x"], 1. do 2 (split; [reflexivity|]). split; [vm_compute; reflexivity|].
  split; [|auto]. repeat (eexists || split); reflexivity.
Qed.
Print Assumptions C58_keeps_unnamed_refuted.

(* For two dictionaries that share no object the merge raises a ValueError iff the grid names a key that the base does not
   have at the same place; otherwise the result is as described by merged: named values are taken, keys stay, and what the grid
   does not name inside dictionaries of the base is unchanged.  Objects that belong to neither are not touched. *)
Theorem C58_merge_partial :
  forall (L : Type) (base g : json L) (h : jheap L) (a ga : nat) (fp fpg : list nat) (fuel : nat),
    json_ok g -> owns h (VRef a) base fp -> owns h (VRef ga) g fpg -> NoDup (fp ++ fpg) -> length fpg <= fuel ->
    (unknown_key base g /\ merge fuel a ga h = Err EValue) \/
    (~ unknown_key base g /\ exists h' r, merge fuel a ga h = Ok h' /\ stands h' (VRef a) r /\ merged base g r /\
       forall c, ~ In c (fp ++ tl fpg) -> nth_error h' c = nth_error h c).
Proof. exact @merge_heap. Qed.
Print Assumptions C58_merge_partial.

(* what json.load builds has this form: every dictionary has its own object, above all earlier ones *)
Theorem C58_loaded :
  forall (L : Type) (j : json L) (h : jheap L),
    exists fp, owns (snd (load j h)) (fst (load j h)) j fp /\ NoDup fp /\ Forall (fun a => length h <= a) fp /\
      forall a, a < length h -> nth_error (snd (load j h)) a = nth_error h a.
Proof. exact @load_own. Qed.
Print Assumptions C58_loaded.

Example C58_case :
  let base := JDict [(of_string "a", JLeaf 1); (of_string "b", JDict [(of_string "c", JLeaf 2)])] in
  let g := JDict [(of_string "b", JDict [(of_string "c", JLeaf 5)])] in
  let bad := JDict [(of_string "b", JDict [(of_string "d", JLeaf 5)])] in
  let (v, h) := load base [] in
  (let (w, h2) := load g h in
   exists a ga h', v = VRef a /\ w = VRef ga /\ merge 5 a ga h2 = Ok h' /\
     stands h' v (JDict [(of_string "a", JLeaf 1); (of_string "b", JDict [(of_string "c", JLeaf 5)])])) /\
  (let (w, h2) := load bad h in exists a ga, v = VRef a /\ w = VRef ga /\ merge 5 a ga h2 = Err EValue).
Proof.
  intros base g bad. cbn [load base g bad]. split.
  - do 3 eexists. split; [reflexivity|]. split; [reflexivity|]. split; [vm_compute; reflexivity|]. repeat (eexists || split); reflexivity.
  - do 2 eexists. split; [reflexivity|]. split; [reflexivity|]. vm_compute. reflexivity.
Qed.

(* ---- C59 ---- *)

(* both keys set y, and both keys set m: the check only looks at first keys and at whole paths *)
Theorem C59_overlap_refuted :
  (exists g : grid nat, overlapping g /\ check_grid g = Ok tt) /\
  (exists (g : grid nat) k k' alts alts' a a' p q x y, g = [(k, alts); (k', alts')] /\ In a alts /\ In a' alts' /\
     single a /\ single a' /\ at_path p a = Some (JLeaf x) /\ at_path (p ++ q) a' = Some (JLeaf y) /\ check_grid g = Ok tt).
Proof.
  split.
  - exists [(of_string "p", [JDict [(of_string "x", JLeaf 1); (of_string "y", JLeaf 2)]]); (of_string "q", [JDict [(of_string "y", JLeaf 3)]])].
    split; [|vm_compute; reflexivity]. do 8 eexists. exists [of_string "y"]. do 2 eexists. repeat split.
    + instantiate (1 := 1). instantiate (1 := 0). discriminate.
    + reflexivity.
    + reflexivity.
    + left. reflexivity.
    + left. reflexivity.
    + reflexivity.
    + reflexivity.
  - exists [(of_string "p", [JDict [(of_string "m", JLeaf 5)]]); (of_string "q", [JDict [(of_string "m", JDict [(of_string "x", JLeaf 2)])]])].
    do 6 eexists. exists [of_string "m"], [of_string "x"]. do 2 eexists. split; [reflexivity|]. split; [left; reflexivity|].
    split; [left; reflexivity|]. repeat split; repeat constructor.
Qed.
Print Assumptions C59_overlap_refuted.

(* alternatives with a single value: a common path is refused *)
Theorem C59_single_partial :
  forall (L : Type) (g : grid L),
    Forall (fun kv => Forall single (snd kv)) g -> overlapping g -> check_grid g = Err EValue.
Proof. exact @overlap_refused. Qed.
Print Assumptions C59_single_partial.

(* exactly which grids of dictionaries are accepted *)
Theorem C59_accepted :
  forall (L : Type) (g : grid L),
    Forall (fun kv => Forall (fun j => exists d, j = JDict d) (snd kv)) g ->
    (check_grid g = Ok tt <->
       exists ps, NoDup ps /\ Forall2 (fun kv p => snd kv <> [] /\ Forall (fun j => first_path j p) (snd kv)) g ps) /\
    (check_grid g = Ok tt \/ check_grid g = Err EValue).
Proof. exact @check_iff. Qed.
Print Assumptions C59_accepted.

Example C59_case :
  let a := JDict [(of_string "m", JDict [(of_string "x", JLeaf 1)])] in
  let b := JDict [(of_string "m", JDict [(of_string "x", JLeaf 2)])] in
  let c := JDict [(of_string "m", JDict [(of_string "y", JLeaf 2)])] in
  check_grid [(of_string "p", [a; b]); (of_string "q", [c])] = Ok tt /\ check_grid [(of_string "p", [a]); (of_string "q", [b])] = Err EValue /\
  check_grid [(of_string "p", [a; c])] = Err EValue /\ check_grid [(of_string "p", @nil (json nat))] = Err EValue /\
  overlapping [(of_string "p", [a]); (of_string "q", [b])] /\ single a.
Proof.
  intros a b c. repeat (split; [vm_compute; reflexivity|]). split; [|repeat constructor].
  exists 0, 1. do 6 eexists. exists [of_string "m"; of_string "x"]. do 2 eexists. split; [discriminate|].
  do 2 (split; [reflexivity|]). do 2 (split; [left; reflexivity|]). split; reflexivity.
Qed.
