(* Specification vocabulary for the recursion of the evaluation script. *)
From Coq Require Import ZArith List.
From Verif Require Import Base.
Import ListNotations.
Open Scope Z_scope.

(* Heads of a sentence: 0 is the root, h the h-th word.  Words are numbered from 0.
   The words from word j up to the root, j first. *)
Inductive way (hs : list Z) : nat -> list nat -> Prop :=
| way_root j : nth_error hs j = Some 0 -> way hs j [j]
| way_up j h path : nth_error hs j = Some h -> 0 < h -> way hs (Z.to_nat (h - 1)) path -> way hs j (j :: path).

(* l is a first part of the way from word i to the root, without the root, that is not on the way of any earlier word *)
Definition climb (hs : list Z) (i : nat) (l : list nat) : Prop :=
  exists rest, way hs i (l ++ rest) /\
    forall j, In j l -> nth_error hs j <> Some 0 /\ forall i' path, (i' < i)%nat -> way hs i' path -> ~ In j path.

(* no word climbs so far that n calls are not enough: one for each new word above it, itself included, and one more *)
Definition fits (n : nat) (hs : list Z) : Prop := forall i l, climb hs i l -> (length l < n)%nat.
