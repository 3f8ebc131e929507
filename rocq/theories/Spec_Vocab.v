(* Vocabulary of the properties of label vocabularies. *)
From Coq Require Import ZArith Bool List.
From Verif Require Import Base.
Import ListNotations.
Open Scope Z_scope.

(* python's == on labels *)
Definition equivalence {K} (eqb : K -> K -> bool) : Prop :=
  (forall a, eqb a a = true) /\ (forall a b, eqb a b = true -> eqb b a = true) /\
  (forall a b c, eqb a b = true -> eqb b c = true -> eqb a c = true).

(* no two elements at different places are equal *)
Definition all_distinct {K} (eqb : K -> K -> bool) (l : list K) : Prop :=
  ForallOrdPairs (fun a b => eqb a b = false) l.

(* number of elements equal to k *)
Fixpoint occurrences {K} (eqb : K -> K -> bool) (k : K) (l : list K) : Z :=
  match l with
  | [] => 0
  | x :: l' => (if eqb k x then 1 else 0) + occurrences eqb k l'
  end.

(* k has the largest count of the table, and is the first such label *)
Definition first_most_common {K} (counts : list (K * Z)) (k : K) : Prop :=
  exists before n after, counts = before ++ (k, n) :: after /\
    (forall k' n', In (k', n') before -> n' < n) /\ (forall k' n', In (k', n') after -> n' <= n).

(* the label is frequent enough to be kept *)
Definition frequent {K} (counts : list (K * Z)) (threshold : Z) (k : K) : Prop :=
  exists n, In (k, n) counts /\ (0 < threshold -> threshold < n).
