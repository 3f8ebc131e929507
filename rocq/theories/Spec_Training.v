(* Specification vocabulary for data sets and training (dataset.py, neural_tagger.py) *)
From Coq Require Import String ZArith NArith QArith Bool Permutation List.
From Verif Require Import Base Model_UDEval Model_Harness Spec_Harness.
Import ListNotations.
Open Scope Z_scope.

(* random draws are in range *)
Definition in_range {R} (below : R -> Z -> Z * R) : Prop := forall r n, 0 < n -> 0 <= fst (below r n) < n.

(* out has every element of data exactly once: p says where each comes from; none moved by bound positions or more *)
Definition moved_less {A} (bound : Z) (data out : list A) : Prop :=
  exists p, Permutation p (seq 0 (length data)) /\ Forall2 (fun i x => nth_error data i = Some x) p out /\
    forall q i, nth_error p q = Some i -> Z.abs (Z.of_nat q - Z.of_nat i) < bound.

(* the sentences cut into pieces of the same size; the last one may be smaller but is not empty *)
Definition pieces {A} (size : Z) (l : list A) (ps : list (list A)) : Prop :=
  concat ps = l /\
  forall i p, nth_error ps i = Some p -> 0 < zlen p <= size /\ ((S i < length ps)%nat -> zlen p = size).

(* the batches are used one after another, each on the state the previous one left *)
Inductive steps {B M} (step : M -> B -> result (M * Q)) : M -> list B -> M -> list Q -> Prop :=
| st_nil m : steps step m [] m []
| st_cons m b bs m1 l m2 ls : step m b = Ok (m1, l) -> steps step m1 bs m2 ls -> steps step m (b :: bs) m2 (l :: ls).

(* ---- learning rate ---- *)

(* the product of 1 + decay * i for all epochs up to e *)
Fixpoint decays (decay : Q) (e : nat) : Q :=
  match e with
  | O => 1
  | S e' => decays decay e' * (1 + decay * inject_Z (Z.of_nat e))
  end%Q.

(* the sum of the aligned accuracies a table has *)
Definition acc_of (t : table) : Q :=
  sumq (concat (map (fun kv => match s_aligned (snd kv) with Some q => [q] | None => [] end) t)).

(* the accuracies of the five epochs before epoch k; 0 before the first epoch *)
Definition window (accs : list Q) (k : nat) : list Q := firstn 5 (skipn k ([0; 0; 0; 0; 0]%Q ++ accs)).

(* epoch k is neither better than the epoch before nor better than the mean of the last five *)
Definition stagnant (accs : list Q) (k : nat) : Prop :=
  exists acc, nth_error accs k = Some acc /\ (acc <= last (window accs k) 0 /\ acc <= meanq (window accs k))%Q.
