(* What is said of dropout. *)
From Coq Require Import String Ascii ZArith NArith QArith Bool List.
From Verif Require Import Base Model_Layers Model_Network Model_Dropout.
Import ListNotations.

(* the same network as Model_Layers sees it: the two dense layers of a head, one after the other *)
Definition plain_task {A W} (t : layered_task A W) : Model_Layers.task A W :=
  match t with
  | TDense name heads rules => DenseTask name (map (fun h v => snd h (fst h v)) heads) rules
  | TCombo name ids_of row d n reduce ks finish => ComboTask name ids_of row d n reduce ks finish
  end.
Definition plain {A W} (n : layered_net A W) : net A W := mkNet (l_features n) (l_encoder n) (map plain_task (l_tasks n)).

Definition has_parts {A W} (t : layered_task A W) : Prop :=
  match t with TDense _ heads _ => heads <> [] | TCombo _ _ _ _ _ _ _ _ => True end.

(* what is used of the numbers 1 and 0: it holds of floating point numbers *)
Record exact_one {A : arith} (D : dropping A) : Prop := {
  one_minus_one : minus D (one D) (one D) = zero;
  one_minus_zero : minus D (one D) zero = one D;
  over_one : forall x, divide D x (one D) = x;
  times_one : forall x, mul x (one D) = x
}.

(* random numbers are not negative *)
Definition not_negative {A : arith} (u : noise A) : Prop := forall p i c, leb zero (u p i c) = true.
(* random numbers are less than 1 *)
Definition less_than_one {A : arith} (D : dropping A) (u : noise A) : Prop := forall p i c, leb (one D) (u p i c) = false.

(* `out` is `rows` with every value divided by the probability of keeping it, or multiplied with 0, by its own random number *)
Definition dropped {A : arith} (D : dropping A) (keep : num A) (u : nat -> nat -> num A) (rows out : list (list (num A))) : Prop :=
  length out = length rows /\
  forall i v, nth_error rows i = Some v ->
    exists w, nth_error out i = Some w /\ length w = length v /\
      forall c x, nth_error v c = Some x ->
        let y := divide D x (minus D (one D) (minus D (one D) keep)) in
        nth_error w c = Some (if leb (minus D (one D) keep) (u i c) then mul y (one D) else mul y zero).

(* two runs draw the same numbers, except behind the recurrent layers *)
Definition same_outside_layers {A : arith} (u v : noise A) : Prop :=
  forall p, (forall i, p <> AtLayer i) -> forall i c, u p i c = v p i c.

Definition is_combo {A W} (t : layered_task A W) : Prop :=
  match t with TDense _ _ _ => False | TCombo _ _ _ _ _ _ _ _ => True end.

(* rational numbers *)
Definition rationals : arith :=
  mkArith Q 0%Q Qplus Qmult (fun x n => (x / inject_Z (Z.of_nat n))%Q) Qle_bool (-1000)%Q (fun l => l) (fun _ => 1%Q).
Definition rational_dropping : dropping rationals := mkDropping rationals 1%Q Qminus Qdiv.
(* the i-th of n equally likely random numbers *)
Definition draw (n i : nat) : Q := inject_Z (Z.of_nat i) / inject_Z (Z.of_nat n).
Definition total (l : list Q) : Q := fold_right Qplus 0%Q l.

(* integers *)
Definition integers : arith :=
  mkArith Z 0%Z Z.add Z.mul (fun x n => (x / Z.of_nat n)%Z) Z.leb (-1000)%Z (fun l => l) (fun _ => 1%Z).
Definition integer_dropping : dropping integers := mkDropping integers 1%Z Z.sub Z.div.
