(* What is said of training steps. *)
From Coq Require Import String Ascii ZArith NArith QArith Bool List.
From Verif Require Import Base Model_Step.
Import ListNotations.

Definition qsum (l : list Q) : Q := fold_right Qplus 0%Q l.

(* the gradient of one number of a matrix: that of its row and column; slices of the same row add up *)
Definition entry (g : gradient) (r c : nat) : Q :=
  match g with
  | Whole rows => nth c (nth r rows []) 0%Q
  | Slices l => qsum (map (fun s => if Nat.eqb (fst s) r then nth c (snd s) 0%Q else 0%Q) l)
  end.

(* the squared length of the gradients of matrices with at most n rows and d columns *)
Definition squared_length (n d : nat) (gs : list (option gradient)) : Q :=
  qsum (map (fun g => match g with
                      | None => 0%Q
                      | Some g => qsum (map (fun r => qsum (map (fun c => entry g r c * entry g r c)%Q (seq 0 d))) (seq 0 n))
                      end) gs).

(* no row is looked up more than m times *)
Definition at_most (m : nat) (g : gradient) : Prop :=
  match g with
  | Whole _ => (1 <= m)%nat
  | Slices l => (1 <= m)%nat /\ forall r, (length (filter (fun s => Nat.eqb (fst s) r) l) <= m)%nat
  end.

(* a square root with a relative error of its square of at most e *)
Definition accurate (e : Q) (root : Q -> Q) : Prop :=
  forall s, (0 <= s -> 0 <= root s /\ s <= (1 + e) * (root s * root s) /\ root s * root s <= (1 + e) * s)%Q.
(* exact for squares *)
Definition exact_on_squares (root : Q -> Q) : Prop := forall s q, (0 <= q -> s == q * q -> root s == q)%Q.

(* such a root: with K parts to a unit *)
Definition root_of (K : positive) (s : Q) : Q :=
  let q := Qred s in
  Z.sqrt (Qnum q * Zpos (Qden q) * (Zpos K * Zpos K)) # (Qden q * K).

(* row r is not among the slices *)
Definition spares (r : nat) (g : option gradient) : Prop :=
  match g with None => True | Some (Whole _) => False | Some (Slices l) => ~ In r (map fst l) end.

(* row r of a variable with its slots *)
Definition has_row (x : variable) (r : nat) (row m v : vec) : Prop :=
  nth_error (v_rows x) r = Some row /\ nth_error (v_m x) r = Some m /\ nth_error (v_v x) r = Some v
  /\ length m = length row /\ length v = length row.

(* the gradient has the shape of the variable *)
Definition fits_variable (x : variable) (g : gradient) : Prop :=
  match g with
  | Whole rows => Forall2 (fun row v => length v = length row) (v_rows x) rows
  | Slices l => forall s, In s l -> exists row, nth_error (v_rows x) (fst s) = Some row /\ length (snd s) = length row
  end.

(* the number in row r and column c of the variable i, with its slots *)
Definition number_at (vars : list variable) (i r c : nat) (y a b : Q) : Prop :=
  exists x row m v, nth_error vars i = Some x /\ has_row x r row m v /\
    nth_error row c = Some y /\ nth_error m c = Some a /\ nth_error v c = Some b.

(* constants as tensorflow gives them *)
Definition usual (k : constants) : Prop :=
  (0 <= beta1 k /\ beta1 k < 1 /\ 0 <= beta2 k /\ beta2 k < 1 /\ 0 < adam_epsilon k /\
   0 <= rms_decay k /\ rms_decay k < 1 /\ 0 < rms_epsilon k)%Q.

(* a number y that becomes y' moves against g *)
Definition against (g y y' : Q) : Prop := (0 < g -> y' < y)%Q /\ (g < 0 -> y < y')%Q /\ (g == 0 -> y' == y)%Q.

(* no mean of squares is negative; they are 0 at first *)
Definition means_positive (vars : list variable) : Prop := Forall (fun x => Forall (Forall (Qle 0)) (v_v x)) vars.
