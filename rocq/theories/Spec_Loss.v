(* Losses per word. *)
From Coq Require Import String Ascii ZArith NArith QArith Bool List.
From Verif Require Import Base.
Import ListNotations.

(* the words of a batch of sentences, in order: number of the sentence, number of the word in it, the word's own data *)
Fixpoint words_from {X} (i t : nat) (s : list X) : list (nat * nat * X) :=
  match s with [] => [] | x :: s' => (i, t, x) :: words_from i (S t) s' end.
Fixpoint words_of {X} (i : nat) (batch : list (list X)) : list (nat * nat * X) :=
  match batch with [] => [] | s :: b => words_from i 0 s ++ words_of (S i) b end.

(* the sum and the mean of f over the words of a batch *)
Definition over_words {X} (f : nat -> nat -> X -> Q) (batch : list (list X)) : Q :=
  fold_right Qplus 0%Q (map (fun w => f (fst (fst w)) (snd (fst w)) (snd w)) (words_of 0 batch)).
Definition mean_over_words {X} (f : nat -> nat -> X -> Q) (batch : list (list X)) : Q :=
  over_words f batch / inject_Z (zlen (concat batch)).

(* one value for every position of every padded sentence *)
Definition rectangular {X L} (batch : list (list X)) (t : list (list L)) : Prop :=
  length t = length batch /\ forall s, In s t -> forall x, In x batch -> (length x <= length s)%nat.

Definition at_word {L} (d : L) (t : list (list L)) (i j : nat) : L := nth j (nth i t []) d.

(* the weights that are configured for the parts, the one called "default" for those not mentioned *)
Definition weighted (weights : dict Q) (names : list str) (ws : list Q) : Prop :=
  Forall2 (fun n q => dict_get weights n = Some q \/ (dict_get weights n = None /\ dict_get weights (of_string "default") = Some q))
    names ws.
