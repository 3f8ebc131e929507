(* Notions used in the statements about the layers. *)
From Coq Require Import String Ascii ZArith NArith Bool List QArith.
From Verif Require Import Base Model_Layers.
Import ListNotations.
Open Scope nat_scope.

(* the words of a batch that consist of the most subwords are (also) in the sentence s *)
Definition has_longest {W} (ids_of : W -> list Z) (b : list (list W)) (s : list W) : Prop :=
  forall s' w', In s' b -> In w' s' -> exists w, In w s /\ length (ids_of w') <= length (ids_of w).

(* the longest words of two batches consist of equally many subwords *)
Definition equally_long {W} (ids_of : W -> list Z) (b b' : list (list W)) : Prop :=
  forall n, (exists s w, In s b /\ In w s /\ n <= length (ids_of w)) <-> (exists s w, In s b' /\ In w s /\ n <= length (ids_of w)).

Definition is_dilated {A W} (n : net A W) : Prop := exists ks sk, n_encoder n = Dilated_CNN ks sk.

(* how far a stack of convolutions looks: a kernel of size k and dilation d covers (k-1)*d+1 positions, centred; if that is even
   there is one more after the centre *)
Definition looks_back {A} (ks : list (kernel A)) : nat :=
  list_sum (map (fun k => (length (taps k) - 1) * k_dilation k / 2) ks).
Definition looks_ahead {A} (ks : list (kernel A)) : nat :=
  list_sum (map (fun k => ((length (taps k) - 1) * k_dilation k + 1) / 2) ks).

(* the words before and after a word that can matter for it *)
Inductive window {A} : encoder A -> nat -> nat -> Prop :=
| window_words : window WE_charCNN 0 0
| window_dilated ks sk : window (Dilated_CNN ks sk) (looks_back ks) (looks_ahead ks).

(* some sentence gets other labels in some batch than alone *)
Definition depends_on_batch {A W} (n : net A W) : Prop :=
  exists b i s outs o, nth_error b i = Some s /\ predict n b = Ok outs /\ nth_error outs i = Some o /\
    predict n [s] <> Ok [map (firstn (length s)) o].

(* rational numbers; any positive function stands for the exponential of a softmax *)
Definition qsum (l : list Q) : Q := fold_right Qplus 0%Q l.
Definition rationals (exponential : Q -> Q) : arith :=
  mkArith Q 0%Q (fun x y => Qred (x + y)) (fun x y => Qred (x * y)) (fun x n => Qred (x / inject_Z (Z.of_nat n))) Qle_bool (Qopp (inject_Z 1000%Z))
    (fun l => let es := map exponential l in map (fun e => Qred (e / qsum es)) es) (fun n => inject_Z (Z.of_nat n)).

(* the comparison is a total order up to equality of value *)
Definition ordered (A : arith) : Prop :=
  (forall x y : num A, leb x y = true \/ leb y x = true) /\
  (forall x y z : num A, leb x y = true -> leb y z = true -> leb x z = true).

(* k is the first of the positions allowed by m at which v is largest *)
Definition best_allowed {A : arith} (m : list bool) (v : list (num A)) (k : nat) : Prop :=
  nth_error m k = Some true /\ exists x, nth_error v k = Some x /\
    forall j y, nth_error m j = Some true -> nth_error v j = Some y -> leb y x = true /\ (j < k -> leb x y = false).
