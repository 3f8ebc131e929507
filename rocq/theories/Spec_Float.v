(* Vocabulary for statements about floating point numbers. *)
From Coq Require Import ZArith QArith Qabs Bool List.
From Verif Require Import Base Model_UDEval Model_Harness Model_Float Spec_UDEval Spec_Harness.
Import ListNotations.
Open Scope Z_scope.

(* q is a number that a float of 53 bits can stand for, the exponent being arbitrary *)
Definition double (q : Q) : Prop := exists m e : Z, Z.abs m <= 9007199254740992 /\ (q == inject_Z m * Qpower 2 e)%Q.

(* r is a double, and no double is nearer to q *)
Definition nearest_double (q r : Q) : Prop :=
  double r /\ forall d, double d -> (Qabs (q - r) <= Qabs (q - d))%Q.

(* r is what IEEE 754 prescribes for the exact result q: the nearest double, and if another one is as near, the one whose
   significand of 53 bits is even *)
Definition ieee_double (q r : Q) : Prop :=
  nearest_double q r /\
  forall d, double d -> ~ (d == r)%Q -> (Qabs (q - d) == Qabs (q - r))%Q ->
    exists m e, 4503599627370496 <= Z.abs m <= 9007199254740992 /\ Z.even m = true /\ (r == inject_Z m * Qpower 2 e)%Q.

(* a metric that counts words or spans, each of them as 1 *)
Definition counts (m : metric) : bool := match m with MCLAS | MWeightedLAS => false | _ => true end.

(* the numbers of sc are those of the exact score, rounded once *)
Definition rounded_score (exact sc : score) : Prop :=
  ieee_double (s_precision exact) (s_precision sc) /\
  ieee_double (s_recall exact) (s_recall sc) /\
  ieee_double (s_f1 exact) (s_f1 sc) /\
  match s_aligned exact, s_aligned sc with
  | None, None => True
  | Some a, Some b => ieee_double a b
  | _, _ => False
  end.

Definition lies_between (a b x : Q) : Prop := (a <= x <= b)%Q \/ (b <= x <= a)%Q.

(* all weights are whole numbers *)
Definition weights_whole (weights : option (dict Q)) : Prop :=
  forall d k q, weights = Some d -> dict_get d k = Some q -> exists z, 0 <= z /\ (q == inject_Z z)%Q.

(* a file with at most n tokens, words and sentences *)
Definition up_to (n : Z) (u : ud) : Prop := zlen (u_tokens u) <= n /\ zlen (u_words u) <= n /\ zlen (u_sents u) <= n.

(* a table of scores that the evaluation script reports with its floating point numbers *)
Definition fl_reported (t : table) : Prop :=
  exists lower tg ts gold system weights f,
    load_conllu tg = Ok gold /\ load_conllu ts = Ok system /\ weights_nonneg weights /\
    fl_evaluate lower gold system weights = Ok f /\ t = table_of f.

(* the row of the average and the rows of the tables, in the same attribute *)
Definition averaged (a : attr) (m : str) (ts : list table) (out : table) (vs : list Q) (r : Q) : Prop :=
  exists ss s, scores_for m ts ss /\ Forall2 (attribute a) ss vs /\ dict_get out m = Some s /\ attribute a s r.
