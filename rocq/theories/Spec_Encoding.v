(* What the statements about files say. *)
From Coq Require Import String Ascii ZArith NArith Bool List.
From Verif Require Import Base Model_Datamodel Model_Conllu Spec_Datamodel Spec_Conllu.
Import ListNotations.
Open Scope N_scope.

(* the characters UTF-8 has bytes for: all but the surrogates *)
Definition scalar (c : char) : Prop := c < 55296 \/ 57344 <= c < 1114112.

(* every character of the document's text, of the words of multiword tokens and of the annotations satisfies P *)
Record chars_of (P : char -> Prop) (d : document) : Prop := {
  co_text : Forall P (dtext d);
  co_words : forall t s, In t (dtokens d) -> trepl t = Some s -> Forall P s;
  co_lemma : forall t s, In t (dtokens d) -> tlemma t = Some s -> Forall P s;
  co_deprel : forall t s, In t (dtokens d) -> tdeprel t = Some s -> Forall P s;
  co_upos : forall t p s, In t (dtokens d) -> tpos t = Some p -> upos p = Some s -> Forall P s;
  co_xpos : forall t p s, In t (dtokens d) -> tpos t = Some p -> xpos p = Some s -> Forall P s;
  co_feats : forall t p k v, In t (dtokens d) -> tpos t = Some p -> In (k, v) (feats p) -> Forall P k /\ Forall P v
}.

(* a carriage return ends a line of a file *)
Definition not_cr (c : char) : Prop := c <> 13.

(* whole lines *)
Definition whole_lines (s : str) : Prop := s = [] \/ exists s', s = s' ++ [10].

(* the byte order mark, and the character it stands for *)
Definition bom : list N := [239; 187; 191].
Definition bom_char : char := 65279.

(* the first line of a text, and its first column *)
Definition first_line (text l : str) : Prop :=
  ~ In 10 l /\ ~ In 13 l /\ (text = l \/ exists rest, text = l ++ 10 :: rest \/ text = l ++ 13 :: rest).
Definition first_column (l c : str) : Prop := ~ In 9 c /\ (l = c \/ exists rest, l = c ++ 9 :: rest).
