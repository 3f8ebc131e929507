(* Vocabulary of the properties of the order of labels. *)
From Coq Require Import ZArith NArith Bool List.
From Verif Require Import Base Model_Datamodel Model_Vocab Model_Features Model_Lemma Spec_Vocab.
Import ListNotations.
Open Scope Z_scope.

(* dictionary order: the first difference decides, a prefix comes first *)
Inductive lex_before {A} (lt : A -> A -> Prop) : list A -> list A -> Prop :=
| lb_prefix x l : lex_before lt [] (x :: l)
| lb_less x y l l' : lt x y -> lex_before lt (x :: l) (y :: l')
| lb_same x l l' : lex_before lt l l' -> lex_before lt (x :: l) (x :: l').

(* strings by code points *)
Definition str_before : str -> str -> Prop := lex_before N.lt.

(* feature entries by name, then by value *)
Definition items_before : list (str * str) -> list (str * str) -> Prop :=
  lex_before (fun a b => str_before (fst a) (fst b) \/ (fst a = fst b /\ str_before (snd a) (snd b))).

(* None comes first *)
Inductive opt_before {A} (lt : A -> A -> Prop) : option A -> option A -> Prop :=
| ob_none x : opt_before lt None (Some x)
| ob_some x y : lt x y -> opt_before lt (Some x) (Some y).

(* two strings; None has no order with a string *)
Inductive both_before : option str -> option str -> Prop :=
| bb_some x y : str_before x y -> both_before (Some x) (Some y).

(* upos, then xpos, then the features sorted by name *)
Definition pos_before (p q : pos) : Prop :=
  both_before (upos p) (upos q) \/
  (upos p = upos q /\
    (both_before (xpos p) (xpos q) \/
     (xpos p = xpos q /\ items_before (sorted_items (feats p)) (sorted_items (feats q))))).

Inductive part_before : part -> part -> Prop :=
| pb_pos p q : opt_before pos_before p q -> part_before (PaPos p) (PaPos q)
| pb_str s t : opt_before str_before s t -> part_before (PaStr s) (PaStr t)
| pb_feats f g : items_before f g -> part_before (PaFeats f) (PaFeats g)
| pb_xf x f y g : both_before x y \/ (x = y /\ items_before f g) -> part_before (PaXF x f) (PaXF y g).

(* the suffix of the word, then that of the lemma, then regular rules before exceptions *)
Definition rule_before (a b : rule) : Prop :=
  str_before (word_suffix a) (word_suffix b) \/
  (word_suffix a = word_suffix b /\
    (str_before (lemma_suffix a) (lemma_suffix b) \/
     (lemma_suffix a = lemma_suffix b /\ exception a = false /\ exception b = true))).

(* one label is more frequent than every other *)
Definition clear_winner {K} (eqb : K -> K -> bool) (labels : list K) : Prop :=
  exists k, In k labels /\
    forall k', In k' labels -> eqb k' k = false -> occurrences eqb k' labels < occurrences eqb k labels.

(* the values of the i-th part of the parts of speech *)
Definition part_values (s : splitter) (i : nat) (poses : list (option pos)) : list part :=
  concat (map (fun p => match split_pos s p with
                        | Ok sp => match nth_error sp i with Some (_, v) => [v] | None => [] end
                        | Err _ => []
                        end) poses).
