(* Specification vocabulary for gold data in files. *)
From Coq Require Import String ZArith NArith QArith Bool Sorted List.
From Verif Require Import Base Model_Datamodel Model_Conllu Spec_Datamodel Spec_Conllu Model_UDEval Spec_UDEval.
Import ListNotations.
Open Scope Z_scope.

(* no line with ten columns begins with # *)
Definition rows_uncommented (text : str) : Prop :=
  forall l c, In l (file_lines text) -> ten_cells l c -> ~ ud_comment l.

(* the FEATS cell is "_" or lists entries key=value in code point order, no key twice and no further "=" *)
Definition ordered_feats (cell5 : str) : Prop :=
  cell5 = of_string "_" \/
  Sorted (fun a b => str_leb a b = true) (split 124%N cell5) /\ NoDup (map entry_key (split 124%N cell5)) /\
  Forall (fun e => e = entry_key e ++ 61%N :: entry_value e) (split 124%N cell5).
Definition all_feats_ordered (text : str) : Prop :=
  forall l c, In l (file_lines text) -> ten_cells l c -> ordered_feats (cell c 5).

(* the metrics that look at FEATS *)
Definition looks_at_feats (m : metric) : Prop := m = MFeats \/ m = MAllTags.
