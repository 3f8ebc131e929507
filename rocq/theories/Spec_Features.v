(* Vocabulary of the properties of label and feature extractors. *)
From Coq Require Import ZArith NArith Bool List.
From Verif Require Import Base Model_Datamodel Spec_Datamodel Model_Vocab Model_Features Spec_Vocab.
Import ListNotations.
Open Scope Z_scope.

(* equal in everything but the part of speech *)
Definition same_but_pos (a b : token) : Prop :=
  tstart a = tstart b /\ tend a = tend b /\ tlemma a = tlemma b /\ tdeprel a = tdeprel b /\ tsub a = tsub b /\
  trepl a = trepl b /\ thdoc a = thdoc b /\ thsent a = thsent b /\ textras a = textras b.

(* the same part of speech, or none *)
Definition same_pos : option pos -> option pos -> Prop := get_rel pos_same.

Definition opt_pos_wf (p : option pos) : Prop := match p with Some q => pos_wf q | None => True end.

(* the parts of speech a dataset is trained on *)
Definition dataset_poses (ds : list document) : list (option pos) := map (fun x => tpos (dt_tok x)) (dataset_tokens ds).

(* a feature of some training Pos *)
Definition trained_feature (poses : list (option pos)) (k : str) : Prop :=
  exists q, In (Some q) poses /\ dict_get (feats q) k <> None.

(* no training Pos has a feature named UPOS or XPOS *)
Definition no_reserved_feature (poses : list (option pos)) : Prop :=
  ~ trained_feature poses n_UPOS /\ ~ trained_feature poses n_XPOS.

(* two parts of speech have an order: tags are compared in turn, and a missing tag only with a missing one *)
Definition comparable_pos (p q : pos) : Prop :=
  (upos p = None <-> upos q = None) /\ (upos p = upos q -> (xpos p = None <-> xpos q = None)).

(* the training parts of speech that a splitting strategy can sort *)
Definition sortable (st : strategy) (poses : list (option pos)) : Prop :=
  match st with
  | pos_joint => forall p q, In (Some p) poses -> In (Some q) poses -> comparable_pos p q
  | pos_XF => forall p q, In (Some p) poses -> In (Some q) poses -> (xpos p = None <-> xpos q = None)
  | pos_UXF | pos_gran => True
  end.

(* the symbol occurs in the training material, at least [threshold] times *)
Definition seen_often (threshold : Z) (material : list str) (s : str) : bool :=
  (0 <? occurrences str_eqb s material) && (threshold <=? occurrences str_eqb s material).

(* one line of an embedding file: a word and its vector *)
Definition vector_line {V} (to_float : str -> result V) (line w : str) (vec : list V) : Prop :=
  exists numbers, split_ws line = w :: numbers /\ mapM to_float numbers = Ok vec.

(* the lines with vectors: a first line of two words is a header *)
Definition vector_lines (lines : list str) : list str :=
  match lines with
  | [] => []
  | l :: rest => match split_ws l with [_; _] => rest | _ => lines end
  end.

(* vec is the vector of the last line of the word w *)
Definition last_vector {V} (to_float : str -> result V) (lines : list str) (w : str) (vec : list V) : Prop :=
  exists before line after, vector_lines lines = before ++ line :: after /\ vector_line to_float line w vec /\
    forall l, In l after -> hd_error (split_ws l) <> Some w.

(* all characters of the texts of the tokens *)
Definition text_chars (ds : list document) : list str := concat (map (fun x => char_segment (dt_text x)) (dataset_tokens ds)).
