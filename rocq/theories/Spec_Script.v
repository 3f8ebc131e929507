(* Specification vocabulary for the evaluation script (C101-C107). *)
From Coq Require Import String Ascii ZArith NArith QArith Bool List.
From Verif Require Import Base Model_Datamodel Model_Conllu Spec_Datamodel Spec_Conllu Model_UDEval Spec_UDEval Model_Script.
Import ListNotations.
Open Scope Z_scope.

(* ---- the file of weights ---- *)

Definition blanks (s : str) : Prop := Forall (fun c => isspace_char c = true) s.
Definition solid (s : str) : Prop := s <> [] /\ Forall (fun c => isspace_char c = false) s.

(* two pieces of text with white space between them, and perhaps around them *)
Definition two_columns (line a b : str) : Prop :=
  exists before between after, line = before ++ a ++ between ++ b ++ after /\
    blanks before /\ blanks between /\ blanks after /\ between <> [] /\ solid a /\ solid b.

(* comments begin at the very start of the line *)
Definition skipped_line (line : str) : Prop := (exists rest, line = 35%N :: rest) \/ blanks line.

(* the relations and weights of the lines, in their order *)
Inductive weight_entries (parse_float : str -> result Q) : list str -> list (str * Q) -> Prop :=
| we_nil : weight_entries parse_float [] []
| we_skip l ls es : skipped_line l -> weight_entries parse_float ls es -> weight_entries parse_float (l :: ls) es
| we_line l ls es relation number q :
    ~ skipped_line l -> two_columns l relation number -> parse_float number = Ok q ->
    weight_entries parse_float ls es -> weight_entries parse_float (l :: ls) ((relation, q) :: es).

Definition last_entry (es : list (str * Q)) (r : str) (q : Q) : Prop :=
  exists es1 es2, es = es1 ++ (r, q) :: es2 /\ ~ In r (map fst es2).

(* ---- weights of words ---- *)

(* the relation without its subtype: r is what stands before the first colon of s *)
Definition base_relation (s r : str) : Prop := (s = r \/ exists rest, s = r ++ 58%N :: rest) /\ ~ In 58%N r.

(* the weight of a relation: 1 if none is given *)
Definition given (d : dict Q) (r : str) (q : Q) : Prop := dict_get d r = Some q \/ dict_get d r = None /\ q = 1%Q.

Definition relation_of (w : word) : str := nth 7 (w_columns w) [].

(* the word lines of a file *)
Definition file_words (gss : list (list (group (list str)))) : list (list str) := concat (map word_cells gss).

Definition same_score (a b : score) : Prop :=
  (s_precision a == s_precision b)%Q /\ (s_recall a == s_recall b)%Q /\ (s_f1 a == s_f1 b)%Q /\
  match s_aligned a, s_aligned b with
  | Some x, Some y => (x == y)%Q
  | None, None => True
  | _, _ => False
  end.

(* ---- the table ---- *)

Definition rows_of (weights : bool) : list (metric * string) :=
  [(MTokens, "Tokens"); (MSentences, "Sentences"); (MWords, "Words"); (MUPOS, "UPOS"); (MXPOS, "XPOS"); (MFeats, "Feats");
   (MAllTags, "AllTags"); (MLemmas, "Lemmas"); (MUAS, "UAS"); (MLAS, "LAS"); (MCLAS, "CLAS")]%string
  ++ if weights then [(MWeightedLAS, "WeightedLAS"%string)] else [].

(* the cells of a row, without the spaces around them *)
Definition row_cells (line : str) : list str := map strip (split 124%N line).

(* the row of a score *)
Definition row_shows (fixed2 : Q -> str) (f : metric -> option score) (row : metric * string) (line : str) : Prop :=
  exists sc, f (fst row) = Some sc /\
    row_cells line = [of_string (snd row); fixed2 (100 * s_precision sc)%Q; fixed2 (100 * s_recall sc)%Q; fixed2 (100 * s_f1 sc)%Q;
                      match s_aligned sc with Some q => fixed2 (100 * q)%Q | None => [] end].

(* what is made of a number is made of digits, points and signs *)
Definition plain_numbers (fixed2 : Q -> str) : Prop :=
  forall q, Forall (fun c => (48 <= c <= 57)%N \/ c = 46%N \/ c = 45%N) (fixed2 q).

(* and depends on the number only *)
Definition same_numbers (fixed2 : Q -> str) : Prop := forall p q, (p == q)%Q -> fixed2 p = fixed2 q.

(* where the bars of a line stand *)
Fixpoint bars (at_ : nat) (line : str) : list nat :=
  match line with
  | [] => []
  | c :: line' => if (c =? 124)%N then at_ :: bars (S at_) line' else bars (S at_) line'
  end.

(* the text of the weights, if a file is named *)
Definition weights_text (files : dict str) (a : arguments) : option str :=
  match weights_file a with Some p => dict_get files p | None => None end.
