(* Vocabulary of the properties of lemma rules. *)
From Coq Require Import ZArith NArith Bool List.
From Verif Require Import Base Model_Datamodel Model_Vocab Model_Lemma.
Import ListNotations.
Open Scope Z_scope.

(* s is a suffix of w *)
Definition ends_with (w s : str) : Prop := exists p, w = p ++ s.

(* the last k characters *)
Definition last_chars (k : nat) (w : str) : str := skipn (length w - k) w.

(* r keeps the longest common prefix of word and lemma and exchanges the rest; it is an exception when
   nothing is kept *)
Definition learned_rule (word lemma : str) (r : rule) : Prop :=
  exists p, word = p ++ word_suffix r /\ lemma = p ++ lemma_suffix r /\
    (forall q w' l', word = q ++ w' -> lemma = q ++ l' -> (length q <= length p)%nat) /\
    (exception r = true <-> p = []).

(* the entries of the list that are stored for the suffix s, in the order of the list *)
Definition entries_for (exc : bool) (s : str) (rules : list entry) : list entry :=
  filter (fun e => Bool.eqb (exception (fst e)) exc && str_eqb (word_suffix (fst e)) s) rules.

(* the length of the longest suffix of w with which the word suffix of some rule ends *)
Definition known_suffix (rules : list entry) (s : str) : Prop :=
  s = [] \/ exists e, In e rules /\ ends_with (word_suffix (fst e)) s.

Definition longest_known (rules : list entry) (w : str) (d : nat) : Prop :=
  (d <= length w)%nat /\ known_suffix rules (last_chars d w) /\
  forall d', (d < d' <= length w)%nat -> ~ known_suffix rules (last_chars d' w).

(* equal in everything but the lemma *)
Definition same_but_lemma (a b : token) : Prop :=
  tstart a = tstart b /\ tend a = tend b /\ tpos a = tpos b /\ tdeprel a = tdeprel b /\ tsub a = tsub b /\
  trepl a = trepl b /\ thdoc a = thdoc b /\ thsent a = thsent b /\ textras a = textras b.

(* r is the rule a training token teaches *)
Definition teaches (lower : str -> str) (x : dtoken) (r : rule) : Prop :=
  exists l, tlemma (dt_tok x) = Some l /\ learned_rule (lower (dt_text x)) (lower l) r.
