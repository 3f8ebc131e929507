(* Model of load_conllu (evaluation/conll17_ud_eval.py) with python's recursion limit.  Definitions only. *)
From Coq Require Import String Ascii ZArith NArith Bool List.
From Verif Require Import Base Model_Datamodel Model_Conllu Model_UDEval.
Import ListNotations.
Open Scope Z_scope.

(* process_word, conll17_ud_eval.py:162-172, which calls itself for the head of the word.  limit is the number of
   calls of process_word that fit on the stack, that is sys.getrecursionlimit() less the frames of the callers; one
   call more raises RecursionError, a RuntimeError.  ps are the parents of all words read so far, start is
   sentence_start, j the position of the word.
   Simplification: the calls of int and len inside of process_word need no place on the stack. *)
Fixpoint process_word_in (limit : nat) (words : list word) (start : Z) (ps : list parent) (j : Z) : result (list parent) :=
  match limit with
  | O => Err ERuntime
  | S limit' =>
      do p <- py_index ps j;
      match p with
      | PaRemap => Err EUD
      | PaWord _ => Ok ps
      | PaNone =>
          do w <- py_index words j;
          do c <- py_index (w_columns w) cHEAD;
          do head <- parse_int c;
          if zlen words - start <? head then Err EUD
          else if head =? 0 then Ok ps
          else
            do k <- resolve_index (zlen words) (start + head - 1);
            do ps' <- process_word_in limit' words start (set_nth ps (Z.to_nat j) PaRemap) k;
            Ok (set_nth ps' (Z.to_nat j) (PaWord k))
      end
  end.

(* the end of a sentence, 160-180: the calls of 174-175 are made one after another, each with the whole stack *)
Definition link_sentence_in (limit : nat) (words : list word) (start : Z) : result (list word) :=
  do ps <- foldM (fun ps j => process_word_in limit words start ps j)
                 (map w_parent words)
                 (map (fun i => start + Z.of_nat i) (seq 0 (length words - Z.to_nat start)));
  do _ <- raise_if (negb (zlen (filter is_root (skipn (Z.to_nat start) ps)) =? 1)) EUD;
  Ok (with_parents words ps).

(* one line of the file, 150-236 *)
Definition load_line_in (limit : nat) (st : lstate) (raw : str) : result lstate :=
  let line := rstrip_crlf raw in
  let u := l_ud st in
  if 0 <? l_pending st then load_mw_word st line
  else
    match l_start st with
    | None =>
        if startswith line (of_string "#") then Ok st
        else
          let start := zlen (u_words u) in
          let u' := mkUD (u_chars u) (u_tokens u) (u_words u) (u_sents u ++ [mkSpan (l_index st) 0]) in
          match line with
          | [] =>
              do ws <- link_sentence_in limit (u_words u') start;
              Ok (mkL (mkUD (u_chars u') (u_tokens u') ws (close_last (u_sents u') (l_index st))) (l_index st) None 0)
          | _ => load_row (mkL u' (l_index st) (Some start) 0) start line
          end
    | Some start =>
        match line with
        | [] =>
            do ws <- link_sentence_in limit (u_words u) start;
            Ok (mkL (mkUD (u_chars u) (u_tokens u) ws (close_last (u_sents u) (l_index st))) (l_index st) None 0)
        | _ => load_row st start line
        end
    end.

(* load_conllu, 142-241 *)
Definition load_conllu_in (limit : nat) (text : str) : result ud :=
  do st <- foldM (load_line_in limit) initial_lstate (file_lines text);
  do _ <- raise_if (0 <? l_pending st) EUD;
  do _ <- raise_if (negb (is_none (l_start st))) EUD;
  Ok (l_ud st).
