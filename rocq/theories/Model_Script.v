(* Model of the script babylondigger/evaluation/conll17_ud_eval.py:446-516: the file of weights, evaluate_wrapper and main.
   Definitions only.  Reading treebanks and scoring are Model_UDEval.

   Simplifications: a number is rational (float() is any function from text to a rational or an exception, so nan and infinities do not
   occur), and what "{:.2f}" makes of a number is any function fixed2.  Files are given by name, with their text decoded; files that
   are there can be read.  The command line is already split into its four values; `-` for standard input is not modelled.  What has
   been printed is a list of lines. *)
From Coq Require Import String Ascii ZArith NArith QArith Bool List.
From Verif Require Import Base Model_Datamodel Model_Conllu Model_UDEval.
Import ListNotations.
Open Scope Z_scope.

(* s.split(): the pieces between runs of white space; cur is the current piece, backwards *)
Fixpoint split_words_from (cur s : str) : list str :=
  match s with
  | [] => match cur with [] => [] | _ => [rev cur] end
  | c :: s' =>
      if isspace_char c then match cur with [] => split_words_from [] s' | _ => rev cur :: split_words_from [] s' end
      else split_words_from (c :: cur) s'
  end.
Definition split_words (s : str) : list str := split_words_from [] s.

(* "{:11}".format(s) and "{:10}" of a number *)
Definition pad_right (n : nat) (s : str) : str := s ++ repeat chSP (n - length s).
Definition pad_left (n : nat) (s : str) : str := repeat chSP (n - length s) ++ s.

(* the keys of the dictionary of scores, 425-442 *)
Definition metric_name (m : metric) : str :=
  of_string match m with
            | MTokens => "Tokens" | MSentences => "Sentences" | MWords => "Words" | MUPOS => "UPOS" | MXPOS => "XPOS"
            | MFeats => "Feats" | MAllTags => "AllTags" | MLemmas => "Lemmas" | MUAS => "UAS" | MLAS => "LAS" | MCLAS => "CLAS"
            | MWeightedLAS => "WeightedLAS"
            end%string.

(* what the process does: prints lines and ends, prints nothing and ends with an exception, or refuses the command line *)
Inductive outcome := Printed (lines : list str) | Raised (e : exn) | Refused.

Record arguments := mkArgs { gold_file : str; system_file : str; weights_file : option str; verbose : nat }.

Section Script.
Variables (parse_float : str -> result Q) (lower : str -> str) (fixed2 : Q -> str).

(* one line of the file of weights, 451-460 *)
Definition weight_line (d : dict Q) (line : str) : result (dict Q) :=
  if startswith line (of_string "#") || match strip line with [] => true | _ => false end then Ok d
  else
    match split_words (rstrip_crlf line) with
    | [relation; number] => do q <- parse_float number; Ok (dict_set d relation q)
    | _ => Err EValue
    end.

(* load_deprel_weights, 446-462; the file is opened with universal newlines (argparse.FileType("r"), 485) *)
Definition load_weights (contents : option str) : result (option (dict Q)) :=
  match contents with
  | None => Ok None
  | Some text => do d <- foldM weight_line [] (file_lines (universal_newlines text)); Ok (Some d)
  end.

(* open(path): FileNotFoundError is EExc *)
Definition open_file (files : dict str) (path : str) : result str := of_option EExc (dict_get files path).

(* evaluate_wrapper, 468-476; weights is the open file of weights *)
Definition evaluate_wrapper (files : dict str) (a : arguments) (weights : option str) : result (metric -> option score) :=
  do g <- open_file files (gold_file a);
  do gold <- load_conllu_file g;
  do s <- open_file files (system_file a);
  do system <- load_conllu_file s;
  do d <- load_weights weights;
  evaluate lower gold system d.

(* 501, 512-515 *)
Definition hundredfold (q : Q) : str := fixed2 (100 * q)%Q.

(* evaluation[metric] *)
Definition score_of (f : metric -> option score) (m : metric) : result score := of_option EKey (f m).

(* a row of the table, 510-516 *)
Definition table_row (f : metric -> option score) (m : metric) : result str :=
  do sc <- score_of f m;
  Ok (pad_right 11 (metric_name m) ++ of_string "|" ++ pad_left 10 (hundredfold (s_precision sc)) ++ of_string " |"
      ++ pad_left 10 (hundredfold (s_recall sc)) ++ of_string " |" ++ pad_left 10 (hundredfold (s_f1 sc)) ++ of_string " |"
      ++ match s_aligned sc with Some q => pad_left 10 (hundredfold q) | None => [] end).

(* 503-505 and the two lines above the table, 507-508 *)
Definition table_metrics (weights : bool) : list metric :=
  [MTokens; MSentences; MWords; MUPOS; MXPOS; MFeats; MAllTags; MLemmas; MUAS; MLAS; MCLAS] ++ if weights then [MWeightedLAS] else [].

Definition table_head : list str :=
  [of_string "Metrics    | Precision |    Recall |  F1 Score | AligndAcc"; of_string "-----------+-----------+-----------+-----------+-----------"].

(* 500-516; verbose is as set in 493-494 *)
Definition report (f : metric -> option score) (weights : bool) (verbose : nat) : result (list str) :=
  if (verbose =? 0)%nat then do sc <- score_of f MLAS; Ok [of_string "LAS F1 Score: " ++ hundredfold (s_f1 sc)]
  else do rows <- mapM (table_row f) (table_metrics weights); Ok (table_head ++ rows).

(* main, 478-516 *)
Definition main (files : dict str) (a : arguments) : outcome :=
  let weights := match weights_file a with None => None | Some p => Some (dict_get files p) end in
  match weights with
  | Some None => Refused
  | _ =>
      let text := match weights with Some w => w | None => None end in
      let given := negb (is_none text) in
      let verbose := if given && (verbose a =? 0)%nat then 1%nat else verbose a in
      match (do f <- evaluate_wrapper files a text; report f given verbose) with
      | Ok lines => Printed lines
      | Err e => Raised e
      end
  end.

End Script.
