(* Model of babylondigger/evaluation/conll17_ud_eval.py.  Definitions only. *)
From Coq Require Import String Ascii ZArith NArith QArith Bool List.
From Verif Require Import Base Model_Datamodel Model_Conllu.
Import ListNotations.
Open Scope Z_scope.

(* ------------------------------------------------------------------ *)
(* load_conllu, conll17_ud_eval.py:109-241                             *)

(* UDSpan, 122-127 *)
Record span := mkSpan { sp_start : Z; sp_end : Z }.

(* word.parent: None, the marker "remapping", or a word, given by its position in ud.words *)
Inductive parent := PaNone | PaRemap | PaWord (i : Z).

(* UDWord, 128-140.  Words are compared by identity; w_ix, the position in ud.words, stands for it. *)
Record word := mkWord {
  w_ix : Z;
  w_span : span;
  w_columns : list str;
  w_multi : bool;
  w_parent : parent
}.

(* UDRepresentation, 111-121 *)
Record ud := mkUD {
  u_chars : str;
  u_tokens : list span;
  u_words : list word;
  u_sents : list span
}.

(* line.rstrip("\r\n"), 150 *)
Definition rstrip_crlf (s : str) : str := rev (drop_while is_crlf (rev s)).

(* columns[DEPREL].split(':')[0], 140 *)
Definition universal_deprel (cols : list str) : list str :=
  set_nth cols 7 (hd [] (split (ch ":") (nth 7 cols []))).

Definition new_word (ix : Z) (sp : span) (cols : list str) (multi : bool) : word :=
  mkWord ix sp (universal_deprel cols) multi PaNone.

(* list index as python resolves it *)
Definition resolve_index (n i : Z) : result Z :=
  let j := if i <? 0 then i + n else i in
  if (0 <=? j) && (j <? n) then Ok j else Err EIndex.

(* process_word, 162-172; ps are the parents of all words read so far, start is sentence_start.
   Simplification: python's recursion limit is not modelled. *)
Fixpoint process_word (fuel : nat) (words : list word) (start : Z) (ps : list parent) (j : Z) : result (list parent) :=
  match fuel with
  | O => Err EFuel
  | S fuel' =>
      do p <- py_index ps j;
      match p with
      | PaRemap => Err EUD
      | PaWord _ => Ok ps
      | PaNone =>
          do w <- py_index words j;
          do c <- py_index (w_columns w) cHEAD;
          do head <- parse_int c;
          if zlen words - start <? head then Err EUD
          else if head =? 0 then Ok ps
          else
            do k <- resolve_index (zlen words) (start + head - 1);
            do ps' <- process_word fuel' words start (set_nth ps (Z.to_nat j) PaRemap) k;
            Ok (set_nth ps' (Z.to_nat j) (PaWord k))
      end
  end.

Definition is_root (p : parent) : bool := match p with PaNone => true | _ => false end.

Fixpoint with_parents (ws : list word) (ps : list parent) : list word :=
  match ws, ps with
  | w :: ws', p :: ps' => mkWord (w_ix w) (w_span w) (w_columns w) (w_multi w) p :: with_parents ws' ps'
  | _, _ => []
  end.

(* the end of a sentence, 160-180: links the words from start on *)
Definition link_sentence (words : list word) (start : Z) : result (list word) :=
  do ps <- foldM (fun ps j => process_word (S (length words)) words start ps j)
                 (map w_parent words)
                 (map (fun i => start + Z.of_nat i) (seq 0 (length words - Z.to_nat start)));
  do _ <- raise_if (negb (zlen (filter is_root (skipn (Z.to_nat start) ps)) =? 1)) EUD;
  Ok (with_parents words ps).

(* ud.sentences[-1].end = index, 183 *)
Definition close_last (ss : list span) (e : Z) : list span :=
  removelast ss ++ match rev ss with [] => [] | s :: _ => [mkSpan (sp_start s) e] end.

(* columns[FORM].replace(" ", ""), 198 *)
Definition remove_spaces (s : str) : str := filter (fun c => negb (c =? chSP)%N) s.

(* The loop 145-236.  l_pending counts the lines that the loop of 214-219 still has to read for the
   current range line: python reads them in an inner loop; reading past the end gives "" and hence UDError. *)
Record lstate := mkL {
  l_ud : ud;
  l_index : Z;
  l_start : option Z;      (* sentence_start *)
  l_pending : Z
}.

Definition initial_lstate : lstate := mkL (mkUD [] [] [] []) 0 None 0.

Definition parse_int_ud (s : str) : result Z :=
  match parse_int s with Ok z => Ok z | Err _ => Err EUD end.

(* start, end = map(int, columns[ID].split("-")), 209-212 *)
Definition parse_range_ud (s : str) : result (Z * Z) :=
  match split (ch "-") s with
  | [a; b] => do x <- parse_int_ud a; do y <- parse_int_ud b; Ok (x, y)
  | _ => Err EUD
  end.

(* a token or word line, 188-236 *)
Definition load_row (st : lstate) (start : Z) (line : str) : result lstate :=
  let u := l_ud st in
  let columns := split chTAB line in
  do _ <- raise_if (negb (zlen columns =? 10)) EUD;
  let id := nth 0 columns [] in
  if mem_char (ch ".") id then Ok st
  else
    let form := remove_spaces (nth 1 columns []) in
    let columns := set_nth columns 1 form in
    do _ <- raise_if (zlen form =? 0) EUD;
    let sp := mkSpan (l_index st) (l_index st + zlen form) in
    let u' := mkUD (u_chars u ++ form) (u_tokens u ++ [sp]) (u_words u) (u_sents u) in
    let index' := l_index st + zlen form in
    if mem_char (ch "-") id then
      do ab <- parse_range_ud id;
      let '(a, b) := ab in
      Ok (mkL u' index' (Some start) (Z.max 0 (b + 1 - a)))
    else
      do word_id <- parse_int_ud id;
      do _ <- raise_if (negb (word_id =? zlen (u_words u) - start + 1)) EUD;
      do head_id <- parse_int_ud (nth 6 columns []);
      do _ <- raise_if (head_id <? 0) EUD;
      Ok (mkL (mkUD (u_chars u') (u_tokens u') (u_words u ++ [new_word (zlen (u_words u)) sp columns false]) (u_sents u'))
              index' (Some start) 0).

(* a line inside the loop of 214-219 *)
Definition load_mw_word (st : lstate) (line : str) : result lstate :=
  let u := l_ud st in
  let columns := split chTAB line in
  do _ <- raise_if (negb (zlen columns =? 10)) EUD;
  do sp <- py_index (u_tokens u) (-1);
  Ok (mkL (mkUD (u_chars u) (u_tokens u) (u_words u ++ [new_word (zlen (u_words u)) sp columns true]) (u_sents u))
          (l_index st) (l_start st) (l_pending st - 1)).

(* one line of the file, 150-236 *)
Definition load_line (st : lstate) (raw : str) : result lstate :=
  let line := rstrip_crlf raw in
  let u := l_ud st in
  if 0 <? l_pending st then load_mw_word st line
  else
    match l_start st with
    | None =>
        if startswith line (of_string "#") then Ok st
        else
          let start := zlen (u_words u) in
          let u' := mkUD (u_chars u) (u_tokens u) (u_words u) (u_sents u ++ [mkSpan (l_index st) 0]) in
          match line with
          | [] =>
              do ws <- link_sentence (u_words u') start;
              Ok (mkL (mkUD (u_chars u') (u_tokens u') ws (close_last (u_sents u') (l_index st))) (l_index st) None 0)
          | _ => load_row (mkL u' (l_index st) (Some start) 0) start line
          end
    | Some start =>
        match line with
        | [] =>
            do ws <- link_sentence (u_words u) start;
            Ok (mkL (mkUD (u_chars u) (u_tokens u) ws (close_last (u_sents u) (l_index st))) (l_index st) None 0)
        | _ => load_row st start line
        end
    end.

(* load_conllu, 142-241 *)
Definition load_conllu (text : str) : result ud :=
  do st <- foldM load_line initial_lstate (file_lines text);
  do _ <- raise_if (0 <? l_pending st) EUD;
  do _ <- raise_if (negb (is_none (l_start st))) EUD;
  Ok (l_ud st).

(* load_conllu_file, 464-466: universal newlines *)
Definition load_conllu_file (contents : str) : result ud := load_conllu (universal_newlines contents).

(* ------------------------------------------------------------------ *)
(* evaluate, 244-444                                                   *)

(* Score, 245-250.  Simplification: python computes in floating point, the model in rationals. *)
Record score := mkScore {
  s_precision : Q;
  s_recall : Q;
  s_f1 : Q;
  s_aligned : option Q
}.

Definition Qzero (q : Q) : bool := Qeq_bool q 0.
Definition ratio (a b : Q) : Q := if Qzero b then 0%Q else (a / b)%Q.

Definition new_score (gold system correct : Q) (aligned : option Q) : score :=
  mkScore (ratio correct system) (ratio correct gold) (ratio (2 * correct) (system + gold))
          (option_map (fun a => ratio correct a) aligned).

(* spans_score, 281-293; positions in the lists become suffixes *)
Fixpoint spans_correct (g : list span) : list span -> Z :=
  fix inner (s : list span) : Z :=
    match g, s with
    | a :: g', b :: s' =>
        if sp_start b <? sp_start a then inner s'
        else if sp_start a <? sp_start b then spans_correct g' s
        else (if sp_end a =? sp_end b then 1 else 0) + spans_correct g' s'
    | _, _ => 0
    end.

Definition qlen {A} (l : list A) : Q := inject_Z (zlen l).
Definition spans_score (g s : list span) : score :=
  new_score (qlen g) (qlen s) (inject_Z (spans_correct g s)) None.

(* beyond_end, 317-322, on the words from position i on *)
Definition beyond_end (ws : list word) (e : Z) : bool :=
  match ws with
  | [] => true
  | w :: _ => if w_multi w then e <=? sp_start (w_span w) else e <? sp_end (w_span w)
  end.

(* extend_end, 324-327 *)
Definition extend_end (w : word) (e : Z) : Z :=
  if w_multi w && (e <? sp_end (w_span w)) then sp_end (w_span w) else e.

(* the loop of find_multiword_span, 345-353.  Returns the gold words passed over, the system words
   passed over and the remaining words. *)
Fixpoint span_loop (fuel : nat) (g s : list word) (e : Z) : result (list word * list word * list word * list word) :=
  if beyond_end g e && beyond_end s e then Ok ([], [], g, s)
  else
    match fuel with
    | O => Err EFuel
    | S fuel' =>
        match g, s with
        | w :: g', [] =>
            do r <- span_loop fuel' g' s (extend_end w e);
            let '(gs, ss, gr, sr) := r in Ok (w :: gs, ss, gr, sr)
        | w :: g', v :: s' =>
            if sp_start (w_span w) <=? sp_start (w_span v) then
              do r <- span_loop fuel' g' s (extend_end w e);
              let '(gs, ss, gr, sr) := r in Ok (w :: gs, ss, gr, sr)
            else
              do r <- span_loop fuel' g s' (extend_end v e);
              let '(gs, ss, gr, sr) := r in Ok (gs, v :: ss, gr, sr)
        | [], v :: s' =>
            do r <- span_loop fuel' g s' (extend_end v e);
            let '(gs, ss, gr, sr) := r in Ok (gs, v :: ss, gr, sr)
        | [], [] => Err EIndex (* unreachable: both are beyond the end *)
        end
    end.

(* find_multiword_span, 329-354; called with words on both sides, one of them multiword *)
Definition find_multiword_span (fuel : nat) (w v : word) (g s : list word)
  : result (list word * list word * list word * list word) :=
  if w_multi w then
    span_loop fuel (w :: g)
              (if negb (w_multi v) && (sp_start (w_span v) <? sp_start (w_span w)) then s else v :: s)
              (sp_end (w_span w))
  else
    span_loop fuel (if negb (w_multi w) && (sp_start (w_span w) <? sp_start (w_span v)) then g else w :: g)
              (v :: s) (sp_end (w_span v)).

Definition form_of (w : word) : str := nth 1 (w_columns w) [].

Section Align.

(* str.lower *)
Variable lower : str -> str.

Definition same_form (w v : word) : bool := str_eqb (lower (form_of w)) (lower (form_of v)).

(* compute_lcs, 356-364: one row of the table from the row below it (zeros below the last one) *)
Fixpoint lcs_row (w : word) (s : list word) (below : list Z) : list Z :=
  match s with
  | [] => []
  | v :: s' =>
      let rest := lcs_row w s' (tl below) in
      let diag := hd 0 (tl below) in
      let x := if same_form w v then 1 + diag else 0 in
      Z.max (Z.max x (hd 0 below)) (hd 0 rest) :: rest
  end.

Fixpoint compute_lcs (g s : list word) : list (list Z) :=
  match g with
  | [] => []
  | w :: g' => let rows := compute_lcs g' s in lcs_row w s (hd [] rows) :: rows
  end.

(* the walk through the table, 378-388; stepping s drops the first column of the table *)
Fixpoint lcs_walk (fuel : nat) (g s : list word) (rows : list (list Z)) : result (list (word * word)) :=
  match g, s with
  | w :: g', v :: s' =>
      match fuel with
      | O => Err EFuel
      | S fuel' =>
          if same_form w v then
            do r <- lcs_walk fuel' g' s' (map (@tl Z) (tl rows)); Ok ((w, v) :: r)
          else if hd 0 (hd [] rows) =? hd 0 (hd [] (tl rows)) then lcs_walk fuel' g' s (tl rows)
          else lcs_walk fuel' g s' (map (@tl Z) rows)
      end
  | _, _ => Ok []
  end.

(* align_words, 366-402, without fill_parents *)
Fixpoint align_words (fuel : nat) (g s : list word) : result (list (word * word)) :=
  match g, s with
  | w :: g', v :: s' =>
      match fuel with
      | O => Err EFuel
      | S fuel' =>
          if w_multi w || w_multi v then
            do r <- find_multiword_span (length g + length s) w v g' s';
            let '(gs, ss, gr, sr) := r in
            do here <- (match gs, ss with
                        | _ :: _, _ :: _ => lcs_walk (length gs + length ss) gs ss (compute_lcs gs ss)
                        | _, _ => Ok []
                        end);
            do there <- align_words fuel' gr sr;
            Ok (here ++ there)
          else if (sp_start (w_span w) =? sp_start (w_span v)) && (sp_end (w_span w) =? sp_end (w_span v)) then
            do r <- align_words fuel' g' s'; Ok ((w, v) :: r)
          else if sp_start (w_span w) <=? sp_start (w_span v) then align_words fuel' g' s
          else align_words fuel' g s'
      end
  | _, _ => Ok []
  end.

Definition align (g s : list word) : result (list (word * word)) := align_words (length g + length s) g s.

End Align.

(* parents as compared by the metrics: 0 for a root, a gold word, or None *)
Inductive pref := RRoot | RGold (i : Z) | RNone.
Definition pref_eqb (a b : pref) : bool :=
  match a, b with
  | RRoot, RRoot => true
  | RGold i, RGold j => i =? j
  | RNone, RNone => true
  | _, _ => false
  end.

(* AlignmentWord, 251-256 *)
Record aligned_words := mkAW { a_gold : word; a_system : word; a_gold_parent : pref; a_system_parent : pref }.

(* matched_words_map, 263-266: later entries win *)
Definition matched (pairs : list (word * word)) (i : Z) : option Z :=
  option_map (fun p => w_ix (fst p)) (find (fun p => w_ix (snd p) =? i) (rev pairs)).

(* fill_parents, 266-274.  After loading no parent is "remapping". *)
Definition fill_parents (pairs : list (word * word)) : list aligned_words :=
  map (fun p => mkAW (fst p) (snd p)
                  (match w_parent (fst p) with PaWord i => RGold i | _ => RRoot end)
                  (match w_parent (snd p) with
                   | PaWord i => match matched pairs i with Some j => RGold j | None => RNone end
                   | _ => RRoot
                   end)) pairs.

(* what key_fn returns: the parent, if it is used, and some columns *)
Definition key := (option pref * list str)%type.
Definition key_eqb (a b : key) : bool :=
  option_eqb pref_eqb (fst a) (fst b) && list_eqb str_eqb (snd a) (snd b).

Definition columns_of (cs : list nat) (w : word) : list str := map (fun c => nth c (w_columns w) []) cs.
Definition tag_key (cs : list nat) (w : word) (p : pref) : key := (None, columns_of cs w).
Definition head_key (cs : list nat) (w : word) (p : pref) : key := (Some p, columns_of cs w).

Definition qsum {A} (f : A -> Q) (l : list A) : Q := fold_right (fun x q => (f x + q)%Q) 0%Q l.

(* alignment_score, 295-315 *)
Definition alignment_score (gold system : list word) (al : list aligned_words)
           (key_fn : option (word -> pref -> key)) (weight : word -> Q) : score :=
  let aligned := qsum (fun a => weight (a_gold a)) al in
  match key_fn with
  | None => new_score (qsum weight gold) (qsum weight system) aligned None
  | Some k =>
      let good := filter (fun a => key_eqb (k (a_gold a) (a_gold_parent a)) (k (a_system a) (a_system_parent a))) al in
      new_score (qsum weight gold) (qsum weight system) (qsum (fun a => weight (a_gold a)) good) (Some aligned)
  end.

(* weighted_las, 422-423 *)
Definition deprel_weight (weights : dict Q) (w : word) : Q :=
  match dict_get weights (nth 7 (w_columns w) []) with Some q => q | None => 1%Q end.

(* CLAS_weights, 97-102 *)
Definition clas_weights : dict Q :=
  map (fun s => (of_string s, 0%Q)) ["aux"; "case"; "cc"; "clf"; "cop"; "det"; "mark"; "punct"]%string.

Inductive metric := MTokens | MSentences | MWords | MUPOS | MXPOS | MFeats | MAllTags | MLemmas | MUAS | MLAS | MCLAS | MWeightedLAS.

Definition one (w : word) : Q := 1%Q.

(* the result dictionary, 425-442; MWeightedLAS is present only with weights *)
Definition metric_score (gold system : ud) (al : list aligned_words) (weights : option (dict Q)) (m : metric) : option score :=
  let sc := alignment_score (u_words gold) (u_words system) al in
  match m with
  | MTokens => Some (spans_score (u_tokens gold) (u_tokens system))
  | MSentences => Some (spans_score (u_sents gold) (u_sents system))
  | MWords => Some (sc None one)
  | MUPOS => Some (sc (Some (tag_key [3%nat])) one)
  | MXPOS => Some (sc (Some (tag_key [4%nat])) one)
  | MFeats => Some (sc (Some (tag_key [5%nat])) one)
  | MAllTags => Some (sc (Some (tag_key [3%nat; 4%nat; 5%nat])) one)
  | MLemmas => Some (sc (Some (tag_key [2%nat])) one)
  | MUAS => Some (sc (Some (head_key [])) one)
  | MLAS => Some (sc (Some (head_key [7%nat])) one)
  | MCLAS => Some (sc (Some (head_key [7%nat])) (deprel_weight clas_weights))
  | MWeightedLAS => option_map (fun ws => sc (Some (head_key [7%nat])) (deprel_weight ws)) weights
  end.

(* evaluate, 404-444; Simplification: the text of the error message is not modelled *)
Definition evaluate (lower : str -> str) (gold system : ud) (weights : option (dict Q)) : result (metric -> option score) :=
  do _ <- raise_if (negb (str_eqb (u_chars gold) (u_chars system))) EUD;
  do pairs <- align lower (u_words gold) (u_words system);
  Ok (metric_score gold system (fill_parents pairs) weights).
