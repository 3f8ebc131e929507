(* Specification vocabulary for CoNLL-U input and output. *)
From Coq Require Import String ZArith NArith Bool List.
From Verif Require Import Base Model_Datamodel Model_Conllu Spec_Datamodel.
Import ListNotations.
Open Scope Z_scope.

(* ---- lines ---- *)

(* the cells of a line *)
Definition cells_of (line : str) : list str := split chTAB (strip_crlf line).
Definition cell (c : list str) (i : nat) : str := nth i c [].
Definition comment_line (line : str) : Prop := exists s, strip_crlf line = of_string "#" ++ s.
Definition blank_line (line : str) : Prop := strip_crlf line = [].

(* the lines that carry words: neither comments nor blank *)
Definition row_line (line : str) : Prop := ~ comment_line line /\ ~ blank_line line.

(* the MISC cell has an entry called SpaceAfter *)
Definition no_space_after (misc : str) : Prop :=
  misc <> of_string "_" /\
  exists e, In e (split 124%N misc) /\ hd [] (split 61%N e) = of_string "SpaceAfter".

(* "_" stands for an absent value *)
Definition cell_opt (c : list str) (i : nat) : option str :=
  if str_eqb (cell c i) (of_string "_") then None else Some (cell c i).
Definition row_id (c : list str) : option str := cell_opt c 0.

(* key and value of an entry key=value *)
Definition entry_key (e : str) : str := hd [] (split 61%N e).
Definition entry_value (e : str) : str := nth 1 (split 61%N e) [].
(* the value the FEATS (or MISC) cell gives to a key: that of its last entry for the key *)
Definition value_in (o : option str) (k : str) : option str :=
  match o with
  | None => None
  | Some s => option_map entry_value (find (fun e => str_eqb (entry_key e) k) (rev (split 124%N s)))
  end.

(* a row without defects: ten columns, all entries of FEATS and MISC have a value, HEAD is a number or absent *)
Definition well_formed_row (c : list str) : Prop :=
  (10 <= length c)%nat /\
  (forall s e, cell_opt c 5 = Some s -> In e (split 124%N s) -> In 61%N e) /\
  (forall s e, cell_opt c 9 = Some s -> In e (split 124%N s) -> In 61%N e) /\
  (forall s, cell_opt c 6 = Some s -> exists h, parse_int s = Ok h).

(* the lines of one sentence up to and including its blank line, and the cells of its rows *)
Inductive sentence_lines : list str -> list (list str) -> Prop :=
| sl_end l : blank_line l -> sentence_lines [l] []
| sl_comment l ls rows : comment_line l -> sentence_lines ls rows -> sentence_lines (l :: ls) rows
| sl_row l ls rows : row_line l -> sentence_lines ls rows -> sentence_lines (l :: ls) (cells_of l :: rows).

(* the lines of a sentence that is not finished yet *)
Inductive sentence_prefix : list str -> list (list str) -> Prop :=
| sp_nil : sentence_prefix [] []
| sp_comment l ls rows : comment_line l -> sentence_prefix ls rows -> sentence_prefix (l :: ls) rows
| sp_row l ls rows : row_line l -> sentence_prefix ls rows -> sentence_prefix (l :: ls) (cells_of l :: rows).

(* ---- grouping of the rows of one sentence ---- *)

(* one word, or one range line a-b with its words *)
Inductive group (A : Type) := GWord (r : A) | GRange (r : A) (ws : list A).
Arguments GWord {A} r.
Arguments GRange {A} r ws.

(* the line that holds the surface form *)
Definition surface_row {A} (g : group A) : A := match g with GWord r => r | GRange r _ => r end.
(* the lines that become tokens, each with the line holding its surface form and whether it is a word of a range *)
Definition words_of {A} (g : group A) : list (A * A * bool) :=
  match g with
  | GWord r => [(r, r, false)]
  | GRange r ws => map (fun w => (r, w, true)) ws
  end.

(* [grouped id rows gs]: reading the rows one after another; a row whose id has a dot
   (empty node) is dropped, a range line a-b takes the next b-a+1 rows as its words *)
Inductive grouped {A} (id : A -> option str) : list A -> list (group A) -> Prop :=
| grouped_nil : grouped id [] []
| grouped_empty r rs gs i :
    id r = Some i -> In 46%N i -> grouped id rs gs -> grouped id (r :: rs) gs
| grouped_word r rs gs i :
    id r = Some i -> ~ In 46%N i -> ~ In 45%N i -> grouped id rs gs -> grouped id (r :: rs) (GWord r :: gs)
| grouped_range r ws rs gs sa sb a b :
    id r = Some (sa ++ 45%N :: sb) -> ~ In 46%N (sa ++ 45%N :: sb) -> ~ In 45%N sa -> ~ In 45%N sb ->
    parse_int sa = Ok a -> parse_int sb = Ok b ->
    ws <> [] -> zlen ws = b - a + 1 ->
    grouped id rs gs -> grouped id (r :: ws ++ rs) (GRange r ws :: gs).

(* ---- what a sentence of a document shows, independently of where it stands ---- *)

Definition token_view (base : Z) (t : token) :=
  (tstart t - base, tend t - base, tpos t, tlemma t, tdeprel t, tsub t, trepl t, thsent t).
Definition sentence_view (d : document) (s : sentence) :=
  let ts := tokens_of (dtokens d) s in
  let base := match ts with [] => 0 | t :: _ => tstart t end in
  (map (token_view base) ts, map (text_of (dtext d)) ts,
   py_slice (dtext d) base (match rev ts with [] => 0 | t :: _ => tend t end)).
Definition document_views (d : document) := map (sentence_view d) (dsents d).

(* every HEAD that is read is a number >= 0 or absent *)
Definition heads_nonnegative (text : str) : Prop :=
  forall line h, In line (file_lines text) -> parse_int (cell (cells_of line) 6) = Ok h -> 0 <= h.

(* ---- what the reader makes of the rows ---- *)

(* the text a line contributes: its FORM and one space, unless marked SpaceAfter *)
Definition piece (row : list str) (p : str) : Prop :=
  no_space_after (cell row 9) /\ p = cell row 1 \/
  ~ no_space_after (cell row 9) /\ p = cell row 1 ++ [chSP].

(* [laid_out off gs ps ts]: the groups gs contribute the texts ps starting at offset off;
   the words of each group become tokens spanning exactly the FORM of the surface line *)
Inductive laid_out : Z -> list (group (list str)) -> list str -> list token -> Prop :=
| lo_nil off : laid_out off [] [] []
| lo_group off g gs p ps ts1 ts2 :
    piece (surface_row g) p ->
    Forall2 (fun (w : list str * list str * bool) t =>
               let '(surf, word, in_range) := w in
               tstart t = off /\ tend t = off + zlen (cell surf 1) /\
               trepl t = if in_range then Some (cell word 1) else None) (words_of g) ts1 ->
    map tsub ts1 = map Z.of_nat (seq 0 (length ts1)) ->
    laid_out (off + zlen p) gs ps ts2 ->
    laid_out off (g :: gs) (p :: ps) (ts1 ++ ts2).

(* the column is read; DEPREL implies HEAD *)
Definition wants (cols : list Z) (c : Z) : Prop := In c cols \/ c = 6 /\ In 7 cols.

(* the annotations of the token of a row, columns numbered from 0 *)
Record annotated (cols : list Z) (row : list str) (t : token) : Prop := {
  an_lemma : (wants cols 2 -> tlemma t = cell_opt row 2) /\ (~ wants cols 2 -> tlemma t = None);
  an_deprel : (wants cols 7 -> tdeprel t = cell_opt row 7) /\ (~ wants cols 7 -> tdeprel t = None);
  an_head : (wants cols 6 -> cell_opt row 6 = None /\ thsent t = None \/
                             cell_opt row 6 <> None /\ exists h, parse_int (cell row 6) = Ok h /\ thsent t = Some (h - 1))
            /\ (~ wants cols 6 -> thsent t = None);
  an_tags : (wants cols 3 \/ wants cols 4 \/ wants cols 5) -> exists p, tpos t = Some p /\
      ((wants cols 3 -> upos p = cell_opt row 3) /\ (~ wants cols 3 -> upos p = None)) /\
      ((wants cols 4 -> xpos p = cell_opt row 4) /\ (~ wants cols 4 -> xpos p = None)) /\
      ((wants cols 5 -> forall k, dict_get (feats p) k = value_in (cell_opt row 5) k) /\ (~ wants cols 5 -> feats p = []));
  an_no_tags : ~ (wants cols 3 \/ wants cols 4 \/ wants cols 5) -> tpos t = None
}.

(* the document d is what the lines of its sentences say *)
Definition reads (cols : list Z) (ls : list (list str)) (d : document) : Prop :=
  exists gss pieces,
    Forall2 (fun lines gs => exists rows, sentence_lines lines rows /\ grouped row_id rows gs) ls gss /\
    laid_out 0 (concat gss) pieces (dtokens d) /\
    dtext d = concat pieces /\
    Forall2 (fun gs s => send s - sstart s = zlen (flat_map words_of gs)) gss (dsents d) /\
    Forall2 (fun w t => annotated cols (snd (fst w)) t) (flat_map words_of (concat gss)) (dtokens d).

(* after the last sentence: only comments and empty nodes *)
Definition ignorable (line : str) : Prop :=
  comment_line line \/ row_line line /\ exists i, row_id (cells_of line) = Some i /\ In 46%N i.

(* the document is the other one without the annotations of the columns not wanted *)
Definition restricted_pos (cols : list Z) (p p' : option pos) : Prop :=
  (~ (wants cols 3 \/ wants cols 4 \/ wants cols 5) /\ p = None) \/
  ((wants cols 3 \/ wants cols 4 \/ wants cols 5) /\
   exists q q', p = Some q /\ p' = Some q' /\
     ((wants cols 3 -> upos q = upos q') /\ (~ wants cols 3 -> upos q = None)) /\
     ((wants cols 4 -> xpos q = xpos q') /\ (~ wants cols 4 -> xpos q = None)) /\
     ((wants cols 5 -> feats q = feats q') /\ (~ wants cols 5 -> feats q = []))).
Record restricted_token (cols : list Z) (t t' : token) : Prop := {
  rs_same : tstart t = tstart t' /\ tend t = tend t' /\ tsub t = tsub t' /\ trepl t = trepl t' /\ textras t = textras t';
  rs_lemma : (wants cols 2 -> tlemma t = tlemma t') /\ (~ wants cols 2 -> tlemma t = None);
  rs_deprel : (wants cols 7 -> tdeprel t = tdeprel t') /\ (~ wants cols 7 -> tdeprel t = None);
  rs_head : (wants cols 6 -> thdoc t = thdoc t' /\ thsent t = thsent t') /\
            (~ wants cols 6 -> thdoc t = None /\ thsent t = None);
  rs_pos : restricted_pos cols (tpos t) (tpos t')
}.
Definition restricted_document (cols : list Z) (d d' : document) : Prop :=
  dtext d = dtext d' /\ dsents d = dsents d' /\ Forall2 (restricted_token cols) (dtokens d) (dtokens d').

(* all the columns the reader knows *)
Definition all_columns : list Z := [2; 3; 4; 5; 6; 7].

(* ---- what the writer writes ---- *)

(* the tokens of a sentence as words and multiword tokens: a multiword token takes all the
   directly following tokens with the same span *)
Inductive grouped_tokens : list token -> list (group token) -> Prop :=
| gt_nil : grouped_tokens [] []
| gt_word t ts gs : ~ multiword t -> grouped_tokens ts gs -> grouped_tokens (t :: ts) (GWord t :: gs)
| gt_multi t us ts gs :
    multiword t -> Forall (same_span t) us -> (forall x, hd_error ts = Some x -> ~ same_span t x) ->
    grouped_tokens ts gs -> grouped_tokens (t :: us ++ ts) (GRange t (t :: us) :: gs).

(* the column is written; DEPREL implies HEAD *)
Definition chosen (cols : list Z) (c : Z) : bool :=
  existsb (Z.eqb c) cols || (c =? 6) && existsb (Z.eqb 7) cols.
Definition shown (o : option str) : str := match o with Some s => s | None => of_string "_" end.
Definition spacing (b : bool) : str := if b then of_string "_" else of_string "SpaceAfter=No".

(* FEATS: the entries key=value in code point order, joined by | *)
Definition feats_cell (fs : dict str) : str :=
  match fs with
  | [] => of_string "_"
  | _ => join [124%N] (isort str_leb (map (fun kv => fst kv ++ 61%N :: snd kv) fs))
  end.

(* the row of the token with word id i; words without a head get the previous word (0 for the first) *)
Definition expected_row (cols : list Z) (text : str) (i : Z) (t : token) (misc : str) : list str :=
  let c k v := if chosen cols k then shown v else of_string "_" in
  [print_Z i; text_of text t; c 2 (tlemma t);
   c 3 (match tpos t with Some p => upos p | None => None end);
   c 4 (match tpos t with Some p => xpos p | None => None end);
   (if chosen cols 5 then match tpos t with Some p => feats_cell (feats p) | None => of_string "_" end else of_string "_");
   (if chosen cols 6 then match thsent t with Some h => print_Z (h + 1) | None => print_Z (i - 1) end else print_Z (i - 1));
   (if chosen cols 6 then match thsent t with Some h => c 7 (tdeprel t) | None => of_string "_" end else of_string "_");
   of_string "_"; misc].

Definition expected_range (text : str) (i : Z) (t : token) (n : Z) : list str :=
  [print_Z i ++ 45%N :: print_Z (i + n - 1); doc_text_of text t;
   of_string "_"; of_string "_"; of_string "_"; of_string "_"; of_string "_"; of_string "_"; of_string "_";
   spacing (space_after text t)].

Fixpoint word_rows (cols : list Z) (text : str) (i : Z) (ws : list token) : list (list str) :=
  match ws with
  | [] => []
  | w :: ws' => expected_row cols text i w (of_string "_") :: word_rows cols text (i + 1) ws'
  end.

(* all rows of a sentence, word ids counting from i *)
Fixpoint expected_rows (cols : list Z) (text : str) (i : Z) (gs : list (group token)) : list (list str) :=
  match gs with
  | [] => []
  | GWord t :: gs' => expected_row cols text i t (spacing (space_after text t)) :: expected_rows cols text (i + 1) gs'
  | GRange t ws :: gs' =>
      expected_range text i t (zlen ws) :: word_rows cols text i ws ++ expected_rows cols text (i + zlen ws) gs'
  end.

Definition rendered (rows : list (list str)) : str :=
  concat (map (fun cells => join [chTAB] cells ++ [chNL]) rows).

(* the text made of the given lines: rows of cells separated by tabs, None for a blank line *)
Definition written_lines (rows : list (option (list str))) : str :=
  concat (map (fun r => (match r with Some cells => join [chTAB] cells | None => [] end) ++ [chNL]) rows).

(* a row that tells nothing about the columns that were not selected: "_" in each of them; a HEAD that was not
   selected is "_" (multiword token) or the number of the previous word *)
Definition blanked (cols : list Z) (cells : list str) : Prop :=
  length cells = 10%nat /\
  (forall c, 2 <= c <= 7 -> c <> 6 -> ~ wants cols c -> cell cells (Z.to_nat c) = of_string "_") /\
  (~ wants cols 6 -> cell cells 6 = of_string "_" \/
                     exists i, cell cells 0 = print_Z i /\ cell cells 6 = print_Z (i - 1)).

(* a sentence ends with a multiword token *)
Definition ends_multiword (gs : list (group token)) : Prop :=
  exists gs' t ws, gs = gs' ++ [GRange t ws].

(* the writer can write the tags of every token *)
Definition tags_writable (cols : list Z) (ts : list token) : Prop :=
  chosen cols 5 = true \/ Forall (fun t => tpos t = None) ts.

(* the documents that the writer writes as expected: tags writable and no sentence but the last of
   each document ends with a multiword token *)
Definition sentence_groups (d : document) (gss : list (list (group token))) : Prop :=
  Forall2 (fun s gs => grouped_tokens (tokens_of (dtokens d) s) gs) (dsents d) gss.
Definition no_pending (gss : list (list (group token))) : Prop :=
  Forall (fun gs => ~ ends_multiword gs) (removelast gss).

(* ---- documents that survive being written and read ---- *)

Definition members (g : group token) : list token := match g with GWord t => [t] | GRange _ ws => ws end.

(* no tab and no line break *)
Definition clean (s : str) : Prop := ~ In chTAB s /\ ~ In chNL s.
Definition clean_opt (o : option str) : Prop := forall s, o = Some s -> clean s.
Definition clean_entry (s : str) : Prop := clean s /\ ~ In 61%N s /\ ~ In 124%N s.
Record token_clean (text : str) (t : token) : Prop := {
  tc_text : clean (text_of text t);
  tc_surface : clean (doc_text_of text t);
  tc_lemma : clean_opt (tlemma t);
  tc_deprel : clean_opt (tdeprel t);
  tc_tags : forall p, tpos t = Some p ->
              clean_opt (upos p) /\ clean_opt (xpos p) /\
              Forall (fun kv => clean_entry (fst kv) /\ clean_entry (snd kv)) (feats p)
}.

(* no field is an underscore, which stands for an absent value *)
Record token_told (t : token) : Prop := {
  tt_lemma : tlemma t <> Some (of_string "_");
  tt_deprel : tdeprel t <> Some (of_string "_");
  tt_tags : exists p, tpos t = Some p /\ upos p <> Some (of_string "_") /\ xpos p <> Some (of_string "_") /\
              NoDup (map fst (feats p))
}.

(* [spaced off gs s]: the text s from offset off on consists of the surface forms of the groups,
   each followed by nothing or one space; the last is followed by a space; a form that follows
   another one directly does not begin with whitespace *)
Inductive spaced : Z -> list (group token) -> str -> Prop :=
| sd_end off : spaced off [] []
| sd_group off g gs form (gap : bool) rest :
    form <> [] ->
    Forall (fun t => tstart t = off /\ tend t = off + zlen form) (members g) ->
    match g with
    | GWord t => trepl t = None /\ tsub t = 0
    | GRange t ws => map tsub ws = map Z.of_nat (seq 0 (length ws)) /\ Forall multiword ws
    end ->
    (gap = false -> exists c rest', rest = c :: rest' /\ isspace_char c = false) ->
    spaced (off + zlen form + (if gap then 1 else 0)) gs rest ->
    spaced off (g :: gs) (form ++ (if gap then [chSP] else []) ++ rest).

(* reader-normal documents *)
Record reader_normal (d : document) : Prop := {
  rn_some : dsents d <> [];
  rn_spaced : exists gss, sentence_groups d gss /\ spaced 0 (concat gss) (dtext d) /\ no_pending gss;
  rn_clean : Forall (token_clean (dtext d)) (dtokens d);
  rn_told : Forall token_told (dtokens d);
  rn_extras : Forall (fun t => textras t = []) (dtokens d);
  rn_heads : forall s, In s (dsents d) ->
    dependency_tree (map thsent (tokens_of (dtokens d) s)) /\
    Forall (fun t => exists h, thsent t = Some h /\ -1 <= h /\
                     thdoc t = Some (if h =? -1 then -1 else h + sstart s)) (tokens_of (dtokens d) s)
}.

(* the same token, the features of the tags possibly listed in another order *)
Definition same_token (t t' : token) : Prop :=
  tstart t = tstart t' /\ tend t = tend t' /\ tlemma t = tlemma t' /\ tdeprel t = tdeprel t' /\
  tsub t = tsub t' /\ trepl t = trepl t' /\ thdoc t = thdoc t' /\ thsent t = thsent t' /\ textras t = textras t' /\
  get_rel pos_same (tpos t) (tpos t').
Definition same_document (d d' : document) : Prop :=
  dtext d = dtext d' /\ dsents d = dsents d' /\ Forall2 same_token (dtokens d) (dtokens d').
