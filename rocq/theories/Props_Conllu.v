(* Properties C18-C24: reading and writing CoNLL-U. *)
From Coq Require Import String Ascii ZArith NArith Bool Lia List.
From Verif Require Import Base BaseFacts Model_Datamodel Model_Conllu Spec_Datamodel Spec_Conllu
  Props_Datamodel Proofs_Conllu4 Proofs_Conllu5 Proofs_Conllu6 Proofs_Conllu9 Proofs_Conllu10.
Import ListNotations.
Open Scope Z_scope.

(* ---- material for the concrete cases ---- *)

Definition ex_line (cells : list string) : str := join [chTAB] (map of_string cells) ++ [chNL].
Definition ex_word (id form head misc : string) : str :=
  ex_line [id; form; "l"; "N"; "_"; "A=1"; head; "d"; "_"; misc]%string.
Definition ex_range (id form misc : string) : str := ex_line [id; form; "_"; "_"; "_"; "_"; "_"; "_"; "_"; misc]%string.
Definition ex_blank : str := [chNL].

(* two sentences; the first has a multiword token in the middle and a comment *)
Definition ex_input : str :=
  ex_line ["# text"]%string ++ ex_word "1" "Ya" "0" "_" ++ ex_range "2-3" "vam" "SpaceAfter=No" ++
  ex_word "2" "v" "1" "_" ++ ex_word "3" "am" "2" "_" ++ ex_word "4" "." "1" "_" ++ ex_blank ++
  ex_word "1" "Da" "2" "_" ++ ex_word "1.1" "x" "_" "_" ++ ex_word "2" "net" "0" "_" ++ ex_blank.

Definition ex_texts (r : result (gen document)) : result (list str * option exn) :=
  match r with Ok (ds, e) => Ok (map dtext ds, e) | Err e => Err e end.
Definition ex_spans (r : result (gen document)) : list (list (Z * Z * Z)) :=
  match r with Ok (ds, _) => map (fun d => map (fun t => (tstart t, tend t, tsub t)) (dtokens d)) ds | Err _ => [] end.

(* ------------------------------------------------------------------ *)

(* [reads cols ls d]: d is exactly what the lines ls say (Spec_Conllu).  Every yielded document reads
   consecutive lines of the file; when the reader ends normally only comments and empty nodes are left. *)
Theorem C18_reader_faithful : forall limit cols text ds e, read_str limit cols text = Ok (ds, e) ->
  exists lss rest, file_lines text = concat (concat lss) ++ rest /\ Forall2 (reads cols) lss ds /\
                   (e = None -> Forall ignorable rest).
Proof. exact reader_faithful. Qed.
Print Assumptions C18_reader_faithful.

(* the slice at a token's span is the FORM of the surface line, its text the FORM of its own line *)
Theorem C18_slices : forall cols ls d, reads cols ls d ->
  exists gss, Forall2 (fun lines gs => exists rows, sentence_lines lines rows /\ grouped row_id rows gs) ls gss /\
    Forall2 (fun (w : list str * list str * bool) t =>
               let '(surf, word, in_range) := w in
               py_slice (dtext d) (tstart t) (tend t) = cell surf 1 /\
               trepl t = (if in_range then Some (cell word 1) else None) /\
               text_of (dtext d) t = cell word 1)
            (flat_map words_of (concat gss)) (dtokens d).
Proof. exact reads_slices. Qed.
Print Assumptions C18_slices.

Example C18_case :
  ex_texts (read_str 10 default_columns ex_input) = Ok ([of_string "Ya vam. Da net "], None) /\
  ex_spans (read_str 10 default_columns ex_input) =
    [[(0, 2, 0); (3, 6, 0); (3, 6, 1); (6, 7, 0); (8, 10, 0); (11, 14, 0)]].
Proof. split; vm_compute; reflexivity. Qed.

(* ------------------------------------------------------------------ *)

Theorem C19_chunks : forall limit cols text ds e, read_str limit cols text = Ok (ds, e) ->
  Forall (fun d => zlen (dsents d) = limit) (removelast ds) /\
  Forall (fun d => 1 <= zlen (dsents d) <= limit /\ dtokens d <> []) ds.
Proof. exact reader_chunks. Qed.
Print Assumptions C19_chunks.

Theorem C19_limit_only_regroups : forall k1 k2 cols text ds1, heads_nonnegative text -> 0 < k2 ->
  read_str k1 cols text = Ok (ds1, None) ->
  exists ds2, read_str k2 cols text = Ok (ds2, None) /\
    concat (map document_views ds1) = concat (map document_views ds2).
Proof. exact reader_regroup. Qed.
Print Assumptions C19_limit_only_regroups.

Example C19_case :
  ex_texts (read_str 1 default_columns ex_input) = Ok ([of_string "Ya vam. "; of_string "Da net "], None) /\
  ex_spans (read_str 1 default_columns ex_input) = [[(0, 2, 0); (3, 6, 0); (3, 6, 1); (6, 7, 0)]; [(0, 2, 0); (3, 6, 0)]].
Proof. split; vm_compute; reflexivity. Qed.

(* well-formedness of the heads is needed: HEAD -3 in the second sentence (two tokens before it) is
   sentence index -4, document index -2 with limit 2, and index -4 with limit 1 *)
Definition ex_negative : str :=
  ex_word "1" "a" "0" "_" ++ ex_word "2" "b" "1" "_" ++ ex_word "3" "c" "1" "_" ++ ex_blank ++
  ex_word "1" "d" "-3" "_" ++ ex_blank.
Theorem C19_heads_hypothesis_needed : exists text ds1 ds2 e, ~ heads_nonnegative text /\
  read_str 2 default_columns text = Ok (ds1, None) /\ read_str 1 default_columns text = Ok (ds2, Some e).
Proof.
  exists ex_negative. eexists. eexists. eexists. split; [|split; vm_compute; reflexivity].
  intros H. specialize (H (ex_word "1" "d" "-3" "_") (-3)).
  assert (X : 0 <= -3) by (apply H; [vm_compute; auto 20|vm_compute; reflexivity]). lia.
Qed.
Print Assumptions C19_heads_hypothesis_needed.

(* ------------------------------------------------------------------ *)

(* one document read back as one document *)
Theorem C20_round_trip : forall cols d k,
  Forall (wants cols) [2; 3; 4; 5; 7] -> constructed d -> reader_normal d -> zlen (dsents d) <= k ->
  exists out d', write_str cols [d] = Ok out /\ read_str k cols out = Ok ([d'], None) /\ same_document d d'.
Proof. intros cols d k F C. exact (roundtrip_single cols d k F (constructed_inv d C)). Qed.
Print Assumptions C20_round_trip.

(* any number of documents, read with any limit: the same sentences, in the limit's grouping *)
Theorem C20_round_trip_many : forall cols ds k,
  Forall (wants cols) [2; 3; 4; 5; 7] -> Forall constructed ds -> Forall reader_normal ds -> 0 < k ->
  exists out ds' ds'', write_str cols ds = Ok out /\ read_str k cols out = Ok (ds', None) /\
    Forall2 same_document ds ds'' /\ concat (map document_views ds') = concat (map document_views ds'') /\
    concat (map dtext ds') = concat (map dtext ds).
Proof.
  intros cols ds k F C. apply (roundtrip_many cols ds k F). eapply Forall_impl; [|exact C]. exact constructed_inv.
Qed.
Print Assumptions C20_round_trip_many.

(* reader-normal documents are those the reader yields, the stated defects aside: no sentence but the last
   ends with a multiword token, the last word is followed by a space, no FORM begins with whitespace, every
   word has a head *)
Theorem C20_reader_documents : forall k cols text ds e d, Forall (wants cols) [2; 3; 4; 5; 7] ->
  read_str k cols text = Ok (ds, e) -> In d ds ->
  (forall gss, sentence_groups d gss -> no_pending gss) ->
  (forall t, In t (dtokens d) -> tend t < zlen (dtext d)) ->
  (forall t c s, In t (dtokens d) -> doc_text_of (dtext d) t = c :: s -> isspace_char c = false) ->
  (forall t, In t (dtokens d) -> exists h, thsent t = Some h /\ -1 <= h) ->
  constructed d /\ reader_normal d.
Proof.
  intros k cols text ds e d F R I N E S0 H. split; [exact (reader_constructed _ _ _ _ _ _ R I)|].
  exact (proj2 (reader_yields_normal k cols text ds e d F R I N E S0 H)).
Qed.
Print Assumptions C20_reader_documents.

Definition ex_document : document := Eval vm_compute in
  match read_str 10 default_columns ex_input with Ok ([d], None) => d | _ => mkDoc [] [] [] end.
Definition ex_groups : list (list (group token)) := Eval vm_compute in
  map (fun s => regroup [] (tokens_of (dtokens ex_document) s)) (dsents ex_document).
Lemma ex_groups_ok : sentence_groups ex_document ex_groups.
Proof.
  change ex_groups with (map (fun s => regroup [] (tokens_of (dtokens ex_document) s)) (dsents ex_document)).
  unfold sentence_groups. induction (dsents ex_document); constructor; auto. apply regroup_grouped.
Qed.
Lemma ex_no_pending : forall gss, sentence_groups ex_document gss -> no_pending gss.
Proof.
  intros gss G. rewrite (sentence_groups_fun _ _ _ G ex_groups_ok). apply Forall_cons; [|constructor].
  intros (gs & t & ws & E). apply (f_equal (fun l => last l (GRange t []))) in E. rewrite last_last in E. discriminate E.
Qed.
Ltac each_token :=
  match goal with H : In ?t (dtokens ex_document) |- _ =>
    unfold ex_document in H; cbn [dtokens In] in H; repeat (destruct H as [<-|H]; [|]); [..|destruct H]
  end.
Example C20_case_normal : constructed ex_document /\ reader_normal ex_document.
Proof.
  apply (C20_reader_documents 10 default_columns ex_input [ex_document] None).
  - repeat (apply Forall_cons; [left; simpl; auto 10|]). constructor.
  - vm_compute. reflexivity.
  - left. reflexivity.
  - exact ex_no_pending.
  - intros t H. each_token; vm_compute; reflexivity.
  - intros t c s H E. each_token; vm_compute in E; injection E as <- <-; reflexivity.
  - intros t H. each_token; eexists; (split; [reflexivity|lia]).
Qed.
Example C20_case : write_str default_columns [ex_document] = Ok
  (ex_word "1" "Ya" "0" "_" ++ ex_range "2-3" "vam" "SpaceAfter=No" ++
   ex_word "2" "v" "1" "_" ++ ex_word "3" "am" "2" "_" ++ ex_word "4" "." "1" "_" ++ ex_blank ++
   ex_word "1" "Da" "2" "_" ++ ex_word "2" "net" "0" "_" ++ ex_blank).
Proof. vm_compute. reflexivity. Qed.

(* ------------------------------------------------------------------ *)

(* Full statement: for all constructed documents, with the groups of each sentence,
   write_str cols ds is the rows of the groups with a blank line after each sentence. *)
Theorem C21_written_once_refuted : exists d gss out,
  constructed d /\ sentence_groups d gss /\ write_str default_columns [d] = Ok out /\
  out <> concat (map (fun gs => rendered (expected_rows default_columns (dtext d) 1 gs) ++ [chNL]) gss).
Proof.
  (* two sentences, the first consists of one multiword token: the range line is written twice *)
  set (ts := [mkToken 0 2 None None None 0 (Some (of_string "a")) None None [];
              mkToken 0 2 None None None 1 (Some (of_string "b")) None None [];
              mkToken 3 4 None None None 0 None None None []]).
  set (d := mkDoc (of_string "ab c") ts [mkSent 0 2; mkSent 2 3]).
  exists d, (map (fun s => regroup [] (tokens_of (dtokens d) s)) (dsents d)). eexists.
  split; [|split; [|split]].
  - exists (of_string "ab c"), ts, (Some [mkSent 0 2; mkSent 2 3]), true. split; [|split; [|vm_compute; reflexivity]].
    + unfold ts. repeat (apply Forall_cons; [unfold token_wf; simpl; repeat split; try lia; try discriminate; auto|]). constructor.
    + repeat constructor; simpl; lia.
  - unfold sentence_groups. induction (dsents d); constructor; auto. apply regroup_grouped.
  - vm_compute. reflexivity.
  - vm_compute. discriminate.
Qed.
Print Assumptions C21_written_once_refuted.

(* every document without a multiword token at the end of a non-final sentence *)
Theorem C21_written_once_partial : forall cols ds gsss,
  Forall constructed ds -> Forall (fun d => tags_writable cols (dtokens d)) ds ->
  Forall2 sentence_groups ds gsss -> Forall no_pending gsss ->
  write_str cols ds =
  Ok (concat (map (fun p => concat (map (fun gs => rendered (expected_rows cols (dtext (fst p)) 1 gs) ++ [chNL]) (snd p)))
                  (combine ds gsss))).
Proof.
  intros cols ds gsss C. apply writer_output. eapply Forall_impl; [|exact C]. exact constructed_inv.
Qed.
Print Assumptions C21_written_once_partial.

(* the groups of a document exist and are unique; they contain every token once, in order *)
Theorem C21_groups : forall d, exists gss, sentence_groups d gss /\
  (forall gss', sentence_groups d gss' -> gss' = gss) /\
  Forall2 (fun s gs => flat_map members gs = tokens_of (dtokens d) s) (dsents d) gss.
Proof. exact groups_unique. Qed.
Print Assumptions C21_groups.

Example C21_case : map (map (fun g => match g with GWord _ => 1 | GRange _ ws => zlen ws end)) ex_groups = [[1; 2; 1]; [1; 1]].
Proof. vm_compute. reflexivity. Qed.

(* ------------------------------------------------------------------ *)

(* Full statement: for every text, limit and columns, if d is yielded by the reader, writing d and reading it
   again yields a document with the same text. *)
Definition ex_final_no : str := ex_word "1" "a" "0" "SpaceAfter=No" ++ ex_blank.
Definition ex_leading_space : str := ex_word "1" "a" "0" "SpaceAfter=No" ++ ex_word "2" " b" "1" "_" ++ ex_blank.
Theorem C22_spacing_refuted : exists text d out d',
  read_str 10 default_columns text = Ok ([d], None) /\ write_str default_columns [d] = Ok out /\
  read_str 10 default_columns out = Ok ([d'], None) /\ dtext d' <> dtext d.
Proof.
  exists ex_final_no. do 3 eexists. split; [vm_compute; reflexivity|]. split; [vm_compute; reflexivity|].
  split; [vm_compute; reflexivity|vm_compute; discriminate].
Qed.
Print Assumptions C22_spacing_refuted.

(* a second cause: a FORM that begins with a space *)
Theorem C22_leading_space_refuted : exists text d out d',
  read_str 10 default_columns text = Ok ([d], None) /\ write_str default_columns [d] = Ok out /\
  read_str 10 default_columns out = Ok ([d'], None) /\ dtext d' <> dtext d /\
  (forall t, In t (dtokens d) -> tend t < zlen (dtext d)).
Proof.
  exists ex_leading_space. do 3 eexists. split; [vm_compute; reflexivity|]. split; [vm_compute; reflexivity|].
  split; [vm_compute; reflexivity|]. split; [vm_compute; discriminate|]. intros t [<-|[<-|[]]]; reflexivity.
Qed.
Print Assumptions C22_leading_space_refuted.

(* The text survives, whatever columns are written and read, when the last word is followed by a space, no FORM
   begins with whitespace, and the document can be written at all (C21, C23). *)
Theorem C22_spacing_partial : forall k cr text ds e d cw cr' k',
  read_str k cr text = Ok (ds, e) -> In d ds ->
  tags_writable cw (dtokens d) ->
  (forall gss, sentence_groups d gss -> no_pending gss) ->
  (forall t, In t (dtokens d) -> tend t < zlen (dtext d)) ->
  (forall t c s, In t (dtokens d) -> doc_text_of (dtext d) t = c :: s -> isspace_char c = false) ->
  zlen (dsents d) <= k' ->
  exists out d', write_str cw [d] = Ok out /\ read_str k' cr' out = Ok ([d'], None) /\
    dtext d' = dtext d /\ dsents d' = dsents d.
Proof. exact spacing_cycle. Qed.
Print Assumptions C22_spacing_partial.

(* writing without HEAD and reading it still gives a valid document with the same text *)
Example C22_case : exists out, write_str [5] [ex_document] = Ok out /\
  ex_texts (read_str 10 [7] out) = Ok ([of_string "Ya vam. Da net "], None).
Proof. eexists. split; vm_compute; reflexivity. Qed.

(* ------------------------------------------------------------------ *)

(* the reader half, in full: what a restricted reader yields is what the full reader yields without the other
   annotations (it may go on where the full reader stops with an error) *)
Theorem C23_reader_columns : forall limit cols text ds' e' ds e,
  read_str limit [2; 3; 4; 5; 6; 7] text = Ok (ds', e') -> read_str limit cols text = Ok (ds, e) ->
  exists ds1 ds2, ds = ds1 ++ ds2 /\ Forall2 (restricted_document cols) ds1 ds' /\ (e' = None -> ds2 = [] /\ e = None).
Proof. exact reader_columns. Qed.
Print Assumptions C23_reader_columns.

Definition ex_heads (r : result (gen document)) : list (list (option Z * option str)) :=
  match r with Ok (ds, _) => map (fun d => map (fun t => (thsent t, tlemma t)) (dtokens d)) ds | Err _ => [] end.
Example C23_case_reader :
  ex_heads (read_str 10 [2] (ex_word "1" "a" "0" "_" ++ ex_blank)) = [[(None, Some (of_string "l"))]] /\
  ex_heads (read_str 10 [7] (ex_word "1" "a" "0" "_" ++ ex_blank)) = [[(Some (-1), None)]].
Proof. split; vm_compute; reflexivity. Qed.

(* Full statement of the writer half: write_str never fails because of the columns and every cell of a column
   not selected is "_". *)
Theorem C23_writer_fails_refuted : exists d, constructed d /\ write_str [2] [d] = Err EType /\
  exists out, write_str default_columns [d] = Ok out.
Proof.
  exists ex_doc. split; [exact ex_constructed|]. split; [vm_compute; reflexivity|]. eexists. vm_compute. reflexivity.
Qed.
Print Assumptions C23_writer_fails_refuted.

Theorem C23_writer_head_refuted : exists d out, constructed d /\ write_str [5] [d] = Ok out /\
  map (fun l => cell (cells_of l) 6) (file_lines out) <>
  map (fun l => if cells_of l then [] else of_string "_") (file_lines out) /\
  In (of_string "3") (map (fun l => cell (cells_of l) 6) (file_lines out)).
Proof.
  exists ex_doc. eexists. split; [exact ex_constructed|]. split; [vm_compute; reflexivity|].
  split; [vm_compute; discriminate|vm_compute; auto 20].
Qed.
Print Assumptions C23_writer_head_refuted.

(* exactly when writing fails, and with what *)
Theorem C23_writer_partial : forall cols d, constructed d ->
  (exists out, write_str cols [d] = Ok out /\ tags_writable cols (dtokens d)) \/
  (write_str cols [d] = Err EType /\ ~ tags_writable cols (dtokens d)).
Proof. intros cols d C. exact (write_outcome cols d (constructed_inv d C)). Qed.
Print Assumptions C23_writer_partial.

(* whatever is written, for any documents: no row tells anything about a column that was not selected, except that
   an unselected HEAD counts the previous word *)
Theorem C23_writer_output_partial : forall cols ds out, write_str cols ds = Ok out ->
  exists rows, out = written_lines rows /\
    Forall (fun r => match r with Some cells => blanked cols cells | None => True end) rows.
Proof. exact writer_blanked. Qed.
Print Assumptions C23_writer_output_partial.

Example C23_case_output : exists out, write_str [3; 5] [ex_doc] = Ok out /\
  Exists (fun l => cell (cells_of l) 2 = of_string "_" /\ cell (cells_of l) 3 <> of_string "_") (file_lines out).
Proof.
  eexists. split; [vm_compute; reflexivity|]. vm_compute.
  repeat (first [apply Exists_cons_hd; split; [reflexivity|discriminate] | apply Exists_cons_tl]).
Qed.

(* the rows that C21_written_once_partial says are written have "_" in every column not selected but HEAD, which
   counts the previous word *)
Theorem C23_writer_cells_partial : forall cols text i t misc,
  (forall c, 2 <= c <= 7 -> c <> 6 -> ~ wants cols c -> cell (expected_row cols text i t misc) (Z.to_nat c) = of_string "_") /\
  (~ wants cols 6 -> cell (expected_row cols text i t misc) 6 = print_Z (i - 1)) /\
  (wants cols 2 -> tlemma t <> None -> Some (cell (expected_row cols text i t misc) 2) = tlemma t) /\
  (forall p, tpos t = Some p -> wants cols 3 -> upos p <> None -> Some (cell (expected_row cols text i t misc) 3) = upos p) /\
  (forall p, tpos t = Some p -> wants cols 4 -> xpos p <> None -> Some (cell (expected_row cols text i t misc) 4) = xpos p) /\
  (forall h, wants cols 6 -> thsent t = Some h -> cell (expected_row cols text i t misc) 6 = print_Z (h + 1)) /\
  (forall h, wants cols 7 -> thsent t = Some h -> tdeprel t <> None -> Some (cell (expected_row cols text i t misc) 7) = tdeprel t).
Proof. exact expected_cells. Qed.
Print Assumptions C23_writer_cells_partial.

(* ------------------------------------------------------------------ *)

(* Full statement: inserting a comment line or an empty-node line anywhere between two lines changes nothing. *)
Theorem C24_empty_node_refuted : exists s1 l s2,
  read_str 10 default_columns (s1 ++ l ++ s2) <> read_str 10 default_columns (s1 ++ s2) /\
  exists ds, read_str 10 default_columns (s1 ++ s2) = Ok (ds, None).
Proof.
  (* inside a range the empty node is taken for one of its words *)
  exists (ex_range "1-2" "ab" "_" ++ ex_word "1" "a" "0" "_"), (ex_word "1.1" "x" "1" "_"), (ex_word "2" "b" "1" "_" ++ ex_blank).
  split; [vm_compute; discriminate|eexists; vm_compute; reflexivity].
Qed.
Print Assumptions C24_empty_node_refuted.

(* comments: in full *)
Theorem C24_comments : forall limit cols s1 c s2, s1 = [] \/ (exists s0, s1 = s0 ++ [chNL]) -> ~ In chNL c ->
  read_str limit cols (s1 ++ (35%N :: c) ++ [chNL] ++ s2) = read_str limit cols (s1 ++ s2).
Proof. exact comment_ignored. Qed.
Print Assumptions C24_comments.

(* empty nodes: where the rows of the sentence so far are complete words and ranges *)
Theorem C24_empty_node_partial : forall limit cols s1 l s2 i ls0 ls1 rows gs,
  s1 = [] \/ (exists s0, s1 = s0 ++ [chNL]) -> ~ In chNL l ->
  row_line (l ++ [chNL]) -> well_formed_row (cells_of (l ++ [chNL])) ->
  row_id (cells_of (l ++ [chNL])) = Some i -> In 46%N i ->
  file_lines s1 = ls0 ++ ls1 -> (ls0 = [] \/ exists ls b, ls0 = ls ++ [b] /\ blank_line b) ->
  sentence_prefix ls1 rows -> grouped row_id rows gs ->
  read_str limit cols (s1 ++ l ++ [chNL] ++ s2) = read_str limit cols (s1 ++ s2).
Proof. exact empty_node_ignored. Qed.
Print Assumptions C24_empty_node_partial.

Example C24_case :
  let s1 := ex_word "1" "a" "0" "_" in let s2 := ex_word "2" "b" "1" "_" ++ ex_blank in
  read_str 10 default_columns (s1 ++ ex_word "1.1" "x" "1" "_" ++ s2) = read_str 10 default_columns (s1 ++ s2) /\
  ex_texts (read_str 10 default_columns (s1 ++ s2)) = Ok ([of_string "a b "], None).
Proof. split; vm_compute; reflexivity. Qed.
