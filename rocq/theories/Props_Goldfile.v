(* Properties C80 and C123: gold data in a file and the documents read from it. *)
From Coq Require Import String Ascii ZArith NArith QArith Bool Sorted Lia List.
From Verif Require Import Base BaseFacts Model_Datamodel Model_Conllu Spec_Datamodel Spec_Conllu Model_UDEval Spec_UDEval
  Model_Processors Spec_Processors Model_Tester Spec_Tester Props_Datamodel Props_Conllu Props_UDEval Props_Tester
  Proofs_UDEval4 Spec_Goldfile Proofs_Goldfile6.
Import ListNotations.
Open Scope Z_scope.

(* ---- material for the concrete cases ---- *)

(* comments, a range, line ends with carriage returns, features in an order that the writer does not keep *)
Definition ex_crlf (cells : list string) : str := join [chTAB] (map of_string cells) ++ [chCR; chNL].
Definition ex_treebank : str :=
  of_string "# sent_id = 1" ++ [chCR; chNL] ++
  ex_crlf ["1"; "one"; "one"; "NUM"; "_"; "Number=Sing|NumForm=Word"; "0"; "root"; "_"; "_"]%string ++
  ex_crlf ["2-3"; "vam"; "_"; "_"; "_"; "_"; "_"; "_"; "_"; "SpaceAfter=No"]%string ++
  ex_crlf ["2"; "v"; "v"; "ADP"; "IN"; "_"; "3"; "case"; "_"; "_"]%string ++
  ex_crlf ["3"; "am"; "am"; "PRON"; "_"; "Case=Loc"; "1"; "nmod:x"; "_"; "_"]%string ++ [chCR; chNL] ++
  of_string "# sent_id = 2" ++ [chCR; chNL] ++
  ex_crlf ["1"; "Da"; "da"; "PART"; "_"; "_"; "2"; "discourse"; "_"; "Gloss=yes"]%string ++
  ex_crlf ["2"; "net"; "net"; "PART"; "_"; "Polarity=Neg"; "0"; "root"; "_"; "_"]%string ++ [chCR; chNL].
(* the same with the features in code point order *)
Definition ex_treebank2 : str :=
  of_string "# sent_id = 1" ++ [chNL] ++
  ex_line ["1"; "one"; "one"; "NUM"; "_"; "NumForm=Word|Number=Sing"; "0"; "root"; "_"; "_"]%string ++ ex_blank ++
  ex_line ["1"; "net"; "net"; "PART"; "_"; "Polarity=Neg"; "0"; "root"; "_"; "Gloss=no"]%string ++ ex_blank.

Definition ex_documents_of (contents : str) : list document :=
  match read_file 1 default_columns contents with Ok (ds, None) => ds | _ => [] end.
Definition ex_treebank_docs : list document := Eval vm_compute in ex_documents_of ex_treebank.
Definition ex_treebank2_docs : list document := Eval vm_compute in ex_documents_of ex_treebank2.

Lemma ten_cells_row l c : ten_cells l c -> c = split chTAB (rstrip_crlf l) /\ length c = 10%nat.
Proof. intros (line & H & _ & -> & L). apply line_text_iff in H. subst line. auto. Qed.
Ltac each_row H T :=
  vm_compute in H; repeat (destruct H as [<-|H]); [..|destruct H];
  apply ten_cells_row in T as [-> T]; vm_compute in T; try discriminate T; clear T.
Ltac row_check :=
  match goal with
  | |- ud_heads_nonneg _ => intros l c h H T E; each_row H T; vm_compute in E; try discriminate E; injection E as <-; lia
  | |- rows_uncommented _ => intros l c H T; each_row H T; intros (r & X); apply line_text_iff in X; vm_compute in X; discriminate X
  end.

Lemma ex_treebank_fine :
  read_file 1 default_columns ex_treebank = Ok (ex_treebank_docs, None) /\ length ex_treebank_docs = 2%nat /\
  (exists u, load_conllu_file ex_treebank = Ok u) /\
  ud_heads_nonneg (universal_newlines ex_treebank) /\ rows_uncommented (universal_newlines ex_treebank).
Proof.
  split; [vm_compute; reflexivity|]. split; [reflexivity|]. split; [eexists; vm_compute; reflexivity|]. split; row_check.
Qed.
Lemma ex_treebank2_fine :
  read_file 1 default_columns ex_treebank2 = Ok (ex_treebank2_docs, None) /\ length ex_treebank2_docs = 2%nat /\
  (exists u, load_conllu_file ex_treebank2 = Ok u) /\
  ud_heads_nonneg (universal_newlines ex_treebank2) /\ rows_uncommented (universal_newlines ex_treebank2) /\
  all_feats_ordered (universal_newlines ex_treebank2).
Proof.
  split; [vm_compute; reflexivity|]. split; [reflexivity|]. split; [eexists; vm_compute; reflexivity|]. split; [row_check|]. split; [row_check|].
  intros l c H T. each_row H T; right;
  (match goal with |- Sorted _ ?x /\ _ => let y := eval vm_compute in x in change x with y end); cbn [map];
  (split; [repeat constructor|]; split; [|repeat constructor]); repeat constructor; cbn; intuition discriminate.
Qed.

(* ------------------------------------------------------------------ *)

(* Full statement of C80, see Props_Tester.v: for every gold file, if the tagger's documents have the annotations that
   the file gives, every metric that FileTaggerTester reports is 1.  Missing here: the two metrics that look at FEATS,
   unless all FEATS cells are in code point order; files with ten-column lines that begin with #; files with negative
   HEADs.  The file need not be as the writer writes it: comments, MISC, DEPS, line ends and spaces are free. *)
Theorem C80_any_file_partial : forall lower save contents gold u tag pred,
  read_file 1 default_columns contents = Ok (gold, None) -> load_conllu_file contents = Ok u ->
  ud_heads_nonneg (universal_newlines contents) -> rows_uncommented (universal_newlines contents) ->
  tag (prepare_test_data (gold, None)) = (pred, None) ->
  Forall built pred -> Forall distinct_features pred -> Forall2 same_segmentation gold pred ->
  Forall2 (fun d d' => Forall2 same_annotation (dtokens d) (dtokens d')) gold pred ->
  exists f, file_test lower save contents tag = Ok f /\
    forall m, (looks_at_feats m -> all_feats_ordered (universal_newlines contents)) ->
      (f m = None <-> m = MWeightedLAS) /\
      forall sc, f m = Some sc -> (exists it, In it (places gold) /\ counted m it = true) -> perfect sc.
Proof. exact goldfile_perfect. Qed.
Print Assumptions C80_any_file_partial.

Example C80_any_file_case :
  ex_scores (file_test ascii_lower true ex_treebank (fun _ => (ex_treebank_docs, None))) [MSentences; MWords; MUPOS; MFeats; MLAS] =
    [Some (1%Q, 1%Q, None); Some (1%Q, 1%Q, None); Some (1%Q, 1%Q, Some 1%Q); Some (4 # 5, 4 # 5, Some (4 # 5))%Q; Some (1%Q, 1%Q, Some 1%Q)] /\
  ex_scores (file_test ascii_lower true ex_treebank2 (fun _ => (ex_treebank2_docs, None))) [MFeats; MAllTags] =
    [Some (1%Q, 1%Q, Some 1%Q); Some (1%Q, 1%Q, Some 1%Q)].
Proof. split; vm_compute; reflexivity. Qed.

(* ------------------------------------------------------------------ *)

(* Full statement of C123: for every gold file that the reader and the script accept, and every tagger, FileTaggerTester
   on the file and DataSetTaggerTester on the documents read from the file report the same scores, or fail with the same
   exception. *)

(* The order of features: a file with one word, the tagger that gives the gold documents back. *)
Theorem C123_same_scores_refuted : exists contents gold u f f' sc sc',
  read_file 1 default_columns contents = Ok (gold, None) /\ load_conllu_file contents = Ok u /\ gold <> [] /\
  file_test ascii_lower false contents (fun _ => (gold, None)) = Ok f /\
  dataset_test ascii_lower gold (fun _ => (gold, None)) = Ok f' /\
  f MFeats = Some sc /\ f' MFeats = Some sc' /\ (s_f1 sc == 0)%Q /\ (s_f1 sc' == 1)%Q.
Proof.
  exists ex_gold_file, (ex_documents_of ex_gold_file). eexists. eexists. eexists. eexists. eexists.
  split; [vm_compute; reflexivity|]. split; [vm_compute; reflexivity|]. split; [vm_compute; discriminate|].
  split; [vm_compute; reflexivity|]. split; [vm_compute; reflexivity|].
  split; [vm_compute; reflexivity|]. split; [vm_compute; reflexivity|]. split; vm_compute; reflexivity.
Qed.
Print Assumptions C123_same_scores_refuted.

(* A ten-column line that begins with # inside a range: the reader takes it for a comment, the script counts it as a
   word.  The test on the file fails with UDError whatever happens to the gold documents. *)
Definition ex_hash_file : str :=
  ex_range "1-2" "ab" "_" ++ ex_word "1" "a" "0" "_" ++ ex_word "#x" "b" "1" "_" ++ ex_word "3" "c" "1" "_" ++ ex_blank.
Theorem C123_same_failure_refuted : exists contents gold u f,
  read_file 1 default_columns contents = Ok (gold, None) /\ load_conllu_file contents = Ok u /\
  file_test ascii_lower false contents (fun _ => (gold, None)) = Err EUD /\
  dataset_test ascii_lower gold (fun _ => (gold, None)) = Ok f.
Proof.
  exists ex_hash_file, (ex_documents_of ex_hash_file). eexists. eexists.
  split; [vm_compute; reflexivity|]. split; [vm_compute; reflexivity|]. split; [vm_compute; reflexivity|vm_compute; reflexivity].
Qed.
Print Assumptions C123_same_failure_refuted.

(* Missing, against the full statement: the scores Feats and AllTags when some FEATS cell is not in code point order;
   files with ten-column lines that begin with #; files with negative HEADs; and, if the results are saved, predictions
   that are written with a carriage return, which reading the saved file turns into a line end. *)
Theorem C123_same_test_partial : forall lower save contents gold u tag,
  read_file 1 default_columns contents = Ok (gold, None) -> load_conllu_file contents = Ok u ->
  ud_heads_nonneg (universal_newlines contents) -> rows_uncommented (universal_newlines contents) ->
  (save = true -> forall out, write_str default_columns (fst (tag (prepare_test_data (gold, None)))) = Ok out -> ~ In chCR out) ->
  (forall e, file_test lower save contents tag = Err e <-> dataset_test lower gold tag = Err e) /\
  (forall f, file_test lower save contents tag = Ok f -> exists f', dataset_test lower gold tag = Ok f' /\
     forall m, (looks_at_feats m -> all_feats_ordered (universal_newlines contents)) -> f' m = f m).
Proof. exact goldfile_same. Qed.
Print Assumptions C123_same_test_partial.

(* a tagger that gives every word the same tag, and one that changes the text *)
Definition ex_noun (t : token) : token := mkToken (tstart t) (tend t) (Some (mkPos (Some (of_string "PART")) None [])) (tlemma t) (tdeprel t) (tsub t) (trepl t) (thdoc t) (thsent t) (textras t).
Definition ex_noun_tagger (g : gen document) : gen document :=
  (map (fun d => mkDoc (dtext d) (map ex_noun (dtokens d)) (dsents d)) (fst g), snd g).
Example C123_case :
  ex_scores (file_test ascii_lower true ex_treebank ex_noun_tagger) [MSentences; MWords; MUPOS; MUAS] =
    [Some (1, 1, None); Some (1, 1, None); Some (2 # 5, 2 # 5, Some (2 # 5)); Some (1 # 5, 1 # 5, Some (1 # 5))]%Q /\
  ex_scores (dataset_test ascii_lower ex_treebank_docs ex_noun_tagger) [MSentences; MWords; MUPOS; MUAS] =
    [Some (1, 1, None); Some (1, 1, None); Some (2 # 5, 2 # 5, Some (2 # 5)); Some (1 # 5, 1 # 5, Some (1 # 5))]%Q /\
  file_test ascii_lower true ex_treebank2 (fun _ => (ex_treebank_docs, None)) = Err EUD /\
  dataset_test ascii_lower ex_treebank2_docs (fun _ => (ex_treebank_docs, None)) = Err EUD.
Proof. split; [vm_compute; reflexivity|]. split; [vm_compute; reflexivity|]. split; vm_compute; reflexivity. Qed.

(* What the scores on a file mean: C69 for FileTaggerTester.  Missing: as in C123_same_test_partial. *)
Theorem C123_accuracy_partial : forall lower save contents gold u tag pred,
  read_file 1 default_columns contents = Ok (gold, None) -> load_conllu_file contents = Ok u ->
  ud_heads_nonneg (universal_newlines contents) -> rows_uncommented (universal_newlines contents) ->
  tag (prepare_test_data (gold, None)) = (pred, None) ->
  (save = true -> forall out, write_str default_columns pred = Ok out -> ~ In chCR out) ->
  Forall built pred -> Forall loadable pred -> Forall distinct_features pred -> Forall2 same_segmentation gold pred ->
  exists f, file_test lower save contents tag = Ok f /\ f MWeightedLAS = None /\
    (forall m, In m [MTokens; MSentences; MWords] -> exists sc, f m = Some sc /\ (places gold <> [] -> perfect sc)) /\
    forall m, In m tag_metrics -> (looks_at_feats m -> all_feats_ordered (universal_newlines contents)) ->
      exists sc marks, f m = Some sc /\ marked m (places gold) (places pred) marks /\
      scores sc (count (filter (fun x => snd x && counted m (fst x)) (combine (places gold) marks)))
        (count (filter (counted m) (places gold))) (count (filter (counted m) (places pred)))
        (Some (count (filter (counted m) (places gold)))).
Proof. exact goldfile_accuracy. Qed.
Print Assumptions C123_accuracy_partial.
