(* Properties C68, C69, C80: the testers. *)
From Coq Require Import String Ascii ZArith NArith QArith Bool Lia List.
From Verif Require Import Base BaseFacts Model_Datamodel Model_Conllu Spec_Datamodel Spec_Conllu Model_UDEval Spec_UDEval
  Model_Processors Spec_Processors Model_Tester Spec_Tester Props_Datamodel Props_Conllu Props_UDEval
  Proofs_Conllu6 Proofs_Conllu9 Proofs_Conllu10 Proofs_Tester Proofs_Tester5.
Import ListNotations.
Open Scope Z_scope.

(* ---- material for the concrete cases ---- *)

(* the same words as ex_document; one tag and the heads of the second sentence differ *)
Definition ex_prediction_text : str :=
  ex_word "1" "Ya" "0" "_" ++ ex_range "2-3" "vam" "SpaceAfter=No" ++
  ex_word "2" "v" "1" "_" ++ ex_line ["3"; "am"; "l"; "V"; "_"; "A=1"; "2"; "d:x"; "_"; "_"]%string ++ ex_word "4" "." "1" "_" ++ ex_blank ++
  ex_word "1" "Da" "0" "_" ++ ex_word "2" "net" "1" "_" ++ ex_blank.
Definition ex_prediction : document := Eval vm_compute in
  match read_str 10 default_columns ex_prediction_text with Ok ([d], None) => d | _ => mkDoc [] [] [] end.

Definition ex_scores (r : result (metric -> option score)) (ms : list metric) : list (option (Q * Q * option Q)) :=
  match r with
  | Ok f => map (fun m => option_map (fun sc => (Qred (s_precision sc), Qred (s_recall sc), option_map Qred (s_aligned sc))) (f m)) ms
  | Err _ => []
  end.
Ltac each_predicted :=
  match goal with H : In ?t (dtokens ex_prediction) |- _ =>
    unfold ex_prediction in H; cbn [dtokens In] in H; repeat (destruct H as [<-|H]; [|]); [..|destruct H]
  end.

Definition ex_prediction_groups : list (list (group token)) := Eval vm_compute in
  map (fun s => regroup [] (tokens_of (dtokens ex_prediction) s)) (dsents ex_prediction).
Lemma ex_prediction_groups_ok : sentence_groups ex_prediction ex_prediction_groups.
Proof.
  change ex_prediction_groups with (map (fun s => regroup [] (tokens_of (dtokens ex_prediction) s)) (dsents ex_prediction)).
  unfold sentence_groups. induction (dsents ex_prediction); constructor; auto. apply regroup_grouped.
Qed.
Lemma ex_prediction_normal : constructed ex_prediction /\ reader_normal ex_prediction.
Proof.
  apply (C20_reader_documents 10 default_columns ex_prediction_text [ex_prediction] None).
  - repeat (apply Forall_cons; [left; simpl; auto 10|]). constructor.
  - vm_compute. reflexivity.
  - left. reflexivity.
  - intros gss G. rewrite (sentence_groups_fun _ _ _ G ex_prediction_groups_ok). apply Forall_cons; [|constructor].
    intros (gs & t & ws & E). apply (f_equal (fun l => last l (GRange t []))) in E. rewrite last_last in E. discriminate E.
  - intros t H. each_predicted; vm_compute; reflexivity.
  - intros t c s H E. each_predicted; vm_compute in E; injection E as <- <-; reflexivity.
  - intros t H. each_predicted; eexists; (split; [reflexivity|lia]).
Qed.

(* ------------------------------------------------------------------ *)

(* What the tagger gets: the text, the sentences, the spans, word numbers, replacement texts and extras of the gold
   documents and nothing else.  last is the exception, if any, that ends the gold data. *)
Theorem C68_no_gold : forall gold last, Forall built gold ->
  exists ds, prepare_test_data (gold, last) = (ds, last) /\
    Forall2 (fun d d' => built d' /\ same_layout d d' /\
      map (text_of (dtext d')) (dtokens d') = map (text_of (dtext d)) (dtokens d) /\
      Forall bare (dtokens d')) gold ds.
Proof. exact prepared_layout. Qed.
Print Assumptions C68_no_gold.

(* so gold data that differ in the annotations only look the same to the tagger, and it predicts the same for them *)
Theorem C68_independent : forall gold gold' last, Forall built gold -> Forall built gold' -> Forall2 same_layout gold gold' ->
  prepare_test_data (gold, last) = prepare_test_data (gold', last).
Proof. exact prepared_independent. Qed.
Print Assumptions C68_independent.

Example C68_case_built : Forall built [ex_document; ex_prediction] /\ same_layout ex_document ex_prediction /\
  ex_document <> ex_prediction.
Proof.
  assert (A : built ex_document) by exact (proj1 C20_case_normal).
  assert (B : built ex_prediction) by exact (proj1 ex_prediction_normal).
  split; [repeat constructor; assumption|]. split; [|vm_compute; discriminate].
  split; [reflexivity|]. split; [reflexivity|]. unfold ex_document, ex_prediction. cbn [dtokens].
  repeat (constructor; [repeat split|]). constructor.
Qed.
Example C68_case : map (fun d => map (fun t => (tstart t, tlemma t, thsent t)) (dtokens d)) (fst (prepare_test_data ([ex_document], None))) =
  [[(0, None, None); (3, None, None); (3, None, None); (6, None, None); (8, None, None); (11, None, None)]].
Proof. vm_compute. reflexivity. Qed.

(* ------------------------------------------------------------------ *)

(* Full statement: for all gold documents, if the tagger's documents have the gold annotations, every metric that
   DataSetTaggerTester reports is 1.  One full stop with relation punct: no word counts for CLAS, which is 0. *)
Theorem C69_perfect_refuted : exists d tag f sc,
  built d /\ loadable d /\ tag (prepare_test_data ([d], None)) = ([d], None) /\
  dataset_test ascii_lower [d] tag = Ok f /\ f MCLAS = Some sc /\
  (s_precision sc == 0)%Q /\ (s_recall sc == 0)%Q /\ (s_f1 sc == 0)%Q.
Proof.
  set (t := mkToken 0 1 None None (Some (of_string "punct")) 0 None (Some (-1)) (Some (-1)) []).
  set (d := mkDoc (of_string ".") [t] [mkSent 0 1]).
  exists d, (fun _ => ([d], None)). eexists. eexists. split; [|split; [|split; [|split; [|split; [|split; [|split]]]]]].
  - exists (of_string "."), [t], None, true. split; [|split; [exact I|vm_compute; reflexivity]].
    constructor; [|constructor]. split; [cbn; lia|reflexivity].
  - split.
    + constructor; [|constructor]. split.
      * vm_compute. split; intuition discriminate.
      * vm_compute. split; intuition discriminate.
      * intros s H. discriminate.
      * intros s H. injection H as <-. vm_compute. split; intuition discriminate.
      * intros p H. discriminate.
    + constructor; [|constructor]. vm_compute. discriminate.
    + intros s [<-|[]]. right. change (map thsent (tokens_of (dtokens d) (mkSent 0 1))) with [Some (-1)].
      split; [|split; [|split]].
      * intros [|[|i]]; discriminate.
      * exists O. split; auto. intros [|[|i]]; [reflexivity|discriminate|discriminate].
      * intros [|[|i]] h H; try discriminate. injection H as <-. auto.
      * intros [|i] H; [|cbn in H; lia]. now apply rr_root.
  - reflexivity.
  - vm_compute. reflexivity.
  - vm_compute. reflexivity.
  - vm_compute. reflexivity.
  - vm_compute. reflexivity.
  - vm_compute. reflexivity.
Qed.
Print Assumptions C69_perfect_refuted.

(* Missing, against the full statement: gold data in which no word counts for the metric (no words at all, or for
   CLAS only functional relations), and data the script does not load or the writer garbles (C21, C25). *)
Theorem C69_perfect_partial : forall lower gold gsss tag pred,
  Forall built gold -> Forall2 sentence_groups gold gsss -> Forall no_pending gsss -> Forall loadable gold -> Forall distinct_features gold ->
  tag (prepare_test_data (gold, None)) = (pred, None) ->
  Forall built pred -> Forall distinct_features pred -> Forall2 same_segmentation gold pred ->
  Forall2 (fun d d' => Forall2 same_annotation (dtokens d) (dtokens d')) gold pred ->
  exists f, dataset_test lower gold tag = Ok f /\
    (forall m, f m = None <-> m = MWeightedLAS) /\
    forall m sc, f m = Some sc -> (exists it, In it (places gold) /\ counted m it = true) -> perfect sc.
Proof. exact tester_perfect. Qed.
Print Assumptions C69_perfect_partial.

(* accuracy: marks says for each word of the gold data whether its prediction is right *)
Theorem C69_accuracy : forall lower gold gsss tag pred,
  Forall built gold -> Forall2 sentence_groups gold gsss -> Forall no_pending gsss -> Forall loadable gold -> Forall distinct_features gold ->
  tag (prepare_test_data (gold, None)) = (pred, None) ->
  Forall built pred -> Forall loadable pred -> Forall distinct_features pred -> Forall2 same_segmentation gold pred ->
  exists f, dataset_test lower gold tag = Ok f /\ f MWeightedLAS = None /\
    (forall m, In m [MTokens; MSentences; MWords] -> exists sc, f m = Some sc /\ (places gold <> [] -> perfect sc)) /\
    forall m, In m tag_metrics -> exists sc marks, f m = Some sc /\ marked m (places gold) (places pred) marks /\
      scores sc (count (filter (fun x => snd x && counted m (fst x)) (combine (places gold) marks)))
        (count (filter (counted m) (places gold))) (count (filter (counted m) (places pred)))
        (Some (count (filter (counted m) (places gold)))).
Proof. exact tester_accuracy. Qed.
Print Assumptions C69_accuracy.

Example C69_case_hypotheses :
  Forall2 sentence_groups [ex_document] [ex_groups] /\ Forall no_pending [ex_groups] /\ Forall loadable [ex_document; ex_prediction] /\
  Forall distinct_features [ex_document; ex_prediction] /\ same_segmentation ex_document ex_prediction /\
  Forall2 same_annotation (dtokens ex_document) (dtokens ex_document).
Proof.
  split; [constructor; [exact ex_groups_ok|constructor]|]. split; [constructor; [exact (ex_no_pending _ ex_groups_ok)|constructor]|].
  split; [constructor; [exact C25_case_loadable|constructor; [|constructor]]|].
  - split.
    + exact (rn_clean _ (proj2 ex_prediction_normal)).
    + apply Forall_forall. intros t H. each_predicted; vm_compute; discriminate.
    + intros s H. right. exact (proj1 (rn_heads _ (proj2 ex_prediction_normal) s H)).
  - split; [|split].
    + constructor; [|constructor; [|constructor]]; intros t p H E; [each_token|each_predicted]; injection E as <-;
        (constructor; [intros []|constructor]).
    + split; [reflexivity|]. split; [reflexivity|]. unfold ex_document, ex_prediction. cbn [dtokens].
      repeat (constructor; [repeat split|]). constructor.
    + unfold ex_document. cbn [dtokens]. repeat (constructor; [repeat split|]). constructor.
Qed.

Example C69_case :
  ex_scores (dataset_test ascii_lower [ex_document] (fun _ => ([ex_prediction], None))) [MWords; MUPOS; MLemmas; MUAS; MLAS; MCLAS; MWeightedLAS] =
    [Some (1%Q, 1%Q, None); Some ((5 # 6)%Q, (5 # 6)%Q, Some (5 # 6)%Q); Some (1%Q, 1%Q, Some 1%Q); Some ((2 # 3)%Q, (2 # 3)%Q, Some (2 # 3)%Q);
     Some ((2 # 3)%Q, (2 # 3)%Q, Some (2 # 3)%Q); Some ((2 # 3)%Q, (2 # 3)%Q, Some (2 # 3)%Q); None] /\
  ex_scores (dataset_test ascii_lower [ex_document] (fun _ => ([ex_document], None))) [MSentences; MAllTags; MCLAS] =
    [Some (1%Q, 1%Q, None); Some (1%Q, 1%Q, Some 1%Q); Some (1%Q, 1%Q, Some 1%Q)] /\
  (* a tagger whose documents are missing or cut off *)
  dataset_test ascii_lower [ex_document] (fun _ => ([], None)) = Err EUD /\
  dataset_test ascii_lower [ex_document] (fun _ => ([ex_document], Some EKey)) = Err EKey.
Proof. repeat split; vm_compute; reflexivity. Qed.

(* ------------------------------------------------------------------ *)

(* a gold file with one word and features in the order of the UD treebanks, which compare names without regard to case *)
Definition ex_gold_file : str := ex_line ["1"; "one"; "one"; "NUM"; "_"; "Number=Sing|NumForm=Word"; "0"; "root"; "_"; "_"]%string ++ ex_blank.

(* Full statement: for every gold file, if the tagger's documents have the annotations that the file gives, every
   metric that FileTaggerTester reports is 1. *)
Theorem C80_file_refuted : exists gold f sc,
  read_file 1 default_columns ex_gold_file = Ok (gold, None) /\ gold <> [] /\
  file_test ascii_lower false ex_gold_file (fun _ => (gold, None)) = Ok f /\
  f MFeats = Some sc /\ (s_precision sc == 0)%Q /\ (s_recall sc == 0)%Q /\ (s_f1 sc == 0)%Q.
Proof.
  eexists. eexists. eexists. split; [vm_compute; reflexivity|]. split; [discriminate|].
  split; [vm_compute; reflexivity|]. split; [vm_compute; reflexivity|]. repeat split.
Qed.
Print Assumptions C80_file_refuted.

(* Missing, against the full statement: files that are not as the writer writes them, for instance with features in
   another order; without a results path also files with carriage returns. *)
Theorem C80_file_partial : forall lower save contents gold u tag pred,
  read_file 1 default_columns contents = Ok (gold, None) -> load_conllu_file contents = Ok u ->
  write_str default_columns gold = Ok contents -> save = true \/ ~ In chCR contents ->
  Forall distinct_features gold -> tag (prepare_test_data (gold, None)) = (pred, None) ->
  Forall built pred -> Forall distinct_features pred -> Forall2 same_segmentation gold pred ->
  Forall2 (fun d d' => Forall2 same_annotation (dtokens d) (dtokens d')) gold pred ->
  exists f, file_test lower save contents tag = Ok f /\
    (forall m, f m = None <-> m = MWeightedLAS) /\
    forall m sc, f m = Some sc -> ~ (metric_total None u m == 0)%Q -> perfect sc.
Proof. exact file_perfect. Qed.
Print Assumptions C80_file_partial.

Definition ex_written_file : str :=
  ex_word "1" "Ya" "0" "_" ++ ex_range "2-3" "vam" "SpaceAfter=No" ++
  ex_word "2" "v" "1" "_" ++ ex_word "3" "am" "2" "_" ++ ex_word "4" "." "1" "_" ++ ex_blank ++
  ex_word "1" "Da" "2" "_" ++ ex_word "2" "net" "0" "_" ++ ex_blank.
Example C80_case : exists gold u,
  read_file 1 default_columns ex_written_file = Ok (gold, None) /\ length gold = 2%nat /\ load_conllu_file ex_written_file = Ok u /\
  write_str default_columns gold = Ok ex_written_file /\ ~ In chCR ex_written_file /\
  ex_scores (file_test ascii_lower true ex_written_file (fun _ => (gold, None))) [MWords; MFeats; MCLAS] =
    [Some (1%Q, 1%Q, None); Some (1%Q, 1%Q, Some 1%Q); Some (1%Q, 1%Q, Some 1%Q)].
Proof.
  eexists. eexists. split; [vm_compute; reflexivity|]. split; [reflexivity|]. split; [vm_compute; reflexivity|].
  split; [vm_compute; reflexivity|]. split; [|vm_compute; reflexivity].
  intros H. apply (existsb_exists (N.eqb chCR)) in H || (assert (X : existsb (N.eqb chCR) ex_written_file = true) by (apply existsb_exists; exists chCR; auto using N.eqb_refl); vm_compute in X; discriminate X).
Qed.
