(* The two testers on the same gold data. *)
From Coq Require Import String Ascii ZArith NArith QArith Bool Sorted Permutation Lia List.
From Verif Require Import Base BaseFacts Model_Datamodel Model_Conllu Spec_Datamodel Spec_Conllu Proofs_Datamodel
  Model_UDEval Spec_UDEval Proofs_UDEval Spec_Processors Proofs_Processors Model_Tester Spec_Tester Proofs_Tester4 Proofs_Tester5
  Spec_Goldfile Proofs_Goldfile Proofs_Goldfile5.
Import ListNotations.
Open Scope Z_scope.

Lemma goldfile_scores lower save contents gold u tag :
  read_file 1 default_columns contents = Ok (gold, None) -> load_conllu_file contents = Ok u ->
  ud_heads_nonneg (universal_newlines contents) -> rows_uncommented (universal_newlines contents) ->
  (save = true -> forall out, write_str default_columns (fst (tag (prepare_test_data (gold, None)))) = Ok out -> ~ In chCR out) ->
  same_result (fun f f' => forall m, (looks_at_feats m -> all_feats_ordered (universal_newlines contents)) -> f' m = f m)
    (file_test lower save contents tag) (dataset_test lower gold tag).
Proof.
  intros R E NN UC SV. destruct (gold_written contents gold u R E NN UC) as (_ & _ & _ & _ & out & u' & W & _ & E' & A1 & A2).
  unfold file_test, dataset_test. rewrite R. cbn [bind]. unfold test. rewrite E.
  assert (X : convert_to_internal (gold, None) = Ok u') by (unfold convert_to_internal, all_of; cbn [fst snd bind]; rewrite W; exact E'). rewrite X.
  assert (Y : (if save then save_and_read (tag (prepare_test_data (gold, None))) else convert_to_internal (tag (prepare_test_data (gold, None)))) =
              convert_to_internal (tag (prepare_test_data (gold, None)))).
  { destruct save; [|reflexivity]. unfold save_and_read, convert_to_internal, all_of. specialize (SV eq_refl).
    destruct (tag (prepare_test_data (gold, None))) as [ds [e|]]; cbn [snd fst bind] in *; [reflexivity|].
    destruct (write_str default_columns ds) as [o|e]; cbn [bind]; [|reflexivity]. unfold load_conllu_file. now rewrite newlines_id by auto. }
  rewrite Y.
  destruct (convert_to_internal (tag (prepare_test_data (gold, None)))) as [s|e]; cbn [bind]; [|reflexivity].
  pose proof (evaluate_like [1; 2; 3; 4; 7]%nat (incl_refl _) lower u u' s None A1) as Y1.
  destruct (evaluate lower u s None) as [f|e] eqn:Ef, (evaluate lower u' s None) as [f'|e'] eqn:Ef'; cbn [same_result] in *; auto. intros m O.
  assert (D : looks_at_feats m \/ ~ looks_at_feats m) by (unfold looks_at_feats; destruct m; try (right; intuition discriminate); left; tauto).
  destruct D as [D|D].
  - pose proof (evaluate_like [1; 2; 3; 4; 7; 5]%nat ltac:(intros n Hn; cbn in *; intuition) lower u u' s None (A2 (O D))) as Y2.
    rewrite Ef, Ef' in Y2. apply Y2. left. cbn; auto 10.
  - apply Y1. right. unfold looks_at_feats in D. tauto.
Qed.

Theorem goldfile_same lower save contents gold u tag :
  read_file 1 default_columns contents = Ok (gold, None) -> load_conllu_file contents = Ok u ->
  ud_heads_nonneg (universal_newlines contents) -> rows_uncommented (universal_newlines contents) ->
  (save = true -> forall out, write_str default_columns (fst (tag (prepare_test_data (gold, None)))) = Ok out -> ~ In chCR out) ->
  (forall e, file_test lower save contents tag = Err e <-> dataset_test lower gold tag = Err e) /\
  (forall f, file_test lower save contents tag = Ok f -> exists f', dataset_test lower gold tag = Ok f' /\
     forall m, (looks_at_feats m -> all_feats_ordered (universal_newlines contents)) -> f' m = f m).
Proof.
  intros R E NN UC SV. pose proof (goldfile_scores lower save contents gold u tag R E NN UC SV) as X.
  destruct (file_test lower save contents tag) as [f|e], (dataset_test lower gold tag) as [f'|e']; cbn [same_result] in X; try contradiction.
  - split; [split; discriminate|]. intros g [= <-]. eauto.
  - subst e'. split; [tauto|discriminate].
Qed.

Lemma file_back lower save contents gold u tag f' :
  read_file 1 default_columns contents = Ok (gold, None) -> load_conllu_file contents = Ok u ->
  ud_heads_nonneg (universal_newlines contents) -> rows_uncommented (universal_newlines contents) ->
  (save = true -> forall out, write_str default_columns (fst (tag (prepare_test_data (gold, None)))) = Ok out -> ~ In chCR out) ->
  dataset_test lower gold tag = Ok f' ->
  exists f, file_test lower save contents tag = Ok f /\
     forall m, (looks_at_feats m -> all_feats_ordered (universal_newlines contents)) -> f m = f' m.
Proof.
  intros R E NN UC SV Ed. pose proof (goldfile_scores lower save contents gold u tag R E NN UC SV) as X. rewrite Ed in X.
  destruct (file_test lower save contents tag) as [f|e]; cbn [same_result] in X; [|contradiction]. exists f. split; auto. intros m O. symmetry. auto.
Qed.

Theorem goldfile_accuracy lower save contents gold u tag pred :
  read_file 1 default_columns contents = Ok (gold, None) -> load_conllu_file contents = Ok u ->
  ud_heads_nonneg (universal_newlines contents) -> rows_uncommented (universal_newlines contents) ->
  tag (prepare_test_data (gold, None)) = (pred, None) ->
  (save = true -> forall out, write_str default_columns pred = Ok out -> ~ In chCR out) ->
  Forall built pred -> Forall loadable pred -> Forall distinct_features pred -> Forall2 same_segmentation gold pred ->
  exists f, file_test lower save contents tag = Ok f /\ f MWeightedLAS = None /\
    (forall m, In m [MTokens; MSentences; MWords] -> exists sc, f m = Some sc /\ (places gold <> [] -> perfect sc)) /\
    forall m, In m tag_metrics -> (looks_at_feats m -> all_feats_ordered (universal_newlines contents)) ->
      exists sc marks, f m = Some sc /\ marked m (places gold) (places pred) marks /\
      scores sc (count (filter (fun x => snd x && counted m (fst x)) (combine (places gold) marks)))
        (count (filter (counted m) (places gold))) (count (filter (counted m) (places pred)))
        (Some (count (filter (counted m) (places gold)))).
Proof.
  intros R E NN UC Et SV B' L' D' S. destruct (gold_written contents gold u R E NN UC) as (B & L & D & (gsss & G & P) & _).
  destruct (tester_accuracy lower gold gsss tag pred B G P L D Et B' L' D' S) as (f' & Ef & N & T & M).
  destruct (file_back lower save contents gold u tag f' R E NN UC) as (f & Ef' & Q); auto; [rewrite Et; exact SV|].
  exists f. split; [exact Ef'|]. split; [rewrite Q; auto; intros [X|X]; discriminate|]. split.
  - intros m Hm. rewrite Q; auto. intros [-> | ->]; cbn in Hm; intuition discriminate.
  - intros m Hm O. rewrite Q by exact O. auto.
Qed.

Theorem goldfile_perfect lower save contents gold u tag pred :
  read_file 1 default_columns contents = Ok (gold, None) -> load_conllu_file contents = Ok u ->
  ud_heads_nonneg (universal_newlines contents) -> rows_uncommented (universal_newlines contents) ->
  tag (prepare_test_data (gold, None)) = (pred, None) ->
  Forall built pred -> Forall distinct_features pred -> Forall2 same_segmentation gold pred ->
  Forall2 (fun d d' => Forall2 same_annotation (dtokens d) (dtokens d')) gold pred ->
  exists f, file_test lower save contents tag = Ok f /\
    forall m, (looks_at_feats m -> all_feats_ordered (universal_newlines contents)) ->
      (f m = None <-> m = MWeightedLAS) /\
      forall sc, f m = Some sc -> (exists it, In it (places gold) /\ counted m it = true) -> perfect sc.
Proof.
  intros R E NN UC Et B' D' S A. destruct (gold_written contents gold u R E NN UC) as (B & L & D & (gsss & G & P) & out & u' & W & CR & _).
  destruct (tester_perfect lower gold gsss tag pred B G P L D Et B' D' S A) as (f' & Ef & N & T).
  pose proof (write_same gold pred gsss (built_all _ B) (built_all _ B') G P (same_written_intro _ _ D D' S A)) as WS.
  destruct (file_back lower save contents gold u tag f' R E NN UC) as (f & Ef' & Q); auto.
  { rewrite Et. cbn [fst]. intros _ o Eo. rewrite WS, W in Eo. injection Eo as <-. exact CR. }
  exists f. split; [exact Ef'|]. intros m O. rewrite Q by exact O. split; [apply N|intros sc; apply T].
Qed.
