(* Properties C99, C100: networks whose layers fit together. *)
From Coq Require Import String Ascii ZArith NArith Bool Lia List.
From Verif Require Import Base BaseFacts Model_Graph Spec_Graph Proofs_Graph Proofs_Graph2 Proofs_Graph3 Proofs_Graph4 Proofs_Graph5 Proofs_Graph6.
Import ListNotations.
Open Scope Z_scope.

(* word embeddings of size 4 and characters with a convolution *)
Definition ex_features : features :=
  mkFeatures (Some (10, 4, None)) None (Some (mkSubwords 30 5 (Cnn [mkConv 3 6 1; mkConv 3 2 1]) true)) None None.
Definition ex_kernels : list conv := [mkConv 3 6 1; mkConv 3 5 1].
Definition ex_cnn : encoder := BiLSTM_CNN 3 2 Sum ex_kernels.
Definition ex_pos : task := Dense PosLabels (of_string "bilstm") 7 [17; 3].
Definition ex_combo (ks : list conv) : task := Combo (of_string "bilstm") 30 5 8 ks true 31.

(* ---------------- C99 ---------------- *)

(* In full: an encoder that works with some task and a task that works with some encoder, where both encoders give the layer the task
   starts from with the same size, can be combined.

   This is false: BiLSTM_CNN and lemma_combo give their convolutions the same names. *)
Theorem C99_buildable_refuted : ~ forall f e e' t t' n,
  (exists g, build true f e [t'] = Ok g) -> (exists g, build true f e' [t] = Ok g) ->
  provides f e (reads t) n -> provides f e' (reads t) n ->
  exists g, build true f e [t] = Ok g.
Proof.
  intros H. destruct (H ex_features ex_cnn (BiLSTM 3 2 Sum) (ex_combo ex_kernels) ex_pos 6) as (g & E).
  - vm_compute. eauto.
  - vm_compute. eauto.
  - apply provides_bilstm2.
  - apply provides_bilstm.
  - vm_compute in E. discriminate.
Qed.
Print Assumptions C99_buildable_refuted.

(* What holds: exactly the configurations that fit can be built. *)
Theorem C99_buildable_partial known f e ts :
  (exists g, build known f e ts = Ok g) <-> known = true /\ fits f e ts.
Proof. exact (build_fits known f e ts). Qed.
Print Assumptions C99_buildable_partial.

(* together they can be built if the convolutions differ, and not if one layer, the sum or the labels do not fit *)
Example C99_case :
  (exists g, build true ex_features ex_cnn [ex_pos; ex_combo [mkConv 3 5 1]] = Ok g) /\
  build true ex_features ex_cnn [ex_pos; ex_combo ex_kernels] = Err EValue /\
  build true ex_features (BiLSTM 4 2 Sum) [ex_pos] = Err EValue /\
  (exists g, build true ex_features (BiLSTM 4 2 Concat) [ex_pos] = Ok g) /\
  build true ex_features ex_cnn [ex_pos; ex_pos] = Err EValue /\
  build true ex_features WE_charCNN [ex_pos] = Err EKey /\
  build true ex_features ex_cnn [ex_combo [mkConv 3 6 2]] = Err EValue.
Proof. vm_compute. repeat split; eauto. Qed.
Example C99_fits_case : fits ex_features ex_cnn [ex_pos; ex_combo [mkConv 3 5 1]].
Proof. apply (C99_buildable_partial true). apply C99_case. Qed.

(* resources/hyperparams.json, with embeddings of some sizes *)
Example C99_shipped_case :
  exists g, build true
    (mkFeatures (Some (1000, 300, Some 100)) (Some (500, 50))
       (Some (mkSubwords 80 50 (Cnn [mkConv 3 512 1; mkConv 3 124 2; mkConv 3 64 4]) true))
       (Some (mkSubwords 900 200 (Rnn 50 1) true)) (Some (mkSubwords 700 50 Average true)))
    (BiLSTM 200 1 Concat)
    [Dense PosLabels (of_string "bilstm_and_word_features") 300 [18; 40; 60];
     Combo (of_string "bilstm_and_word_features") 80 256 32 [mkConv 3 256 1; mkConv 3 256 2; mkConv 3 256 4] true 90] = Ok g /\
    length (variables g) = 53%nat.
Proof. vm_compute. eauto. Qed.

(* ---------------- C100 ---------------- *)

(* no two variables have the same name *)
Theorem C100_names known f e ts g : build known f e ts = Ok g -> NoDup (map fst (variables g)).
Proof. exact (build_names known f e ts g). Qed.
Print Assumptions C100_names.

(* the layers of pos_dense, lemma_dense and lemma_suffix *)
Theorem C100_dense known f e ts g k name dense_size parts i n : build known f e ts = Ok g ->
  In (Dense k name dense_size parts) ts -> nth_error parts i = Some n ->
  exists m, provides f e name m /\
    In (weights (hidden_scope k i), [m; dense_size]) (variables g) /\ In (biases (hidden_scope k i), [dense_size]) (variables g) /\
    In (weights (logits_scope k i), [dense_size; n]) (variables g) /\ In (biases (logits_scope k i), [n]) (variables g).
Proof. exact (build_dense known f e ts g k name dense_size parts i n). Qed.
Print Assumptions C100_dense.

(* the recurrent layers of the encoder: the first one starts from the features of the words, the others from both directions *)
Theorem C100_recurrent known f e ts g cell layers i : build known f e ts = Ok g -> has_rnn e cell layers -> Z.of_nat i < layers ->
  exists m, (i = 0%nat /\ words_size f m \/ i <> 0%nat /\ m = 2 * cell) /\
    In (weights (rnn_layer i "fw"), [m + cell; 4 * cell]) (variables g) /\ In (biases (rnn_layer i "fw"), [4 * cell]) (variables g) /\
    In (weights (rnn_layer i "bw"), [m + cell; 4 * cell]) (variables g) /\ In (biases (rnn_layer i "bw"), [4 * cell]) (variables g).
Proof. exact (build_rnn known f e ts g cell layers i). Qed.
Print Assumptions C100_recurrent.

(* the layers of lemma_combo: each convolution takes as many channels as the one before gives *)
Theorem C100_combo known f e ts g name rows embed dense_size kernels hw outputs : build known f e ts = Ok g ->
  In (Combo name rows embed dense_size kernels hw outputs) ts ->
  exists m, provides f e name m /\ In (of_string "input_subwords_e", [rows; embed]) (variables g) /\
    In (weights (of_string "dense_cnn"), [m; dense_size]) (variables g) /\ In (biases (of_string "dense_cnn"), [dense_size]) (variables g) /\
    (hw = true -> unnamed_layer g embed embed) /\
    (forall i k, nth_error kernels i = Some k -> exists input, conv_input kernels (embed + dense_size) i input /\
      In (conv_variable (of_string "cnn_kernel") i k, [1; cv_size k; input; cv_count k]) (variables g)) /\
    (hw = false -> forall n, (kernels = [] /\ n = embed + dense_size \/ ends_with kernels n) ->
      In (of_string "output_subwords", [1; 1; n; outputs]) (variables g)) /\
    (hw = true -> forall n, ends_with kernels n ->
      In (of_string "output_subwords", [1; 1; (if embed =? 1 then n else embed); outputs]) (variables g)).
Proof. exact (build_combo known f e ts g name rows embed dense_size kernels hw outputs). Qed.
Print Assumptions C100_combo.

(* the layers of features *)
Theorem C100_features known f e ts g : build known f e ts = Ok g ->
  (forall rows size d, f_words f = Some (rows, size, d) -> In (of_string "word_embeddings", [rows; size]) (variables g) /\
    forall u, d = Some u -> In (weights (of_string "we_dense_layer"), [size; u]) (variables g) /\
      In (biases (of_string "we_dense_layer"), [u]) (variables g)) /\
  (forall rows size, f_trained f = Some (rows, size) -> In (of_string "trained_words", [rows; size]) (variables g)) /\
  (forall name c, subwords_of f name c -> In (name, [sw_rows c; sw_size c]) (variables g) /\
    (forall ks i k, sw_aggregator c = Cnn ks -> nth_error ks i = Some k -> exists input, conv_input ks (sw_size c) i input /\
      In (conv_variable (name ++ of_string "_cnn") i k, [1; cv_size k; input; cv_count k]) (variables g)) /\
    (forall cell layers i, sw_aggregator c = Rnn cell layers -> Z.of_nat i < layers -> exists m,
      (i = 0%nat /\ m = sw_size c \/ i <> 0%nat /\ m = 2 * cell) /\
      In (weights (named_rnn_layer name i "fw"), [m + cell; 4 * cell]) (variables g) /\
      In (biases (named_rnn_layer name i "fw"), [4 * cell]) (variables g) /\
      In (weights (named_rnn_layer name i "bw"), [m + cell; 4 * cell]) (variables g) /\
      In (biases (named_rnn_layer name i "bw"), [4 * cell]) (variables g)) /\
    (forall cell layers n, sw_aggregator c = Rnn cell layers -> subwords_give (sw_aggregator c) (sw_size c) n -> unnamed_layer g n n) /\
    (sw_highway c = true -> forall n, subwords_give (sw_aggregator c) (sw_size c) n ->
      In (weights (name ++ of_string "_dense_highway"), [n; n]) (variables g) /\
      In (biases (name ++ of_string "_dense_highway"), [n]) (variables g) /\ unnamed_layer g n n)).
Proof. exact (build_features known f e ts g). Qed.
Print Assumptions C100_features.

(* the convolutions of encoders *)
Theorem C100_encoder known f e ts g : build known f e ts = Ok g ->
  (forall ks sk i k, e = Dilated_CNN (Some ks) sk -> nth_error ks i = Some k -> exists w input, words_size f w /\ conv_input ks w i input /\
     In (conv_variable (of_string "dilated_cnn") i k, [1; cv_size k; input; cv_count k]) (variables g)) /\
  (forall cell layers sk ks i k, e = BiLSTM_CNN cell layers sk ks -> nth_error ks i = Some k -> exists input, conv_input ks 1 i input /\
     In (conv_variable (of_string "cnn_kernel") i k, [1; cv_size k; input; cv_count k]) (variables g)).
Proof. exact (build_encoder_conv known f e ts g). Qed.
Print Assumptions C100_encoder.

Example C100_case : exists g, build true ex_features (BiLSTM 3 2 Concat)
    [Dense PosLabels (of_string "bilstm_and_word_features") 7 [17; 3]; ex_combo ex_kernels] = Ok g /\
  variables g = [(of_string "word_embeddings", [10; 4]); (of_string "characters", [30; 5]);
    (of_string "characters_cnn_0_s3_c6_d1", [1; 3; 5; 6]); (of_string "characters_cnn_1_s3_c2_d1", [1; 3; 6; 2]);
    (of_string "characters_dense_highway/kernel", [2; 2]); (of_string "characters_dense_highway/bias", [2]);
    (of_string "dense/kernel", [2; 2]); (of_string "dense/bias", [2]);
    (of_string "bidirectional_rnn_-0/fw/lstm_cell/kernel", [9; 12]); (of_string "bidirectional_rnn_-0/fw/lstm_cell/bias", [12]);
    (of_string "bidirectional_rnn_-0/bw/lstm_cell/kernel", [9; 12]); (of_string "bidirectional_rnn_-0/bw/lstm_cell/bias", [12]);
    (of_string "bidirectional_rnn_-1/fw/lstm_cell/kernel", [9; 12]); (of_string "bidirectional_rnn_-1/fw/lstm_cell/bias", [12]);
    (of_string "bidirectional_rnn_-1/bw/lstm_cell/kernel", [9; 12]); (of_string "bidirectional_rnn_-1/bw/lstm_cell/bias", [12]);
    (of_string "0/dense_pos_labels/kernel", [12; 7]); (of_string "0/dense_pos_labels/bias", [7]);
    (of_string "0/logits_pos_labels/kernel", [7; 17]); (of_string "0/logits_pos_labels/bias", [17]);
    (of_string "1/dense_pos_labels/kernel", [12; 7]); (of_string "1/dense_pos_labels/bias", [7]);
    (of_string "1/logits_pos_labels/kernel", [7; 3]); (of_string "1/logits_pos_labels/bias", [3]);
    (of_string "input_subwords_e", [30; 5]); (of_string "dense_cnn/kernel", [6; 8]); (of_string "dense_cnn/bias", [8]);
    (of_string "cnn_kernel_0_s3_c6_d1", [1; 3; 13; 6]); (of_string "cnn_kernel_1_s3_c5_d1", [1; 3; 6; 5]);
    (of_string "dense_1/kernel", [5; 5]); (of_string "dense_1/bias", [5]); (of_string "output_subwords", [1; 1; 5; 31])].
Proof. vm_compute. eauto. Qed.
