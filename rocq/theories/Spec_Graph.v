(* Specification vocabulary for networks whose layers fit together. *)
From Coq Require Import String Ascii ZArith NArith Bool List.
From Verif Require Import Base Model_Graph.
Import ListNotations.
Open Scope Z_scope.

(* the last of a list of convolutions has this many channels *)
Definition ends_with (kernels : list conv) (n : Z) : Prop := exists ks k, kernels = ks ++ [k] /\ cv_count k = n.

(* the size of the vectors a feature of subwords gives *)
Inductive subwords_give : aggregator -> Z -> Z -> Prop :=
| give_rnn cell layers size : 0 < layers -> subwords_give (Rnn cell layers) size (2 * cell)
| give_no_rnn cell layers size : layers <= 0 -> subwords_give (Rnn cell layers) size size
| give_cnn kernels size n : ends_with kernels n -> subwords_give (Cnn kernels) size n
| give_average size : subwords_give Average size size
| give_attention size : subwords_give SelfAttention size size.

(* the features of a word: name and size *)
Inductive feature_of (f : features) : str -> Z -> Prop :=
| of_words rows size : f_words f = Some (rows, size, None) -> feature_of f (of_string "word_embedding") size
| of_words_dense rows size n : f_words f = Some (rows, size, Some n) -> feature_of f (of_string "word_embedding") n
| of_trained rows size : f_trained f = Some (rows, size) -> feature_of f (of_string "trained_embedding") size
| of_characters c n : f_characters f = Some c -> subwords_give (sw_aggregator c) (sw_size c) n -> feature_of f (of_string "characters") n
| of_bpe c n : f_bpe f = Some c -> subwords_give (sw_aggregator c) (sw_size c) n -> feature_of f (of_string "bpe_subwords") n
| of_morfessor c n : f_morfessor f = Some c -> subwords_give (sw_aggregator c) (sw_size c) n -> feature_of f (of_string "morfessor_subwords") n.

(* every feature that is configured has a size, and there is one *)
Definition features_fit (f : features) : Prop :=
  (exists name n, feature_of f name n) /\
  forall c, f_characters f = Some c \/ f_bpe f = Some c \/ f_morfessor f = Some c -> sw_aggregator c <> Cnn [].

(* the size of all features of a word together *)
Definition words_size (f : features) (n : Z) : Prop :=
  exists ns, NoDup (map fst ns) /\ (forall name m, In (name, m) ns <-> feature_of f name m) /\
    n = fold_right Z.add 0 (map snd ns).

(* a skip connection over a layer of size n *)
Definition skip_fits (f : features) (sk : skip) (n : Z) : Prop :=
  match sk with NoSkip => True | Sum => words_size f n | Concat => True | OtherSkip => False end.
Definition encoder_fits (f : features) (e : encoder) : Prop :=
  match e with
  | WE_charCNN => True
  | BiLSTM cell layers sk => 0 < layers /\ skip_fits f sk (2 * cell)
  | BiLSTM_CNN cell layers sk kernels => 0 < layers /\ skip_fits f sk (2 * cell) /\ kernels <> []
  | Dilated_CNN kernels sk => exists ks n, kernels = Some ks /\ ends_with ks n /\ skip_fits f sk n
  end.

(* what a shared_name may be, and the size of that layer *)
Definition skipped (sk : skip) (n words : Z) (m : Z) : Prop :=
  match sk with Sum => m = n | Concat => m = n + words | _ => False end.
Inductive provides (f : features) : encoder -> str -> Z -> Prop :=
| provides_feature e name n : feature_of f name n -> provides f e name n
| provides_words e n : words_size f n -> provides f e (of_string "word_features") n
| provides_bilstm cell layers sk : provides f (BiLSTM cell layers sk) (of_string "bilstm") (2 * cell)
| provides_bilstm_skip cell layers sk w m : words_size f w -> skipped sk (2 * cell) w m ->
    provides f (BiLSTM cell layers sk) (of_string "bilstm_and_word_features") m
| provides_bilstm2 cell layers sk ks : provides f (BiLSTM_CNN cell layers sk ks) (of_string "bilstm") (2 * cell)
| provides_bilstm_skip2 cell layers sk ks w m : words_size f w -> skipped sk (2 * cell) w m ->
    provides f (BiLSTM_CNN cell layers sk ks) (of_string "bilstm_and_word_features") m
| provides_cnn cell layers sk ks n : ends_with ks n -> provides f (BiLSTM_CNN cell layers sk ks) (of_string "bilstm_cnn") n
| provides_dilated ks sk n : ends_with ks n -> provides f (Dilated_CNN (Some ks) sk) (of_string "dilated_cnn") n
| provides_dilated_skip ks sk n w m : ends_with ks n -> words_size f w -> skipped sk n w m ->
    provides f (Dilated_CNN (Some ks) sk) (of_string "dilated_cnn_and_word_features") m.

(* tensors whose last dimensions are a and b can be combined *)
Definition combines (a b : Z) : Prop := a = b \/ a = 1 \/ b = 1.
Definition task_fits (f : features) (e : encoder) (t : task) : Prop :=
  match t with
  | Dense _ shared_name _ parts => parts <> [] /\ exists n, provides f e shared_name n
  | Combo shared_name _ embed dense kernels hw _ =>
      (exists n, provides f e shared_name n) /\
      (hw = true -> exists n, (kernels = [] /\ n = embed + dense \/ ends_with kernels n) /\ combines embed n)
  | Binary _ _ _ => False
  end.

(* two tasks with the same labels *)
Definition same_labels (t1 t2 : task) : Prop :=
  match t1, t2 with
  | Dense k1 _ _ _, Dense k2 _ _ _ => k1 = k2
  | Combo _ _ _ _ _ _ _, Combo _ _ _ _ _ _ _ => True
  | _, _ => False
  end.
(* a convolution of the encoder has the same place, size, number of channels and dilation as one of the task *)
Definition shares_kernel (e : encoder) (t : task) : Prop :=
  match e, t with
  | BiLSTM_CNN _ _ _ ks, Combo _ _ _ _ ks' _ _ => exists i k, nth_error ks i = Some k /\ nth_error ks' i = Some k
  | _, _ => False
  end.

Definition fits (f : features) (e : encoder) (ts : list task) : Prop :=
  features_fit f /\ encoder_fits f e /\ ts <> [] /\
  (forall t, In t ts -> task_fits f e t) /\
  (forall i j t1 t2, nth_error ts i = Some t1 -> nth_error ts j = Some t2 -> i <> j -> ~ same_labels t1 t2) /\
  (forall t, In t ts -> ~ shares_kernel e t).

(* names of variables *)
Definition weights (scope : str) : str := scope ++ of_string "/kernel".
Definition biases (scope : str) : str := scope ++ of_string "/bias".
(* the scopes of the two dense layers of the i-th part of labels *)
Definition labels_name (k : label_kind) : str :=
  match k with PosLabels => of_string "pos_labels" | LemmaLabels => of_string "lemma_labels" | RuleLabels => of_string "lemma_rule_labels" end.
Definition hidden_scope (k : label_kind) (i : nat) : str := print_Z (Z.of_nat i) ++ of_string "/dense_" ++ labels_name k.
Definition logits_scope (k : label_kind) (i : nat) : str := print_Z (Z.of_nat i) ++ of_string "/logits_" ++ labels_name k.
(* the scope of a direction of the i-th layer of the encoder *)
Definition rnn_layer (i : nat) (direction : string) : str :=
  of_string "bidirectional_rnn_-" ++ print_Z (Z.of_nat i) ++ of_string "/" ++ of_string direction ++ of_string "/lstm_cell".
Definition has_rnn (e : encoder) (cell layers : Z) : Prop :=
  match e with BiLSTM c l _ | BiLSTM_CNN c l _ _ => c = cell /\ l = layers | _ => False end.

(* the layer a task starts from *)
Definition reads (t : task) : str :=
  match t with Dense _ name _ _ => name | Combo name _ _ _ _ _ _ => name | Binary name _ _ => name end.

(* features of subwords by their names *)
Inductive subwords_of (f : features) : str -> subwords -> Prop :=
| sw_characters c : f_characters f = Some c -> subwords_of f (of_string "characters") c
| sw_bpe c : f_bpe f = Some c -> subwords_of f (of_string "bpe_subwords") c
| sw_morfessor c : f_morfessor f = Some c -> subwords_of f (of_string "morfessor_subwords") c.
(* the i-th of several convolutions over [first] channels takes [input] channels *)
Definition conv_input (kernels : list conv) (first : Z) (i : nat) (input : Z) : Prop :=
  i = 0%nat /\ input = first \/ exists p, nth_error kernels (i - 1) = Some p /\ i <> 0%nat /\ input = cv_count p.
Definition conv_variable (prefix : str) (i : nat) (k : conv) : str :=
  prefix ++ of_string "_" ++ print_Z (Z.of_nat i) ++ of_string "_s" ++ print_Z (cv_size k) ++
  of_string "_c" ++ print_Z (cv_count k) ++ of_string "_d" ++ print_Z (cv_dilation k).
Definition named_rnn_layer (name : str) (i : nat) (direction : string) : str :=
  of_string "bidirectional_rnn_" ++ name ++ of_string "-" ++ print_Z (Z.of_nat i) ++ of_string "/" ++ of_string direction ++ of_string "/lstm_cell".

(* a dense layer without a name, from m to n *)
Definition unnamed_layer (g : graph) (m n : Z) : Prop :=
  exists i, let scope := match i with O => of_string "dense" | S _ => of_string "dense_" ++ print_Z (Z.of_nat i) end in
    In (weights scope, [m; n]) (variables g) /\ In (biases scope, [n]) (variables g).
