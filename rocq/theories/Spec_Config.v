(* What the statements about configurations mean.  No proofs. *)
From Coq Require Import String Ascii ZArith NArith QArith Bool List.
From Verif Require Import Base Model_Datamodel Spec_Datamodel Model_Vocab Model_Lemma Model_Features Model_Builder Spec_Builder
  Model_Neural Spec_Neural Model_Network Model_Config.
Import ListNotations.
Open Scope Z_scope.

(* ---- values ---- *)

(* v is an array of numbers of the given shape *)
Fixpoint shaped (s : list Z) (v : nested) : Prop :=
  match s, v with
  | [], NInt _ => True
  | n :: s', NList l => zlen l = n /\ Forall (shaped s') l
  | _, _ => False
  end.

(* a placeholder of the given dimensions takes an array of the given shape *)
Definition admits (dims : list (option Z)) (s : list Z) : Prop :=
  Forall2 (fun d n => match d with Some m => n = m | None => True end) dims s.

(* all numbers of an array are in a range *)
Definition within (n : Z) (v : nested) : Prop := forall p z, at_path p v = Some (NInt z) -> 0 <= z < n.
(* the numbers at place i of the third dimension are in a range *)
Definition column_within (i : nat) (n : Z) (v : nested) : Prop :=
  forall a b z, at_path [a; b; i] v = Some (NInt z) -> 0 <= z < n.

(* a batch of sentences, and the length of its longest sentence *)
Definition batch (ss : list (list dtoken)) : obj := OSeq (map (fun s => OSeq (map OTok s)) ss).
Definition max_length (ss : list (list dtoken)) (m : Z) : Prop :=
  (exists s, In s ss /\ zlen s = m) /\ forall s, In s ss -> zlen s <= m.

(* sparsify draws random numbers for the scalars of the value *)
Definition draws_numbers (sparsify : obj -> str -> Q -> nested -> nested) : Prop :=
  forall o k rate v, exists draws rest, sparse rate v draws = Ok (sparsify o k rate v, rest).

(* ---- feeding ---- *)

(* a batch of n sentences, the longest of which has m tokens *)
Definition batch_shape (n m : Z) (s : list Z) : Prop := s = [n] \/ exists s', s = n :: m :: s'.

(* what is fed fits the graph: the values have shapes that their placeholders take, ids are numbers of rows, and a mask has
   a truth value for every class *)
Definition fits (g : graph) (n m : Z) (f : feed tensor fed) : Prop :=
  (forall t v, In (t, v) f ->
     match v with
     | FedNumber _ => t_dims t = []
     | FedValue y => exists s, batch_shape n m s /\ shaped s y /\ admits (t_dims t) s
     end) /\
  (forall t rows, In (t, rows) (g_lookups g) -> exists y, In (t, FedValue y) f /\ within rows y) /\
  (forall t classes, In (t, classes) (g_masks g) -> exists y, In (t, FedValue y) f /\ shaped [n; m; classes] y /\ within 2 y).

(* the gold labels are numbers of classes *)
Definition on_target (g : graph) (f : feed tensor fed) : Prop :=
  forall t i classes, In (t, i, classes) (g_targets g) -> exists y n m w, In (t, FedValue y) f /\ shaped [n; m; w] y /\
    match i with Some j => Z.of_nat j < w /\ column_within j classes y | None => within classes y end.

(* ---- configurations ---- *)

(* the subwords the words of a batch are split into *)
Definition used_subwords (fc : features_config) (tcs : list task_config) (c : subwords) : Prop :=
  fc_characters fc = Some c \/ fc_bpe fc = Some c \/ fc_morfessor fc = Some c
  \/ exists tc, In tc tcs /\ tc_kind tc = lemma_combo /\ tc_input tc = Some c.
Definition segmentable (fc : features_config) (tcs : list task_config) (ss : list (list dtoken)) : Prop :=
  forall c s x, used_subwords fc tcs c -> In s ss -> In x s -> exists syms, sw_segment c (dt_text x) = Ok syms.

(* the tokens of a batch for training are those of the training set; dictionaries of features, and label lengths *)
Definition training_batch (ds : list document) (ss : list (list dtoken)) : Prop :=
  forall s x, In s ss -> In x s -> In x (dataset_tokens ds) /\ token_wf (dt_tok x).
Definition sized_task (tc : task_config) : Prop :=
  tc_kind tc = lemma_combo -> forall th segment m, tc_output tc = Some (th, segment, m) -> 0 <= m.

(* the label a task is trained with *)
Definition label_of (k : task_kind) : str :=
  match k with
  | pos_dense _ => of_string "pos_labels"
  | lemma_dense => of_string "lemma_labels"
  | lemma_suffix | lemma_binary => of_string "lemma_rule_labels"
  | lemma_combo => of_string "output_subwords"
  end.

(* the vectors of the files of pretrained subwords for lemma_combo have the size of the configuration *)
Definition fitting_files {V} (to_float : str -> result V) (zero : V) (tcs : list task_config) : Prop :=
  forall tc c lines, In tc tcs -> tc_kind tc = lemma_combo -> tc_input tc = Some c -> sw_source c = Pretrained lines ->
    exists w2i n rows, build_embeddings V to_float zero 4 lines = Ok (w2i, (n, Some (sw_embed_size c)), rows).

(* the files of vectors of a configuration: the name of the matrix, the number of the first word, and the lines *)
Definition subwords_file (p : str) (c : option subwords) (name : str) (first : Z) (lines : list str) : Prop :=
  p = name /\ first = 4 /\ exists c', c = Some c' /\ sw_source c' = Pretrained lines.
Definition configured_file (fc : features_config) (tcs : list task_config) (p : str) (first : Z) (lines : list str) : Prop :=
  (p = of_string "word_embeddings" /\ first = 2 /\ exists lowercase, fc_words fc = Some (lines, lowercase)) \/
  subwords_file p (fc_characters fc) (of_string "characters") first lines \/
  subwords_file p (fc_bpe fc) (of_string "bpe_subwords") first lines \/
  subwords_file p (fc_morfessor fc) (of_string "morfessor_subwords") first lines \/
  exists tc, In tc tcs /\ tc_kind tc = lemma_combo /\ subwords_file p (tc_input tc) (of_string "input_subwords") first lines.

(* ---- complete configurations ---- *)

(* gold labels are learned: all of them, or every column *)
Definition learned (g : graph) (t : tensor) : Prop :=
  exists w, t_dims t = [None; None; Some w] /\
    ((exists n, In (t, None, n) (g_targets g)) \/
     forall j, 0 <= j < w -> exists n, In (t, Some (Z.to_nat j), n) (g_targets g)).

(* the skip connection can be made *)
Definition skips (sk : skip) : Prop := match sk with SkipNone | SkipConcat => True | SkipSum same => same = true | SkipOther => False end.
Definition shared_kind_ok (k : shared_kind) : Prop :=
  match k with
  | WE_charCNN => True
  | BiLSTM layers sk | BiLSTM_CNN layers sk => 0 < layers /\ skips sk
  | Dilated_CNN kernels sk => kernels = true /\ skips sk
  end.

(* the layers of the shared part *)
Definition shared_layer (k : shared_kind) (fc : features_config) (x : str) : Prop :=
  x = of_string "word_features" \/
  (x = of_string "word_embedding" /\ fc_words fc <> None) \/
  (x = of_string "trained_embedding" /\ fc_trained fc <> None) \/
  (x = of_string "characters" /\ fc_characters fc <> None) \/
  (x = of_string "bpe_subwords" /\ fc_bpe fc <> None) \/
  (x = of_string "morfessor_subwords" /\ fc_morfessor fc <> None) \/
  match k with
  | WE_charCNN => False
  | BiLSTM _ sk => x = of_string "bilstm" \/ (x = of_string "bilstm_and_word_features" /\ sk <> SkipNone)
  | BiLSTM_CNN _ sk => x = of_string "bilstm" \/ x = of_string "bilstm_cnn" \/ (x = of_string "bilstm_and_word_features" /\ sk <> SkipNone)
  | Dilated_CNN _ sk => x = of_string "dilated_cnn" \/ (x = of_string "dilated_cnn_and_word_features" /\ sk <> SkipNone)
  end.

Section Complete.
Context {V : Type} (to_float : str -> result V) (zero : V) (lower : str -> str) (stack_dict : result unit).
Context (k : shared_kind) (fc : features_config) (ds : list document).

(* a file of vectors that have at least one number *)
Definition vectors (first : Z) (lines : list str) : Prop :=
  exists w2i n size rows, build_embeddings V to_float zero first lines = Ok (w2i, (n, Some size), rows) /\ 0 < size.
(* the words of the training set can be segmented *)
Definition segments (segment : str -> result (list str)) : Prop :=
  forall x, In x (dataset_tokens ds) -> exists syms, segment (dt_text x) = Ok syms.
Definition segments_lemmas (segment : str -> result (list str)) : Prop :=
  forall x, In x (dataset_tokens ds) -> exists l syms, tlemma (dt_tok x) = Some l /\ segment l = Ok syms.

Definition shared_complete : Prop :=
  (fc_words fc <> None \/ fc_trained fc <> None \/ fc_characters fc <> None \/ fc_bpe fc <> None \/ fc_morfessor fc <> None) /\
  (forall lines lowercase, fc_words fc = Some (lines, lowercase) -> vectors 2 lines) /\
  (forall threshold lowercase size, fc_trained fc = Some (threshold, lowercase, size) -> 0 < size) /\
  (forall c, fc_characters fc = Some c \/ fc_bpe fc = Some c \/ fc_morfessor fc = Some c ->
     match sw_source c with Learned _ => segments (sw_segment c) /\ 0 < sw_embed_size c | Pretrained lines => vectors 4 lines end).

(* there is a weight for every part of the labels *)
Definition weighted (tc : task_config) (parts : list str) : Prop :=
  match tc_weights tc with
  | None => stack_dict = Ok tt
  | Some w => forall p, In p parts -> In p w \/ In (of_string "default") w
  end.

Definition task_complete (tc : task_config) : Prop :=
  shared_layer k fc (tc_shared_name tc) /\
  match tc_kind tc with
  | pos_dense st => exists b, build_pos_labels st ds = Ok b /\ weighted tc (dict_keys (pl_lens b))
  | lemma_dense => dataset_tokens ds <> [] /\ weighted tc [of_string "LEMMA"]
  | lemma_suffix => tc_rules tc <> None /\ dataset_tokens ds <> [] /\ (forall x, In x (dataset_tokens ds) -> tlemma (dt_tok x) <> None) /\ weighted tc [of_string "LEMMA"]
  | lemma_combo =>
      exists c th seg m w, tc_input tc = Some c /\ tc_output tc = Some (th, seg, m) /\ tc_weights tc = Some w /\ In (of_string "LEMMA") w /\
        0 < sw_embed_size c /\ segments_lemmas seg /\
        match sw_source c with Learned _ => segments (sw_segment c) | Pretrained lines => exists r, build_embeddings V to_float zero 4 lines = Ok r end
  | lemma_binary => False
  end.
End Complete.
