(* Model of what a configuration of NeuralTaggerTrainer sets up: the feature builders of
   babylondigger/features/extractors.py, the providers of babylondigger/features/provider.py, the network builders of
   babylondigger/neural/tagger/shared_builders.py, task_builders.py and babylondigger/neural/utils.py as far as they
   create placeholders and matrices, network_provider.py, and lines 95-107 of
   babylondigger/neural/tagger/neural_tagger.py.  Definitions only.

   Simplifications: the configuration has all entries that are read, apart from the optional ones; a file of embeddings is
   given by its lines and a segmenter by its segment method; layers are tensors about which nothing is known. *)
From Coq Require Import String Ascii ZArith NArith QArith Bool List.
From Verif Require Import Base Model_Datamodel Model_Vocab Model_Lemma Model_Features Model_Builder Model_Neural Model_Network.
Import ListNotations.
Open Scope Z_scope.

(* ------------------------------------------------------------------ *)
(* Configuration                                                       *)

(* with or without "embedding_path" *)
Inductive source := Learned (min_frequency : Z) | Pretrained (lines : list str).

(* features_config['word_characters'], ['bpe_subwords'], ['morfessor_subwords'] or ['input_subwords'] *)
Record subwords := mkSubwords {
  sw_source : source;
  sw_segment : str -> result (list str);
  sw_embed_size : Z
}.

(* features_config of the shared part; None: no such entry.  A word embedding has the lines of its file and lowercase, a
   trained one min_frequency, lowercase and size. *)
Record features_config := mkFeatures {
  fc_words : option (list str * bool);
  fc_trained : option (Z * bool * Z);
  fc_characters : option subwords;
  fc_bpe : option subwords;
  fc_morfessor : option subwords
}.

(* skip_connection: absent, 'sum' with whether the two tensors have the same shape, 'concat', or something else *)
Inductive skip := SkipNone | SkipSum (same_shape : bool) | SkipConcat | SkipOther.

(* the keys of _shared_builders, network_provider.py:6-12, with the entries of their configuration; kernels tells whether
   there is an entry cnn_kernels *)
Inductive shared_kind :=
| WE_charCNN
| BiLSTM (layers : Z) (sk : skip)
| BiLSTM_CNN (layers : Z) (sk : skip)
| Dilated_CNN (kernels : bool) (sk : skip).

(* the keys of _task_builders, network_provider.py:14-21 *)
Inductive task_kind := pos_dense (st : strategy) | lemma_dense | lemma_suffix | lemma_combo | lemma_binary.

(* config and features_config of a task: the names in loss_weights, if there is such an entry;
   lemma_suffix_transformation with rules_threshold; input_subwords; output_subwords with min_frequency, segmenter and
   max_word_length *)
Record task_config := mkTaskConfig {
  tc_kind : task_kind;
  tc_shared_name : str;
  tc_weights : option (list str);
  tc_rules : option Z;
  tc_input : option subwords;
  tc_output : option (Z * (str -> result (list str)) * Z)
}.

Definition n_lengths : str := of_string "sentences_lengths".
Definition n_words : str := of_string "words".
Definition n_word_embeddings : str := of_string "word_embeddings".
Definition n_word_embedding : str := of_string "word_embedding".
Definition n_trained_words : str := of_string "trained_words".
Definition n_trained_embedding : str := of_string "trained_embedding".
Definition n_characters : str := of_string "characters".
Definition n_bpe : str := of_string "bpe_subwords".
Definition n_morfessor : str := of_string "morfessor_subwords".
Definition n_word_features : str := of_string "word_features".
Definition n_mask : str := of_string "sentence_mask".
Definition n_norm : str := of_string "sentence_norm".
Definition n_bilstm : str := of_string "bilstm".
Definition n_bilstm_skip : str := of_string "bilstm_and_word_features".
Definition n_bilstm_cnn : str := of_string "bilstm_cnn".
Definition n_dilated : str := of_string "dilated_cnn".
Definition n_dilated_skip : str := of_string "dilated_cnn_and_word_features".
Definition n_pos_labels : str := of_string "pos_labels".
Definition n_lemma_labels : str := of_string "lemma_labels".
Definition n_rule_labels : str := of_string "lemma_rule_labels".
Definition n_applicable : str := of_string "applicable_rules".
Definition n_output : str := of_string "output_subwords".
Definition n_input : str := of_string "input_subwords".
Definition n_LEMMA : str := of_string "LEMMA".
Definition n_default : str := of_string "default".

(* ------------------------------------------------------------------ *)
(* Feature builders and providers                                      *)

(* SentenceLengthFeatureExtractorBuilder, WordEmbeddingFeatureExtractorBuilder, TrainableEmbeddingsExtractorBuilder,
   SubwordEmbeddingFeatureExtractorBuilder, TokenCharactersFeatureExtractorBuilder and
   ApplicableSuffixTransformationsBuilder: extractors.py:23-24, 53-57, 119-122, 140-145, 172-176, 503-505 *)
Inductive feature_builder :=
| FBLength (name : str)
| FBWords (name init : str) (lines : list str) (lowercase : bool)
| FBTrained (name : str) (threshold : Z) (lowercase : bool)
| FBPretrained (name init : str) (lines : list str) (segment : str -> result (list str))
| FBSubwords (name : str) (threshold : Z) (segment : str -> result (list str))
| FBApplicable (name : str) (threshold : Z).

(* type(builder) *)
Definition feature_class (fb : feature_builder) : Z :=
  match fb with
  | FBLength _ => 0 | FBWords _ _ _ _ => 1 | FBTrained _ _ _ => 2 | FBPretrained _ _ _ _ => 3 | FBSubwords _ _ _ => 4
  | FBApplicable _ _ => 5
  end.

(* wrap_sentence_level, builder.py:412-421 *)
Definition wrap_sentence_level (fb : feature_builder) : builder feature_builder := BPad _ (BIter _ (BBasic _ fb)).
(* wrap_word_level, builder.py:424-433 *)
Definition wrap_words (sparse : bool) (fb : feature_builder) : builder feature_builder :=
  BPad _ (BIter _ (BIter _ (if sparse then BSparse _ (BBasic _ fb) else BBasic _ fb))).

(* a provider, by what feature_extractor_builder() and labels_extractor_builder() return; provider.py:41-45 *)
Record provider := mkProvider {
  pr_features : builder feature_builder;
  pr_labels : builder label_builder
}.
Definition features_only (b : builder feature_builder) : provider := mkProvider b (BEmpty _).
Definition labels_only (lb : label_builder) : provider := mkProvider (BEmpty _) (wrap_word_level lb).

(* utils.py:90-93 and task_builders.py:136-141 with provider.py:95-121 *)
Definition subwords_builder (name : str) (c : subwords) : feature_builder :=
  match sw_source c with
  | Learned threshold => FBSubwords name threshold (sw_segment c)
  | Pretrained lines => FBPretrained name name lines (sw_segment c)
  end.
Definition subwords_provider (name : str) (c : subwords) : provider := features_only (wrap_words true (subwords_builder name c)).

(* the providers of _build_features, shared_builders.py:16-78, with provider.py:50-92 *)
Definition given_part {A B} (o : option A) (f : A -> B) : list B := match o with Some a => [f a] | None => [] end.
Definition shared_providers (fc : features_config) : list provider :=
  [features_only (wrap_sentence_level (FBLength n_lengths))]
  ++ given_part (fc_words fc) (fun c => features_only (wrap_words true (FBWords n_words n_word_embeddings (fst c) (snd c))))
  ++ given_part (fc_trained fc) (fun c => features_only (wrap_words true (FBTrained n_trained_words (fst (fst c)) (snd (fst c)))))
  ++ given_part (fc_characters fc) (subwords_provider n_characters)
  ++ given_part (fc_bpe fc) (subwords_provider n_bpe)
  ++ given_part (fc_morfessor fc) (subwords_provider n_morfessor).

Section Features.
(* V: floats, with float() and 0; str.lower *)
Variables (V : Type) (to_float : str -> result V) (zero : V) (lower : str -> str).

Definition mask_value (m : list bool) : nested := NList (map (fun b : bool => NInt (if b then 1 else 0)) m).

(* build and get_features of the extractors, extractors.py:26-36, 59-65 and 97-99, 124-132, 147-157 and 198-202, 178-188,
   507-526 *)
Definition feature_values (ds : list document) (fb : feature_builder) (o : obj) : result (dict nested) :=
  match fb, o with
  | FBLength name, OSeq l => Ok [(name, NInt (zlen l))]
  | FBWords name _ lines lc, OTok x =>
      do r <- build_embeddings V to_float zero 2 lines;
      Ok [(name, NInt (word_id lower (fst (fst r)) lc (dt_text x)))]
  | FBTrained name threshold lc, OTok x =>
      Ok [(name, NInt (word_id lower (build_trainable threshold ds) lc (dt_text x)))]
  | FBPretrained name _ lines segment, OTok x =>
      do r <- build_embeddings V to_float zero 4 lines;
      do ids <- subword_ids segment (fst (fst r)) (dt_text x);
      Ok [(name, NList (map NInt ids))]
  | FBSubwords name threshold segment, OTok x =>
      do v <- build_subwords segment threshold ds;
      do ids <- subword_ids segment v (dt_text x);
      Ok [(name, NList (map NInt ids))]
  | FBApplicable name threshold, OTok x =>
      do rules <- build_rules lower threshold ds;
      do m <- mask_extractor lower rules x;
      Ok [(name, mask_value m)]
  | _, _ => Err EAttr
  end.

(* a shape: a list of sizes, the last of which is None if a file of embeddings is empty, or a dictionary of sizes *)
Inductive shape := ShList (l : list (option Z)) | ShParts (d : dict Z).

(* shapes() of the initializers, builder.py:338-346 with extractors.py:65, 105, 132, 157, 188, 512 *)
Definition feature_shapes (ds : list document) (fb : feature_builder) : result (dict shape) :=
  match fb with
  | FBLength _ => Ok []
  | FBWords _ init lines _ =>
      do r <- build_embeddings V to_float zero 2 lines;
      Ok [(init, ShList [Some (fst (snd (fst r))); snd (snd (fst r))])]
  | FBTrained name threshold _ => Ok [(name, ShList [Some (zlen (build_trainable threshold ds) + 2)])]
  | FBPretrained _ init lines _ =>
      do r <- build_embeddings V to_float zero 4 lines;
      Ok [(init, ShList [Some (fst (snd (fst r))); snd (snd (fst r))])]
  | FBSubwords name threshold segment =>
      do v <- build_subwords segment threshold ds;
      Ok [(name, ShList [Some (zlen v + 4)])]
  | FBApplicable name threshold =>
      do rules <- build_rules lower threshold ds;
      Ok [(name, ShList [Some (zlen (snd rules))])]
  end.

(* the same of the labels, extractors.py:361, 408, 469, 549 *)
Definition label_shapes (ds : list document) (lb : label_builder) : result (dict shape) :=
  match lb with
  | LBPos name st => do b <- build_pos_labels st ds; Ok [(name, ShParts (pl_lens b))]
  | LBLemma name => do v <- build_lemmas ds; Ok [(name, ShParts [(n_LEMMA, zlen (snd v))])]
  | LBRule name threshold => do v <- build_rules lower threshold ds; Ok [(name, ShParts [(n_LEMMA, zlen (snd v))])]
  | LBChars name threshold segment _ => do v <- build_lemma_chars segment threshold ds; Ok [(name, ShList [Some (zlen v + 4)])]
  end.

(* initial_values(), builder.py:330-354 and extractors.py:111-115.  A word without number does not occur. *)
Definition numbered_rows (rows : list (option Z * list V)) : result (list (Z * list V)) :=
  mapM (fun rv => do r <- of_option EType (fst rv); Ok (r, snd rv)) rows.
Definition feature_initials (fb : feature_builder) : result (dict (list (Z * list V))) :=
  match fb with
  | FBWords _ init lines _ =>
      do r <- build_embeddings V to_float zero 2 lines;
      do rows <- snd r; do l <- numbered_rows rows; Ok [(init, l)]
  | FBPretrained _ init lines _ =>
      do r <- build_embeddings V to_float zero 4 lines;
      do rows <- snd r; do l <- numbered_rows rows; Ok [(init, l)]
  | _ => Ok []
  end.

(* ------------------------------------------------------------------ *)
(* Graphs                                                              *)

(* a tensor; of a placeholder, the sizes of its dimensions are known: None is any size *)
Record tensor := mkTensor { t_id : nat; t_dims : list (option Z) }.
Definition tensor_eqb (a b : tensor) : bool :=
  Nat.eqb (t_id a) (t_id b) && list_eqb (option_eqb Z.eqb) (t_dims a) (t_dims b).

(* the graph under construction: the number of its tensors, and what its tensors have to be:
   - ids that are looked up in a matrix with a number of rows (tf.nn.embedding_lookup),
   - updates of a matrix with a number of rows and columns (tf.scatter_update),
   - masks for logits of a number of classes (tf.where),
   - gold labels for logits of a number of classes; the place of the labels in the last dimension, or None for all *)
Record graph := mkGraph {
  g_next : nat;
  g_lookups : list (tensor * Z);
  g_updates : list (tensor * (Z * Z));
  g_masks : list (tensor * Z);
  g_targets : list (tensor * option nat * Z)
}.
Definition empty_graph : graph := mkGraph 0 [] [] [] [].

(* tf.placeholder *)
Definition placeholder (dims : list (option Z)) (g : graph) : graph * tensor :=
  (mkGraph (S (g_next g)) (g_lookups g) (g_updates g) (g_masks g) (g_targets g), mkTensor (g_next g) dims).
(* any other operation *)
Definition layer (g : graph) : graph * tensor := placeholder [] g.

(* embedding_layer, utils.py:13-19: 3 / shape[1], a matrix and a look-up *)
Definition embedding_layer (ids : tensor) (rows cols : Z) (g : graph) : result (graph * tensor) :=
  do _ <- raise_if (cols =? 0) EZeroDiv;
  do _ <- raise_if (cols <? 0) EValue;
  Ok (layer (mkGraph (g_next g) ((ids, rows) :: g_lookups g) (g_updates g) (g_masks g) (g_targets g))).

(* matrix_initializer, utils.py:158-162 *)
Definition matrix_initializer (name : str) (rows cols : Z) (g : graph) : graph * initializer tensor nat :=
  let (g1, indices) := placeholder [None] g in
  let (g2, values) := placeholder [None; Some cols] g1 in
  let (g3, up) := layer g2 in
  (mkGraph (g_next g3) (g_lookups g3) ((up, (rows, cols)) :: g_updates g3) (g_masks g3) (g_targets g3),
   IMatrix name indices values up).

(* shapes[name], shapes[name][i] *)
Definition shape_list (shapes : dict shape) (name : str) : result (list (option Z)) :=
  do s <- of_option EKey (dict_get shapes name);
  match s with ShList l => Ok l | ShParts _ => Err EKey end.
Definition dim (l : list (option Z)) (i : Z) : result Z := do d <- py_index l i; of_option EType d.
Definition shape_parts (shapes : dict shape) (name : str) : result (dict Z) :=
  do s <- of_option EKey (dict_get shapes name);
  match s with ShParts d => Ok d | ShList _ => Err EType end.

(* ------------------------------------------------------------------ *)
(* The shared part                                                     *)

(* the input builders, shared_builders.py:17, 25, 47 and utils.py:95-96 *)
Definition shared_placeholders (fc : features_config) : list (str * list (option Z)) :=
  [(n_lengths, [None])]
  ++ given_part (fc_words fc) (fun _ => (n_words, [None; None]))
  ++ given_part (fc_trained fc) (fun _ => (n_trained_words, [None; None]))
  ++ given_part (fc_characters fc) (fun _ => (n_characters, [None; None; None]))
  ++ given_part (fc_bpe fc) (fun _ => (n_bpe, [None; None; None]))
  ++ given_part (fc_morfessor fc) (fun _ => (n_morfessor, [None; None; None])).

(* inputs, shared_builders.py:83-86 *)
Fixpoint placeholders_of (l : list (str * list (option Z))) (g : graph) : graph * dict tensor :=
  match l with
  | [] => (g, [])
  | (name, dims) :: l' =>
      let (g1, t) := placeholder dims g in
      let (g2, d) := placeholders_of l' g1 in
      (g2, (name, t) :: d)
  end.

(* a feature builder: from the shapes and the inputs to a named tensor and initializers *)
Definition step := dict shape -> dict tensor -> graph -> result (graph * (str * tensor) * list (initializer tensor nat)).

(* shared_builders.py:27-40 *)
Definition words_step : step := fun shapes inputs g =>
  do ids <- of_option EKey (dict_get inputs n_words);
  do sh <- shape_list shapes n_word_embeddings;
  do rows <- dim sh 0; do cols <- dim sh 1;
  do ge <- embedding_layer ids rows cols g;
  let (g2, i) := matrix_initializer n_word_embeddings rows cols (fst ge) in
  Ok (g2, (n_word_embedding, snd ge), [i]).
(* shared_builders.py:49-54 *)
Definition trained_step (size : Z) : step := fun shapes inputs g =>
  do sh <- shape_list shapes n_trained_words;
  do rows <- dim sh 0;
  do ids <- of_option EKey (dict_get inputs n_trained_words);
  do ge <- embedding_layer ids rows size g;
  Ok (fst ge, (n_trained_embedding, snd ge), []).
(* utils.py:98-116 *)
Definition subwords_step (name : str) (c : subwords) : step := fun shapes inputs g =>
  do ids <- of_option EKey (dict_get inputs name);
  do sh <- shape_list shapes name;
  do rows <- dim sh 0;
  match sw_source c with
  | Learned _ =>
      do ge <- embedding_layer ids rows (sw_embed_size c) g;
      let (g2, t) := layer (fst ge) in
      Ok (g2, (name, t), [])
  | Pretrained _ =>
      do cols <- dim sh 1;
      do ge <- embedding_layer ids rows cols g;
      let (g2, i) := matrix_initializer name rows cols (fst ge) in
      let (g3, t) := layer g2 in
      Ok (g3, (name, t), [i])
  end.

(* the feature builders of _build_features *)
Definition shared_steps (fc : features_config) : list step :=
  given_part (fc_words fc) (fun _ => words_step)
  ++ given_part (fc_trained fc) (fun c => trained_step (snd c))
  ++ given_part (fc_characters fc) (subwords_step n_characters)
  ++ given_part (fc_bpe fc) (subwords_step n_bpe)
  ++ given_part (fc_morfessor fc) (subwords_step n_morfessor).

(* build, shared_builders.py:88-110.  tf.concat of an empty list is a ValueError. *)
Definition run_step (shapes : dict shape) (inputs : dict tensor)
           (s : graph * dict tensor * list (initializer tensor nat)) (f : step)
  : result (graph * dict tensor * list (initializer tensor nat)) :=
  let '(g, result, inits) := s in
  do r <- f shapes inputs g;
  let '(g', nt, is) := r in
  Ok (g', dict_set result (fst nt) (snd nt), inits ++ is).
Definition shared_layers (fc : features_config) (shapes : dict shape) (inputs : dict tensor) (g : graph)
  : result (graph * dict tensor * list (initializer tensor nat)) :=
  do s <- foldM (run_step shapes inputs) (g, [], []) (shared_steps fc);
  let '(g1, result, inits) := s in
  do _ <- of_option EKey (dict_get inputs n_lengths);
  let (g2, mask) := layer g1 in
  let (g3, norm) := layer g2 in
  do _ <- raise_if (match shared_steps fc with [] => true | _ => false end) EValue;
  let (g4, words) := layer g3 in
  Ok (g4, dict_update result [(n_word_features, words); (n_mask, mask); (n_norm, norm)], inits).

(* result[name] = a new layer *)
Definition add_layer (name : str) (s : graph * dict tensor * list (initializer tensor nat))
  : graph * dict tensor * list (initializer tensor nat) :=
  let '(g, result, inits) := s in
  let (g', t) := layer g in (g', dict_set result name t, inits).
(* shared_builders.py:130-148, 167-184 *)
Definition add_skip (name : str) (sk : skip) (s : graph * dict tensor * list (initializer tensor nat))
  : result (graph * dict tensor * list (initializer tensor nat)) :=
  match sk with
  | SkipNone => Ok s
  | SkipSum same => do _ <- raise_if (negb same) EValue; Ok (add_layer name s)
  | SkipConcat => Ok (add_layer name s)
  | SkipOther => Err EValue
  end.
(* build of the shared builders, shared_builders.py:88-110, 120-148, 157-184, 192-205 *)
Definition shared_build (k : shared_kind) (fc : features_config) (shapes : dict shape) (inputs : dict tensor) (g : graph)
  : result (graph * dict tensor * list (initializer tensor nat)) :=
  do s <- shared_layers fc shapes inputs g;
  match k with
  | WE_charCNN => Ok s
  | BiLSTM layers sk => do _ <- raise_if (layers <=? 0) EValue; add_skip n_bilstm_skip sk (add_layer n_bilstm s)
  | BiLSTM_CNN layers sk =>
      do _ <- raise_if (layers <=? 0) EValue;
      do s' <- add_skip n_bilstm_skip sk (add_layer n_bilstm s);
      Ok (add_layer n_bilstm_cnn s')
  | Dilated_CNN kernels sk => do _ <- raise_if (negb kernels) EValue; add_skip n_dilated_skip sk (add_layer n_dilated s)
  end.

Definition make_shared (k : shared_kind) (fc : features_config) : shared tensor nat graph (dict shape) provider :=
  mkShared (shared_providers fc)
           (fun _ g => Ok (placeholders_of (shared_placeholders fc) g))
           (fun shapes inputs _ g => do s <- shared_build k fc shapes inputs g;
                                     let '(g', result, inits) := s in Ok (g', (result, inits))).

(* ------------------------------------------------------------------ *)
(* Tasks                                                               *)

(* whether tf.stack accepts a dictionary of tensors, task_builders.py:55 *)
Variable stack_dict : result unit.

Definition add_mask (t : tensor) (n : Z) (g : graph) : graph :=
  mkGraph (g_next g) (g_lookups g) (g_updates g) ((t, n) :: g_masks g) (g_targets g).
Definition add_target (t : tensor) (i : option nat) (n : Z) (g : graph) : graph :=
  mkGraph (g_next g) (g_lookups g) (g_updates g) (g_masks g) ((t, i, n) :: g_targets g).

(* the tensors of the shared part a task reads, task_builders.py:37, 40, 151-152, 237, 245; tf.layers.dense does not take the
   mask, whose last dimension is not defined, or the norm, which is a number *)
Definition read_shared (shared_name : str) (sh : dict tensor) : result unit :=
  do _ <- of_option EKey (dict_get sh shared_name);
  do _ <- raise_if (str_eqb shared_name n_mask || str_eqb shared_name n_norm) EValue;
  do _ <- of_option EKey (dict_get sh n_mask);
  do _ <- of_option EKey (dict_get sh n_norm);
  Ok tt.

(* name in loss_weights *)
Definition has_weight (w : list str) (name : str) : bool := existsb (str_eqb name) w.
(* _sum_losses, task_builders.py:53-61 *)
Definition sum_weighted (weights : option (list str)) (parts : list str) : result unit :=
  match weights with
  | None => stack_dict
  | Some w => raise_if (negb (forallb (fun p => has_weight w p || has_weight w n_default) parts)) EKey
  end.

(* the loop of DenseTaskNetworkBuilder.build, task_builders.py:33-41, with the mask of LemmaSuffixTaskNetworkBuilder, 107-112 *)
Definition dense_part (masked : bool) (shared_name : str) (inputs sh : dict tensor) (labels : tensor) (g : graph)
           (ip : Z * (str * Z)) : result graph :=
  let n := snd (snd ip) in
  do _ <- read_shared shared_name sh;
  do g1 <- (if masked then do m <- of_option EKey (dict_get inputs n_applicable); Ok (add_mask m n g) else Ok g);
  Ok (add_target labels (Some (Z.to_nat (fst ip))) n g1).

(* DenseTaskNetworkBuilder.build, task_builders.py:28-51 *)
Definition dense_build (name : str) (masked : bool) (shared_name : str) (weights : option (list str))
           (shapes : dict shape) (inputs sh gold : dict tensor) (g : graph)
  : result (graph * (dict tensor * tensor * option (list (initializer tensor nat)))) :=
  do labels <- of_option EKey (dict_get gold name);
  do parts <- shape_parts shapes name;
  do g1 <- foldM (dense_part masked shared_name inputs sh labels) g (enumerate parts);
  do _ <- sum_weighted weights (dict_keys parts);
  let (g2, loss) := layer g1 in
  let (g3, output) := layer g2 in
  Ok (g3, ([(name, output)], loss, Some [])).

(* gold, task_builders.py:20-23, 223-226 *)
Definition dense_gold (name : str) (shapes : dict shape) (g : graph) : result (graph * dict tensor) :=
  do parts <- shape_parts shapes name;
  let (g1, t) := placeholder [None; None; Some (zlen parts)] g in
  Ok (g1, [(name, t)]).
(* inputs, task_builders.py:102-105, 231-234 *)
Definition rules_inputs (shapes : dict shape) (g : graph) : result (graph * dict tensor) :=
  do sh <- shape_list shapes n_applicable;
  do n <- dim sh 0;
  let (g1, t) := placeholder [None; None; Some n] g in
  Ok (g1, [(n_applicable, t)]).

(* LemmaCOMBOTaskNetworkBuilder.build, task_builders.py:149-160, 165-166, 187-192, 201-204 *)
Definition combo_build (shared_name : str) (c : subwords) (shapes : dict shape) (inputs sh gold : dict tensor) (g : graph)
  : result (graph * (dict tensor * tensor * option (list (initializer tensor nat)))) :=
  do _ <- read_shared shared_name sh;
  do ids <- of_option EKey (dict_get inputs n_input);
  do ish <- shape_list shapes n_input;
  do rows <- dim ish 0;
  do ge <- embedding_layer ids rows (sw_embed_size c) g;
  let (g2, inits) := match sw_source c with
                     | Learned _ => (fst ge, [])
                     | Pretrained _ => let (g2, i) := matrix_initializer n_input rows (sw_embed_size c) (fst ge) in (g2, [i])
                     end in
  do osh <- shape_list shapes n_output;
  do n <- dim osh 0;
  do labels <- of_option EKey (dict_get gold n_output);
  let (g3, loss) := layer (add_target labels None n g2) in
  let (g4, output) := layer g3 in
  Ok (g4, ([(n_output, output)], loss, Some inits)).

(* LemmaSuffixBinaryTaskNetworkBuilder.build, task_builders.py:236-246, 248-263; initializers() is the inherited one,
   network.py:98-99, which returns None *)
Definition binary_build (shared_name : str) (shapes : dict shape) (inputs sh gold : dict tensor) (g : graph)
  : result (graph * (dict tensor * tensor * option (list (initializer tensor nat)))) :=
  do _ <- read_shared shared_name sh;
  do parts <- shape_parts shapes n_rule_labels;
  do n <- of_option EKey (dict_get parts n_LEMMA);
  do m <- of_option EKey (dict_get inputs n_applicable);
  do labels <- of_option EKey (dict_get gold n_rule_labels);
  let (g3, loss) := layer (add_target labels (Some 0%nat) n (add_mask m n g)) in
  let (g4, output) := layer g3 in
  Ok (g4, ([(n_rule_labels, output)], loss, None)).

(* the constructors and methods of the task builders, task_builders.py:77-112, 115-147, 216-234 *)
Definition no_inputs (shapes : dict shape) (g : graph) : result (graph * dict tensor) := Ok (g, []).
Definition make_task (tc : task_config) : result (task tensor nat graph (dict shape) provider) :=
  let dense name providers inputs masked :=
    mkTask providers inputs (dense_gold name)
           (fun shapes i sh gold _ g => dense_build name masked (tc_shared_name tc) (tc_weights tc) shapes i sh gold g) in
  match tc_kind tc with
  | pos_dense st => Ok (dense n_pos_labels [labels_only (LBPos n_pos_labels st)] no_inputs false)
  | lemma_dense => Ok (dense n_lemma_labels [labels_only (LBLemma n_lemma_labels)] no_inputs false)
  | lemma_suffix =>
      do threshold <- of_option EKey (tc_rules tc);
      Ok (dense n_rule_labels
                [mkProvider (wrap_words false (FBApplicable n_applicable threshold)) (wrap_word_level (LBRule n_rule_labels threshold))]
                rules_inputs true)
  | lemma_combo =>
      do c <- of_option EKey (tc_input tc);
      do out <- of_option EKey (tc_output tc);
      do w <- of_option EType (tc_weights tc);
      do _ <- raise_if (negb (has_weight w n_LEMMA)) EKey;
      let '(threshold, segment, max_len) := out in
      Ok (mkTask [labels_only (LBChars n_output threshold segment max_len); subwords_provider n_input c]
                 (fun _ g => let (g1, t) := placeholder [None; None; None] g in Ok (g1, [(n_input, t)]))
                 (fun _ g => let (g1, t) := placeholder [None; None; Some max_len] g in Ok (g1, [(n_output, t)]))
                 (fun shapes i sh gold _ g => combo_build (tc_shared_name tc) c shapes i sh gold g))
  | lemma_binary =>
      do threshold <- of_option EKey (tc_rules tc);
      Ok (mkTask [mkProvider (wrap_words false (FBApplicable n_applicable threshold)) (wrap_word_level (LBRule n_rule_labels threshold))]
                 rules_inputs (dense_gold n_rule_labels)
                 (fun shapes i sh gold _ g => binary_build (tc_shared_name tc) shapes i sh gold g))
  end.

(* ------------------------------------------------------------------ *)
(* Setting up                                                          *)

(* network.py:135-138, 162-165, 169, 177-188; [known] tells whether the optimizer type is one of _optimizers *)
Definition hyper_placeholders (g : graph) : graph * (tensor * tensor) :=
  let (g1, dropout) := placeholder [] g in
  let (g2, lr) := placeholder [] g1 in (g2, (dropout, lr)).
Definition sum_losses (losses : list tensor) (g : graph) : graph * tensor := layer g.
Definition operation (g : graph) : graph * nat := (fst (layer g), g_next g).
Definition optimize (known : bool) (loss lr : tensor) (g : graph) : result (graph * nat) :=
  do _ <- raise_if (negb known) EValue; Ok (operation g).

Record set_up := mkSetUp {
  su_features : builder feature_builder;
  su_labels : builder label_builder;
  su_shapes : dict shape;
  su_network : network tensor nat;
  su_graph : graph
}.

(* neural_tagger.py:96-102 with get_nn_builder, network_provider.py:24-27, and FeatureExtractorBuilderProvider, provider.py:15-31.
   Simplification: what building the extractors and interpreters raises is raised by building their initializers. *)
Definition train_set_up (known : bool) (k : shared_kind) (fc : features_config) (tcs : list task_config) (ds : list document)
  : result set_up :=
  do tasks <- mapM make_task tcs;
  let (ps, sb) := feature_providers (make_shared k fc) tasks in
  do fb <- merge_builders _ feature_class (map pr_features ps);
  do lb <- merge_builders _ label_class (map pr_labels ps);
  do fsh <- initial _ _ (feature_shapes ds) fb;
  do lsh <- initial _ _ (label_shapes ds) lb;
  do shapes <- merge_dicts [fsh; lsh];
  do ng <- build hyper_placeholders sum_losses (optimize known) operation sb tasks shapes empty_graph;
  Ok (mkSetUp fb lb shapes (fst ng) (snd ng)).

(* initializer.initial_values(), neural_tagger.py:107; the labels have none *)
Definition set_up_values (su : set_up) : result (dict (list (Z * list V))) :=
  do fin <- initial _ _ feature_initials (su_features su);
  merge_dicts [fin; []].

(* feature_extractor.get_features and label_extractor.get_features, neural_tagger.py:28, 163-165.  sparsify is what
   sparsification makes of a value. *)
Definition set_up_features (ds : list document) (sparsify : obj -> str -> Q -> nested -> nested) (su : set_up) (rate : Q) (o : obj)
  : result (dict nested) :=
  features _ _ elements (feature_values ds) sparsify (su_features su) rate o.
Definition set_up_labels (ds : list document) (su : set_up) (o : obj) : result (dict nested) :=
  features _ _ elements (label_features lower ds) (fun _ _ _ v => v) (su_labels su) 0%Q o.

(* what is fed to a session: a feature or a number *)
Inductive fed := FedValue (v : nested) | FedNumber (q : Q).
Definition as_fed (d : dict nested) : dict fed := map (fun kv => (fst kv, FedValue (snd kv))) d.

(* labels['learning_rate'] = lr; labels['dropout_probability'] = dropout, neural_tagger.py:145-146 *)
Definition with_hyper (lr dropout : Q) (labels : dict fed) : dict fed :=
  dict_set (dict_set labels n_lr (FedNumber lr)) n_dropout (FedNumber dropout).
End Features.
