(* Model of the variables and the sizes of the layers that building a network creates: babylondigger/neural/utils.py:13-153,
   babylondigger/neural/tagger/shared_builders.py:24-205, babylondigger/neural/tagger/task_builders.py:28-263 and
   babylondigger/neural/network.py:128-188.  Definitions only.

   A tensor is its last dimension, the others are not known when a graph is built and do not matter.  Variables are those of
   tf.get_variable: a name that was used before is a ValueError.  A layer creates its variables in a scope, which is its name, or
   `dense`, `dense_1`, ... if it has none: the first one not used before.

   Simplifications: all sizes are positive; entries of the configuration that are read are there; weights of losses are given for every
   label; slots of the optimizer, placeholders and operations, whose names are made unique by tensorflow, are left out; what features
   and labels are (Model_Config) is left out, only their sizes are given. *)
From Coq Require Import String Ascii ZArith NArith Bool List.
From Verif Require Import Base.
Import ListNotations.
Open Scope Z_scope.

(* ------------------------------------------------------------------ *)
(* Configuration                                                       *)

Record conv := mkConv { cv_size : Z; cv_count : Z; cv_dilation : Z }.

(* the keys of _subword_aggregators with their aggregator_config, utils.py:80-85 *)
Inductive aggregator := Rnn (cell layers : Z) | Cnn (kernels : list conv) | Average | SelfAttention.

(* rows and columns of the embeddings *)
Record subwords := mkSubwords { sw_rows : Z; sw_size : Z; sw_aggregator : aggregator; sw_highway : bool }.

(* features_config: word_embedding with we_dense_size, word_trained_embedding, word_characters, bpe_subwords, morfessor_subwords *)
Record features := mkFeatures {
  f_words : option (Z * Z * option Z);
  f_trained : option (Z * Z);
  f_characters : option subwords;
  f_bpe : option subwords;
  f_morfessor : option subwords
}.

(* skip_connection *)
Inductive skip := NoSkip | Sum | Concat | OtherSkip.

(* the keys of _shared_builders, network_provider.py:6-12 *)
Inductive encoder :=
| WE_charCNN
| BiLSTM (cell layers : Z) (sk : skip)
| BiLSTM_CNN (cell layers : Z) (sk : skip) (kernels : list conv)
| Dilated_CNN (kernels : option (list conv)) (sk : skip).

(* the labels of pos_dense, lemma_dense and lemma_suffix *)
Inductive label_kind := PosLabels | LemmaLabels | RuleLabels.

(* the keys of _task_builders, network_provider.py:14-21.  parts: how many labels each part of a label has *)
Inductive task :=
| Dense (labels : label_kind) (shared_name : str) (dense_size : Z) (parts : list Z)
| Combo (shared_name : str) (rows embed_size dense_size : Z) (kernels : list conv) (highway : bool) (outputs : Z)
| Binary (shared_name : str) (dense_size rules : Z).

(* ------------------------------------------------------------------ *)
(* Variables                                                           *)

(* the variables with their shapes, in the order they were created, and the scopes of layers *)
Record graph := mkGraph { variables : list (str * list Z); scopes : list str }.

Definition action (X : Type) := graph -> result (X * graph).
Definition ret {X} (x : X) : action X := fun g => Ok (x, g).
Definition raise {X} (e : exn) : action X := fun _ => Err e.
Definition andThen {X Y} (m : action X) (f : X -> action Y) : action Y :=
  fun g => do r <- m g; f (fst r) (snd r).
Notation "'let!' x := m 'in' k" := (andThen m (fun x => k)) (at level 200, x name, m at level 100, k at level 200).

(* tf.get_variable without reuse *)
Definition get_variable (name : str) (shape : list Z) : action unit := fun g =>
  if existsb (fun v => str_eqb name (fst v)) (variables g) then Err EValue
  else Ok (tt, mkGraph (variables g ++ [(name, shape)]) (scopes g)).

(* the scope of a layer without a name: `dense`, `dense_1`, `dense_2`, ... *)
Definition default_scope (i : nat) : str :=
  match i with O => of_string "dense" | _ => of_string "dense_" ++ print_Z (Z.of_nat i) end.
Definition open_scope (name : option str) : action str := fun g =>
  do s <- (match name with
           | Some s => Ok s
           | None => of_option EFuel (find (fun s => negb (existsb (str_eqb s) (scopes g)))
                                           (map default_scope (seq 0 (S (length (scopes g))))))
           end);
  Ok (s, mkGraph (variables g) (s :: scopes g)).

(* tf.layers.dense *)
Definition dense (name : option str) (input units : Z) : action Z :=
  let! s := open_scope name in
  let! _ := get_variable (s ++ of_string "/kernel") [input; units] in
  let! _ := get_variable (s ++ of_string "/bias") [units] in
  ret units.

(* element-wise operations with broadcasting *)
Definition broadcast (a b : Z) : action Z :=
  if a =? b then ret a else if a =? 1 then ret b else if b =? 1 then ret a else raise EValue.

(* ------------------------------------------------------------------ *)
(* utils.py                                                            *)

(* apply_conv_layer, utils.py:22-31, from the i-th layer on *)
Definition conv_name (var_name : str) (i : Z) (k : conv) : str :=
  var_name ++ of_string "_" ++ print_Z i ++ of_string "_s" ++ print_Z (cv_size k) ++ of_string "_c" ++ print_Z (cv_count k) ++
  of_string "_d" ++ print_Z (cv_dilation k).
Fixpoint conv_layers (var_name : str) (i : Z) (kernels : list conv) (channels : Z) : action Z :=
  match kernels with
  | [] => ret channels
  | k :: ks =>
      let! _ := get_variable (conv_name var_name i k) [1; cv_size k; channels; cv_count k] in
      conv_layers var_name (i + 1) ks (cv_count k)
  end.
(* kernels[-1]['count'] *)
Fixpoint last_count (kernels : list conv) : action Z :=
  match kernels with
  | [] => raise EIndex
  | [k] => ret (cv_count k)
  | _ :: ks => last_count ks
  end.

(* one direction of tf.nn.bidirectional_dynamic_rnn *)
Definition lstm (scope : str) (input cell : Z) : action unit :=
  let! _ := get_variable (scope ++ of_string "/lstm_cell/kernel") [input + cell; 4 * cell] in
  get_variable (scope ++ of_string "/lstm_cell/bias") [4 * cell].
(* bilstm_layer, utils.py:125-137, from the i-th of n layers on *)
Definition rnn_scope (scope : str) (i : nat) : str :=
  of_string "bidirectional_rnn_" ++ scope ++ of_string "-" ++ print_Z (Z.of_nat i).
Fixpoint bilstm_layers (scope : str) (cell : Z) (i n : nat) (input : Z) : action Z :=
  match n with
  | O => ret input
  | S n' =>
      let! _ := lstm (rnn_scope scope i ++ of_string "/fw") input cell in
      let! _ := lstm (rnn_scope scope i ++ of_string "/bw") input cell in
      let! out := (match i with O => ret (2 * cell) | _ => broadcast input (2 * cell) end) in
      bilstm_layers scope cell (S i) n' out
  end.
Definition bilstm_layer (scope : str) (cell layers input : Z) : action Z := bilstm_layers scope cell 0 (Z.to_nat layers) input.

(* highway, utils.py:151-154 *)
Definition highway (x y : Z) : action Z :=
  let! gate := dense None x x in
  let! a := broadcast gate y in
  broadcast a x.

(* subword_rnn, subword_cnn, subword_average, subword_self_attention, utils.py:34-77 *)
Definition aggregate (feature : str) (a : aggregator) (size : Z) : action Z :=
  match a with
  | Rnn cell layers =>
      let! h := bilstm_layer feature cell layers size in
      dense None h h
  | Cnn kernels =>
      let! _ := conv_layers (feature ++ of_string "_cnn") 0 kernels size in
      last_count kernels
  | Average => ret size
  | SelfAttention => ret size
  end.

(* features_builder, utils.py:98-116 *)
Definition subwords_feature (feature : str) (c : subwords) : action Z :=
  let! _ := get_variable feature [sw_rows c; sw_size c] in
  let! n := aggregate feature (sw_aggregator c) (sw_size c) in
  if sw_highway c then
    let! d := dense (Some (feature ++ of_string "_dense_highway")) n n in highway n d
  else ret n.

(* sent_level_cnn, utils.py:140-147 *)
Definition sent_level_cnn (kernels : list conv) : action Z :=
  let! _ := conv_layers (of_string "cnn_kernel") 0 kernels 1 in
  last_count kernels.

(* ------------------------------------------------------------------ *)
(* shared_builders.py                                                  *)

(* we_features_builder and te_features_builder, shared_builders.py:26-40, 49-55 *)
Definition words_feature (c : Z * Z * option Z) : action Z :=
  let '(rows, size, dense_size) := c in
  let! _ := get_variable (of_string "word_embeddings") [rows; size] in
  match dense_size with
  | None => ret size
  | Some units => dense (Some (of_string "we_dense_layer")) size units
  end.
Definition trained_feature (c : Z * Z) : action Z :=
  let! _ := get_variable (of_string "trained_words") [fst c; snd c] in
  ret (snd c).

(* a feature, if it is configured, with its name in the result *)
Definition given {C} (o : option C) (name : string) (f : C -> action Z) : list (str * action Z) :=
  match o with Some c => [(of_string name, f c)] | None => [] end.
Definition feature_builders (f : features) : list (str * action Z) :=
  given (f_words f) "word_embedding" words_feature ++
  given (f_trained f) "trained_embedding" trained_feature ++
  given (f_characters f) "characters" (subwords_feature (of_string "characters")) ++
  given (f_bpe f) "bpe_subwords" (subwords_feature (of_string "bpe_subwords")) ++
  given (f_morfessor f) "morfessor_subwords" (subwords_feature (of_string "morfessor_subwords")).

Fixpoint run_features (l : list (str * action Z)) : action (dict Z) :=
  match l with
  | [] => ret []
  | (name, m) :: rest =>
      let! n := m in
      let! ns := run_features rest in
      ret ((name, n) :: ns)
  end.

(* WECharCNNSharedNetworkBuilder.build, shared_builders.py:88-110; tf.concat of nothing is a ValueError.  The mask and the norm are not
   among the results: tf.layers.dense does not take them. *)
Definition sum_sizes (ns : dict Z) : Z := fold_right (fun e n => snd e + n) 0 ns.
Definition word_layers (f : features) : action (dict Z) :=
  let! ns := run_features (feature_builders f) in
  match ns with
  | [] => raise EValue
  | _ => ret (ns ++ [(of_string "word_features", sum_sizes ns)])
  end.

(* shared_builders.py:130-148, 167-184 *)
Definition skip_connection (name : string) (sk : skip) (out words : Z) : action (dict Z) :=
  match sk with
  | NoSkip => ret []
  | Sum => if out =? words then ret [(of_string name, out)] else raise EValue
  | Concat => ret [(of_string name, out + words)]
  | OtherSkip => raise EValue
  end.
(* result['word_features'] *)
Definition words_of (ns : dict Z) : Z := match dict_get ns (of_string "word_features") with Some n => n | None => 0 end.

(* CharCNNBiLSTMSharedNetworkBuilder.build, shared_builders.py:120-148 *)
Definition bilstm_layers_of (cell layers : Z) (sk : skip) (ns : dict Z) : action (dict Z) :=
  if layers <=? 0 then raise EValue
  else
    let! b := bilstm_layer [] cell layers (words_of ns) in
    let! s := skip_connection "bilstm_and_word_features" sk b (words_of ns) in
    ret (ns ++ [(of_string "bilstm", b)] ++ s).

(* build of the shared builders *)
Definition shared_layers (f : features) (e : encoder) : action (dict Z) :=
  let! ns := word_layers f in
  match e with
  | WE_charCNN => ret ns
  | BiLSTM cell layers sk => bilstm_layers_of cell layers sk ns
  | BiLSTM_CNN cell layers sk kernels =>
      (* shared_builders.py:192-205 *)
      let! ns' := bilstm_layers_of cell layers sk ns in
      let! n := sent_level_cnn kernels in
      ret (ns' ++ [(of_string "bilstm_cnn", n)])
  | Dilated_CNN kernels sk =>
      (* shared_builders.py:157-184 *)
      match kernels with
      | None => raise EValue
      | Some ks =>
          let! _ := conv_layers (of_string "dilated_cnn") 0 ks (words_of ns) in
          let! n := last_count ks in
          let! s := skip_connection "dilated_cnn_and_word_features" sk n (words_of ns) in
          ret (ns ++ [(of_string "dilated_cnn", n)] ++ s)
      end
  end.

(* ------------------------------------------------------------------ *)
(* task_builders.py                                                    *)

Definition label_name (k : label_kind) : str :=
  match k with
  | PosLabels => of_string "pos_labels"
  | LemmaLabels => of_string "lemma_labels"
  | RuleLabels => of_string "lemma_rule_labels"
  end.

(* shared[self.__shared_name] given to tf.layers.dense *)
Definition read_shared (shared : dict Z) (name : str) : action Z := fun g =>
  match dict_get shared name with
  | Some n => Ok (n, g)
  | None => Err (if str_eqb name (of_string "sentence_mask") || str_eqb name (of_string "sentence_norm") then EValue else EKey)
  end.

(* the loop of DenseTaskNetworkBuilder.build, task_builders.py:28-41 with 63-67, from the i-th part on *)
Definition part_scope (i : Z) (rest : string) (k : label_kind) : str := print_Z i ++ of_string rest ++ label_name k.
Fixpoint dense_parts (k : label_kind) (shared : dict Z) (shared_name : str) (dense_size : Z) (i : Z) (parts : list Z) : action unit :=
  match parts with
  | [] => ret tt
  | n :: rest =>
      let! input := read_shared shared shared_name in
      let! d := dense (Some (part_scope i "/dense_" k)) input dense_size in
      let! _ := dense (Some (part_scope i "/logits_" k)) d n in
      dense_parts k shared shared_name dense_size (i + 1) rest
  end.

(* the builds of the tasks and initializers(): task_builders.py:28-51, 149-213, 236-268.  tf.stack of nothing is a ValueError;
   LemmaSuffixBinaryTaskNetworkBuilder has no initializers: network.py:161 raises TypeError *)
Definition build_task (shared : dict Z) (t : task) : action unit :=
  match t with
  | Dense k shared_name dense_size parts =>
      let! _ := dense_parts k shared shared_name dense_size 0 parts in
      match parts with [] => raise EValue | _ => ret tt end
  | Combo shared_name rows embed_size dense_size kernels hw outputs =>
      let! input := read_shared shared shared_name in
      let! _ := get_variable (of_string "input_subwords_e") [rows; embed_size] in
      let! d := dense (Some (of_string "dense_cnn")) input dense_size in
      let! n := conv_layers (of_string "cnn_kernel") 0 kernels (embed_size + d) in
      let! out := (if hw then highway embed_size n else ret n) in
      get_variable (of_string "output_subwords") [1; 1; out; outputs]
  | Binary shared_name dense_size rules =>
      let! input := read_shared shared shared_name in
      let! d := dense (Some (of_string "dense_lemma_rule_labels")) input dense_size in
      raise EType
  end.
Fixpoint build_tasks (shared : dict Z) (ts : list task) : action unit :=
  match ts with
  | [] => ret tt
  | t :: ts' => let! _ := build_task shared t in build_tasks shared ts'
  end.

(* MultitaskNetworkBuilder.build, network.py:128-175, with _optimizer, 177-181; [known] tells whether the type is one of _optimizers *)
Definition build (known : bool) (f : features) (e : encoder) (ts : list task) : result graph :=
  do r <- (let! shared := shared_layers f e in
           let! _ := build_tasks shared ts in
           match ts with [] => raise EValue | _ => if known then ret tt else raise EValue end) (mkGraph [] []);
  Ok (snd r).
