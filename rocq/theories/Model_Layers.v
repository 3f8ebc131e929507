(* Model of what the layers compute when a network is run on a batch: babylondigger/neural/utils.py:13-153,
   babylondigger/neural/tagger/shared_builders.py:88-205, babylondigger/neural/tagger/task_builders.py:28-213, with the padding of
   babylondigger/features/builder.py:128-155.  Definitions only.

   A tensor is a list of lists; the first index is the sentence of the batch.  No operation used combines different rows of that
   index, so the layers are written for one sentence `s` of a batch `batch`; the batch determines how far everything is padded.
   The numbers are any type with the operations of `arith`: nothing is assumed about them.

   Simplifications: dropout is the identity, as in a prediction (placeholder default 1.0, network.py:135; tf.layers.dropout is
   inactive without training=True).  Layers that act on each position by itself - tf.layers.dense, its activations, highway, the
   1x1 convolution at the end of lemma_combo - are arbitrary functions of the vectors at that position.  Shapes that do not fit,
   which tensorflow rejects when the graph is built, are not modelled: the longer of two vectors is cut.  In `subword_average` the
   batch contains at least one subword other than padding. *)
From Coq Require Import String Ascii ZArith NArith Bool List.
From Verif Require Import Base.
Import ListNotations.

Record arith := mkArith {
  num : Type;
  zero : num;
  add : num -> num -> num;
  mul : num -> num -> num;
  over : num -> nat -> num;            (* division by a size *)
  leb : num -> num -> bool;
  lowest : num;                        (* np.finfo(np.float32).min *)
  softmax : list num -> list num;
  scale : nat -> num                   (* math.sqrt *)
}.
Arguments zero {a}.
Arguments add {a}.
Arguments mul {a}.
Arguments over {a}.
Arguments leb {a}.
Arguments lowest {a}.
Arguments softmax {a}.
Arguments scale {a}.


Fixpoint map2 {X Y R} (f : X -> Y -> R) (l : list X) (m : list Y) : list R :=
  match l, m with
  | x :: l', y :: m' => f x y :: map2 f l' m'
  | _, _ => []
  end.

Section Numbers.
Context {A : arith}.
Notation vec := (list (num A)).
Implicit Types (x y : num A) (v w : vec).

Definition max2 x y : num A := if leb x y then y else x.
Definition relu x : num A := max2 zero x.
(* tf.reduce_sum over a list of vectors of size d *)
Definition vsum (d : nat) (rows : list vec) : vec := fold_left (map2 add) rows (repeat zero d).
Definition dot v w : num A := fold_left add (map2 mul v w) zero.
(* row vector times matrix; the matrix is the list of its rows *)
Definition times_matrix (d : nat) v (m : list vec) : vec := vsum d (map2 (fun x row => map (mul x) row) v m).
(* tf.reduce_max over the positions *)
Definition pooled (rows : list vec) : vec :=
  match rows with [] => [] | r :: rs => fold_left (map2 max2) rs r end.
(* tf.argmax: the first of the largest *)
Fixpoint argmax_from (best : num A) (at_ i : nat) v : nat :=
  match v with
  | [] => at_
  | y :: v' => if leb y best then argmax_from best at_ (S i) v' else argmax_from y i (S i) v'
  end.
Definition argmax v : nat := match v with [] => 0%nat | x :: v' => argmax_from x 0 1 v' end.

(* ---------- convolutions: utils.py:22-31 ---------- *)

(* a variable of shape [1, size, channel_count, count]: for every tap a matrix *)
Record kernel := mkKernel { taps : list (list vec); k_count : nat; k_dilation : nat }.

(* the number of positions before the centre a kernel reaches with padding 'SAME' and stride 1 *)
Definition reach_left (k : kernel) : nat := ((length (taps k) - 1) * k_dilation k / 2)%nat.

(* the input position of tap j for the output position t; None: outside, where 'SAME' has zeros *)
Definition tap_input (k : kernel) (xs : list vec) (t j : nat) : option vec :=
  let p := (t + j * k_dilation k)%nat in
  if (p <? reach_left k)%nat then None else nth_error xs (p - reach_left k).

Definition conv_at (k : kernel) (xs : list vec) (t : nat) : vec :=
  map relu (vsum (k_count k)
    (map (fun jm => match tap_input k xs t (fst jm) with
                    | Some x => times_matrix (k_count k) x (snd jm)
                    | None => repeat zero (k_count k)
                    end) (combine (seq 0 (length (taps k))) (taps k)))).
Definition conv_layer (k : kernel) (xs : list vec) : list vec := map (conv_at k xs) (seq 0 (length xs)).
(* apply_conv_layer *)
Definition conv_layers (ks : list kernel) (xs : list vec) : list vec := fold_left (fun ys k => conv_layer k ys) ks xs.

(* ---------- recurrent layers: utils.py:125-137 ---------- *)

(* one direction of an LSTM: any state machine *)
Record cell := mkCell { state : Type; start : state; step : state -> vec -> state * vec }.
Record lstm := mkLstm { forward : cell; backward : cell; cell_size : nat }.

(* tf.nn.dynamic_rnn with sequence length `len`: beyond it the output is zero and the state is kept *)
Fixpoint rnn (c : cell) (st : state c) (d len : nat) (xs : list vec) : list vec :=
  match xs with
  | [] => []
  | x :: xs' => match len with
                | O => repeat zero d :: rnn c st d 0 xs'
                | S n => let (st', o) := step c st x in o :: rnn c st' d n xs'
                end
  end.
(* tf.reverse_sequence: the first `len` positions are reversed *)
Definition reverse_sequence {X} (len : nat) (xs : list X) : list X := rev (firstn len xs) ++ skipn len xs.

(* tf.nn.bidirectional_dynamic_rnn, outputs concatenated *)
Definition bidirectional (l : lstm) (len : nat) (xs : list vec) : list vec :=
  map2 (@app _) (rnn (forward l) (start (forward l)) (cell_size l) len xs)
    (reverse_sequence len (rnn (backward l) (start (backward l)) (cell_size l) len (reverse_sequence len xs))).

(* bilstm_layer: every further layer is added to its input; without layers the input is returned *)
Definition bilstm_layer (layers : list lstm) (len : nat) (xs : list vec) : list vec :=
  match layers with
  | [] => xs
  | l :: ls => fold_left (fun hidden l' => map2 (map2 add) hidden (bidirectional l' len hidden)) ls (bidirectional l len xs)
  end.

(* ---------- subwords of one word: utils.py:34-77 ---------- *)

Inductive aggregator :=
| Average
| SelfAttention
| SubwordCNN (kernels : list kernel)
| SubwordRNN (layers : list lstm) (dense : vec -> vec).

(* `ids` is the padded list of subword ids of one word, `row` the embedding matrix with rows of size `d` *)
Definition aggregate (a : aggregator) (d : nat) (row : Z -> vec) (ids : list Z) : vec :=
  match a with
  | Average =>
      map (fun x => over x (length ids))
        (vsum d (map (fun i => if Z.eqb i 0 then repeat zero d else row i) ids))
  | SelfAttention =>
      let es := map row ids in
      let scaled := map (mul (scale d)) (vsum d es) in
      let weights := softmax (map (fun e => dot e scaled) es) in
      vsum d (map2 (fun e q => map (fun x => mul x q) e) es weights)
  | SubwordCNN ks => pooled (conv_layers ks (map row ids))
  | SubwordRNN ls dense => pooled (map dense (bilstm_layer ls (length ids) (map row ids)))
  end.

(* sent_level_cnn, utils.py:140-147, of one word: the positions are the components of its vector *)
Definition word_cnn (ks : list kernel) (v : vec) : vec := pooled (conv_layers ks (map (fun x => [x]) v)).

End Numbers.
Arguments kernel : clear implicits.
Arguments cell : clear implicits.
Arguments lstm : clear implicits.
Arguments aggregator : clear implicits.

(* ---------- networks ---------- *)

(* builder.py:128-155 *)
Definition pad_to {X} (n : nat) (z : X) (l : list X) : list X := l ++ repeat z (n - length l).
Definition maximum (l : list nat) : nat := fold_right Nat.max 0%nat l.

Section Networks.
Context {A : arith} {W : Type}.
Notation vec := (list (num A)).
Notation sentence := (list W).
Notation batch := (list (list W)).

(* features of shared_builders.py:27-74: looked up by the id of the word, or aggregated from the ids of its subwords; `gate` is the
   dense layer of the pretrained embeddings (37-40) and the highway (utils.py:111-114), if configured *)
Inductive feature :=
| WordLevel (id_of : W -> Z) (row : Z -> vec) (gate : vec -> vec)
| SubwordLevel (ids_of : W -> list Z) (row : Z -> vec) (row_size : nat) (agg : aggregator A) (gate : vec -> vec).

Definition longest_sentence (b : batch) : nat := maximum (map (@length W) b).
Definition longest_word (ids_of : W -> list Z) (b : batch) : nat := maximum (map (fun w => length (ids_of w)) (concat b)).

(* the subword ids of a sentence, padded as everywhere in its batch *)
Definition padded_subwords (ids_of : W -> list Z) (b : batch) (s : sentence) : list (list Z) :=
  let n := longest_word ids_of b in
  pad_to (longest_sentence b) (repeat 0 n) (map (fun w => pad_to n 0 (ids_of w)) s).

Definition feature_values (f : feature) (b : batch) (s : sentence) : list vec :=
  match f with
  | WordLevel id_of row gate => map (fun i => gate (row i)) (pad_to (longest_sentence b) 0 (map id_of s))
  | SubwordLevel ids_of row d agg gate => map (fun ids => gate (aggregate agg d row ids)) (padded_subwords ids_of b s)
  end.

Definition features := list (str * feature).

(* tf.concat(word_features, axis=-1), shared_builders.py:105 *)
Definition word_features (fs : features) (b : batch) (s : sentence) : list vec :=
  fold_left (fun vs nf => map2 (@app _) vs (feature_values (snd nf) b s)) fs (repeat [] (longest_sentence b)).

Inductive skip_connection := SkipSum | SkipConcat.
Definition skip (k : skip_connection) (xs words : list vec) : list vec :=
  match k with SkipSum => map2 (map2 add) xs words | SkipConcat => map2 (@app _) xs words end.

Inductive encoder :=
| WE_charCNN
| BiLSTM (layers : list (lstm A)) (sk : option skip_connection)
| BiLSTM_CNN (layers : list (lstm A)) (sk : option skip_connection) (kernels : list (kernel A))
| Dilated_CNN (kernels : list (kernel A)) (sk : option skip_connection).

Definition n_word_features : str := of_string "word_features".
Definition n_bilstm : str := of_string "bilstm".
Definition n_bilstm_words : str := of_string "bilstm_and_word_features".
Definition n_bilstm_cnn : str := of_string "bilstm_cnn".
Definition n_dilated : str := of_string "dilated_cnn".
Definition n_dilated_words : str := of_string "dilated_cnn_and_word_features".

(* WECharCNNSharedNetworkBuilder.build, shared_builders.py:88-110 (mask and norm: Model_Loss) *)
Definition build_words (fs : features) (b : batch) (s : sentence) : dict (list vec) :=
  dict_set (fold_left (fun r nf => dict_set r (fst nf) (feature_values (snd nf) b s)) fs [])
    n_word_features (word_features fs b s).

(* shared_builders.py:130-148 and 166-184 *)
Definition with_skip (sk : option skip_connection) (name : str) (xs : list vec) (words : list vec) (r : dict (list vec))
  : dict (list vec) :=
  match sk with None => r | Some k => dict_set r name (skip k xs words) end.

(* CharCNNBiLSTMSharedNetworkBuilder.build, shared_builders.py:120-148 *)
Definition build_bilstm (layers : list (lstm A)) (sk : option skip_connection) (fs : features) (b : batch) (s : sentence)
  : dict (list vec) :=
  let words := word_features fs b s in
  let xs := bilstm_layer layers (length s) words in
  with_skip sk n_bilstm_words xs words (dict_set (build_words fs b s) n_bilstm xs).

Definition build_shared (e : encoder) (fs : features) (b : batch) (s : sentence) : dict (list vec) :=
  match e with
  | WE_charCNN => build_words fs b s
  | BiLSTM layers sk => build_bilstm layers sk fs b s
  | BiLSTM_CNN layers sk ks =>                                          (* shared_builders.py:192-205 *)
      let r := build_bilstm layers sk fs b s in
      let input := match dict_get r n_bilstm_words with
                   | Some xs => xs
                   | None => match dict_get r n_bilstm with Some xs => xs | None => [] end
                   end in
      dict_set r n_bilstm_cnn (map (word_cnn ks) input)
  | Dilated_CNN ks sk =>                                                (* shared_builders.py:157-184 *)
      let words := word_features fs b s in
      let xs := conv_layers ks words in
      with_skip sk n_dilated_words xs words (dict_set (build_words fs b s) n_dilated xs)
  end.

(* the tasks of task_builders.py.  A dense task has one head per part of the label: two dense layers (63-67), for lemma_suffix_binary
   its logits (248-258); `rules`: applicable_rules and their number.  `finish` is the highway with the embedding of the character
   (181-184) and the 1x1 convolution (187-188). *)
Inductive task :=
| DenseTask (shared_name : str) (heads : list (vec -> vec)) (rules : option (nat * (W -> list bool)))
| ComboTask (shared_name : str) (ids_of : W -> list Z) (row : Z -> vec) (row_size max_word_length : nat) (reduce : vec -> vec)
    (kernels : list (kernel A)) (finish : vec -> vec -> vec).

(* tf.where(applicable_rules, logits, lowest), task_builders.py:109-112, 260-263 *)
Definition masked (mask : list bool) (logits : vec) : vec := map2 (fun (b : bool) x => if b then x else lowest) mask logits.

(* _logits and _output of the dense tasks at one position *)
Definition dense_output (heads : list (vec -> vec)) (mask : option (list bool)) (v : vec) : list nat :=
  map (fun h => argmax (match mask with None => h v | Some m => masked m (h v) end)) heads.

(* _get_char_embeddings at one position, task_builders.py:201-213 *)
Definition char_embeddings (row : Z -> vec) (d n : nat) (ids : list Z) : list vec :=
  let ce := map row ids in
  if (n <? length ce)%nat then firstn n ce else pad_to n (repeat zero d) ce.

(* LemmaCOMBOTaskNetworkBuilder._logits and _output at one position, task_builders.py:165-199 *)
Definition combo_output (row : Z -> vec) (d n : nat) (reduce : vec -> vec) (ks : list (kernel A)) (finish : vec -> vec -> vec)
  (ids : list Z) (v : vec) : list nat :=
  let ce := char_embeddings row d n ids in
  map (@argmax A) (map2 finish ce (conv_layers ks (map (fun e => reduce v ++ e) ce))).

Definition task_output (t : task) (shared : dict (list vec)) (b : batch) (s : sentence) : result (list (list nat)) :=
  match t with
  | DenseTask name heads rules =>
      do vs <- of_option EKey (dict_get shared name);
      Ok (match rules with
          | None => map (dense_output heads None) vs
          | Some (n, allowed) =>
              map2 (fun v m => dense_output heads (Some m) v) vs (pad_to (longest_sentence b) (repeat false n) (map allowed s))
          end)
  | ComboTask name ids_of row d n reduce ks finish =>
      do vs <- of_option EKey (dict_get shared name);
      Ok (map2 (combo_output row d n reduce ks finish) (padded_subwords ids_of b s) vs)
  end.

Record net := mkNet { n_features : features; n_encoder : encoder; n_tasks : list task }.

(* the outputs of every task for one sentence of a batch, and for the batch *)
Definition predict_sentence (n : net) (b : batch) (s : sentence) : result (list (list (list nat))) :=
  mapM (fun t => task_output t (build_shared (n_encoder n) (n_features n) b s) b s) (n_tasks n).
Definition predict (n : net) (b : batch) : result (list (list (list (list nat)))) := mapM (predict_sentence n b) b.

End Networks.
Arguments feature : clear implicits.
Arguments encoder : clear implicits.
Arguments task : clear implicits.
Arguments net : clear implicits.
