(* Model of dropout: what the layers of babylondigger/neural/tagger/shared_builders.py:120-205, babylondigger/neural/utils.py:125-137
   and babylondigger/neural/tagger/task_builders.py:63-67, 248-258 compute when a network is run with the placeholder of the dropout
   probability fed or not (babylondigger/neural/network.py:135, 40-44, babylondigger/neural/tagger/neural_tagger.py:141-147).
   Definitions only.

   Layers without dropout, their numbers and their simplifications are those of Model_Layers.  The random numbers of a run are an
   arbitrary function of where they are drawn; one number is drawn for every component, as tf.nn.dropout does without noise_shape.
   What tensorflow does with them is written as in tensorflow 1.14: rate = 1 - keep_prob, x / keep_prob where the random number is
   at least the rate, and nothing elsewhere, by multiplication with 1 or 0 (so 0 / 0 * 0 is what the numbers make of it). *)
From Coq Require Import String Ascii ZArith NArith Bool List.
From Verif Require Import Base Model_Layers Model_Network.
Import ListNotations.

(* what dropout needs of the numbers besides `arith` *)
Record dropping (A : arith) := mkDropping { one : num A; minus : num A -> num A -> num A; divide : num A -> num A -> num A }.
Arguments one {A}.
Arguments minus {A}.
Arguments divide {A}.

(* where random numbers are drawn: tf.nn.dropout of shared_builders.py:125 and 162 (the input of the encoder), 133 and 169 (what is
   skipped to its output), 200 (the input of the convolution over bilstm), of task_builders.py:66 and 250 (between the dense layers of
   a part of the label of a task), and tf.layers.dropout of utils.py:132-135 (the output of a layer) *)
Inductive place := AtInput | AtSkip | AtConvolution | AtLayer (i : nat) | AtHead (task part : nat).

Section Dropout.
Context {A : arith} {W : Type}.
Variable D : dropping A.
Notation vec := (list (num A)).
Notation sentence := (list W).
Notation batch := (list (list W)).

(* random numbers by place, position in the sentence and component *)
Definition noise := place -> nat -> nat -> num A.

Definition indexed {X Y} (f : nat -> X -> Y) (l : list X) : list Y := map (fun ix => f (fst ix) (snd ix)) (combine (seq 0 (length l)) l).

(* one value with the rate and the random number u *)
Definition drop (rate u x : num A) : num A :=
  mul (divide D x (minus D (one D) rate)) (if leb rate u then one D else zero).
(* tf.nn.dropout(x, keep_prob) and tf.layers.dropout(x, rate, training) of the vectors of a sentence *)
Definition nn_dropout (keep : num A) (u : nat -> nat -> num A) (rows : list vec) : list vec :=
  indexed (fun p v => indexed (fun c x => drop (minus D (one D) keep) (u p c) x) v) rows.
Definition layers_dropout (training : bool) (rate : num A) (u : nat -> nat -> num A) (rows : list vec) : list vec :=
  if training then indexed (fun p v => indexed (fun c x => drop rate (u p c) x) v) rows else rows.

Variable keep : num A.
Variable u : noise.

(* bilstm_layer, utils.py:125-137: `training` is left at its default *)
Definition bilstm_dropped (layers : list (lstm A)) (len : nat) (xs : list vec) : list vec :=
  fold_left (fun hidden il =>
      let out := bidirectional (snd il) len hidden in
      layers_dropout false keep (u (AtLayer (fst il)))
        (if (fst il =? 0)%nat then out else map2 (map2 add) hidden out))
    (combine (seq 0 (length layers)) layers) xs.

(* CharCNNBiLSTMSharedNetworkBuilder.build, shared_builders.py:120-148 *)
Definition bilstm_shared (layers : list (lstm A)) (sk : option skip_connection) (fs : @features A W) (b : batch) (s : sentence)
  : dict (list vec) :=
  let words := word_features fs b s in
  let xs := bilstm_dropped layers (length s) (nn_dropout keep (u AtInput) words) in
  with_skip sk n_bilstm_words xs (nn_dropout keep (u AtSkip) words) (dict_set (build_words fs b s) n_bilstm xs).

(* the shared part, as Model_Layers.build_shared *)
Definition shared_dropped (e : encoder A) (fs : @features A W) (b : batch) (s : sentence) : dict (list vec) :=
  match e with
  | WE_charCNN => build_words fs b s
  | BiLSTM layers sk => bilstm_shared layers sk fs b s
  | BiLSTM_CNN layers sk ks =>                                          (* shared_builders.py:192-205 *)
      let r := bilstm_shared layers sk fs b s in
      let input := match dict_get r n_bilstm_words with
                   | Some xs => xs
                   | None => match dict_get r n_bilstm with Some xs => xs | None => [] end
                   end in
      dict_set r n_bilstm_cnn (map (word_cnn ks) (nn_dropout keep (u AtConvolution) input))
  | Dilated_CNN ks sk =>                                                (* shared_builders.py:157-184 *)
      let words := word_features fs b s in
      let xs := conv_layers ks (nn_dropout keep (u AtInput) words) in
      with_skip sk n_dilated_words xs (nn_dropout keep (u AtSkip) words) (dict_set (build_words fs b s) n_dilated xs)
  end.

(* the tasks, as Model_Layers.task, with both layers of every head *)
Inductive layered_task :=
| TDense (shared_name : str) (heads : list ((vec -> vec) * (vec -> vec))) (rules : option (nat * (W -> list bool)))
| TCombo (shared_name : str) (ids_of : W -> list Z) (row : Z -> vec) (row_size max_word_length : nat) (reduce : vec -> vec)
    (kernels : list (kernel A)) (finish : vec -> vec -> vec).

(* _logits of a part of the label for all positions, task_builders.py:63-67, 248-258; t, j: number of the task and the part *)
Definition head_logits (t j : nat) (head : (vec -> vec) * (vec -> vec)) (vs : list vec) : list vec :=
  map (snd head) (nn_dropout keep (u (AtHead t j)) (map (fst head) vs)).

(* the logits of a task for one sentence: for a dense task by part and position, for lemma_combo by position and character *)
Definition task_logits (t : nat) (tk : layered_task) (shared : dict (list vec)) (b : batch) (s : sentence)
  : result (list (list vec)) :=
  match tk with
  | TDense name heads rules =>
      do vs <- of_option EKey (dict_get shared name);
      Ok (indexed (fun j h =>
            match rules with
            | None => head_logits t j h vs
            | Some (n, allowed) =>
                map2 (fun l m => masked m l) (head_logits t j h vs) (pad_to (longest_sentence b) (repeat false n) (map allowed s))
            end) heads)
  | TCombo name ids_of row d n reduce ks finish =>          (* dropout is not used, task_builders.py:165-189 *)
      do vs <- of_option EKey (dict_get shared name);
      Ok (map2 (fun ids v => let ce := char_embeddings row d n ids in
                             map2 finish ce (conv_layers ks (map (fun e => reduce v ++ e) ce)))
            (padded_subwords ids_of b s) vs)
  end.

Record layered_net := mkLayered { l_features : @features A W; l_encoder : encoder A; l_tasks : list layered_task }.

(* the logits of every task for a sentence of a batch; the losses (Model_Loss) and the outputs are computed from them *)
Definition net_logits (n : layered_net) (b : batch) (s : sentence) : result (list (list (list vec))) :=
  mapM (fun it => task_logits (fst it) (snd it) (shared_dropped (l_encoder n) (l_features n) b s) b s)
    (combine (seq 0 (length (l_tasks n))) (l_tasks n)).

(* _output: argmax of the logits; tf.stack(outputs, axis=-1) of the parts of a label, task_builders.py:44-50, which needs a part *)
Definition stacked (parts : list (list nat)) : result (list (list nat)) :=
  match parts with
  | [] => Err EValue
  | p :: ps => Ok (fold_left (map2 (fun r x => r ++ [x])) ps (map (fun x => [x]) p))
  end.
Definition task_answers (tk : layered_task) (logits : list (list vec)) : result (list (list nat)) :=
  let answers := map (map (@argmax A)) logits in
  match tk with TDense _ _ _ => stacked answers | TCombo _ _ _ _ _ _ _ _ => Ok answers end.
Definition net_answers (n : layered_net) (b : batch) (s : sentence) : result (list (list (list nat))) :=
  do ls <- net_logits n b s;
  mapM (fun tl => task_answers (fst tl) (snd tl)) (combine (l_tasks n) ls).

End Dropout.
Arguments noise : clear implicits.
Arguments layered_task : clear implicits.
Arguments layered_net : clear implicits.

(* the value of the placeholder `t` in a run with the feed f: tf.placeholder_with_default(1.0, []), network.py:135 *)
Definition dropout_value {T V : Type} (teqb : T -> T -> bool) (default : V) (f : feed T V) (t : T) : V :=
  match find (fun tv => teqb t (fst tv)) f with Some tv => snd tv | None => default end.

(* labels['learning_rate'] = lr; labels['dropout_probability'] = dropout, neural_tagger.py:145-146 *)
Definition training_labels {V : Type} (labels : dict V) (lr dropout : V) : dict V :=
  dict_set (dict_set labels n_lr lr) n_dropout dropout.
