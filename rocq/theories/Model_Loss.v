(* Model of the losses of babylondigger/neural/tagger/task_builders.py:28-71, 191-196, 236-267, with the mask of
   shared_builders.py:100-107 (the sum over tasks, network.py:162-167, is in Model_Network).  Definitions only.

   Numbers are rational (float32 is not modelled).  The cross entropies of tensorflow, which are computed for every position by
   itself, are arbitrary functions of the logits and the label there. *)
From Coq Require Import String Ascii ZArith NArith QArith Bool List.
From Verif Require Import Base Model_Layers.
Import ListNotations.

Definition qtotal (l : list Q) : Q := fold_right Qplus 0%Q l.
Definition qnat (n : nat) : Q := inject_Z (Z.of_nat n).

(* tf.sequence_mask(lengths), shared_builders.py:101: as long as the longest *)
Definition sequence_mask (lengths : list nat) : list (list Q) :=
  map (fun n => map (fun j => if (j <? n)%nat then 1%Q else 0%Q) (seq 0 (maximum lengths))) lengths.
(* tf.reduce_sum(lengths), shared_builders.py:102 *)
Definition sentence_norm (lengths : list nat) : Q := qtotal (map qnat lengths).

(* gold labels of a batch, as fed: every sentence is padded with labels 0 of every part (builder.py:128-155) *)
Definition padded_gold (k : nat) (gold : list (list (list nat))) : list (list (list nat)) :=
  map (pad_to (maximum (map (@length _) gold)) (repeat 0%nat k)) gold.

(* DenseTaskNetworkBuilder._loss, task_builders.py:69-71 *)
Definition dense_part_loss {L} (ce : L -> nat -> Q) (logits : list (list L)) (labels : list (list nat)) (lengths : list nat) : Q :=
  qtotal (concat (map2 (map2 Qmult) (map2 (map2 ce) logits labels) (sequence_mask lengths))) / sentence_norm lengths.

(* self.__loss_weights[loss] if loss in self.__loss_weights else self.__loss_weights["default"], task_builders.py:59 *)
Definition loss_weight (weights : dict Q) (name : str) : result Q :=
  match dict_get weights name with
  | Some q => Ok q
  | None => of_option EKey (dict_get weights (of_string "default"))
  end.

(* DenseTaskNetworkBuilder._sum_losses, task_builders.py:53-61; `stack_dict`: whether tf.stack accepts a dictionary of tensors *)
Definition sum_losses (stack_dict : result unit) (weights : option (dict Q)) (losses : list (str * Q)) : result Q :=
  match weights with
  | None => do _ <- stack_dict; Ok (qtotal (map snd losses))
  | Some ws => do l <- mapM (fun nl => do w <- loss_weight ws (fst nl); Ok (snd nl * w)%Q) losses; Ok (qtotal l)
  end.

(* the loss of DenseTaskNetworkBuilder.build, task_builders.py:28-42: `names` are the parts of the labels, `logits` has for every part
   the logits of every position of every sentence *)
Definition dense_loss {L} (stack_dict : result unit) (ce : L -> nat -> Q) (weights : option (dict Q)) (names : list str)
  (logits : list (list (list L))) (gold : list (list (list nat))) : result Q :=
  let lengths := map (@length _) gold in
  let fed := padded_gold (length names) gold in
  sum_losses stack_dict weights
    (map (fun jn => (snd jn, dense_part_loss ce (nth (fst jn) logits []) (map (map (fun l => nth (fst jn) l 0%nat)) fed) lengths))
       (combine (seq 0 (length names)) names)).

(* LemmaCOMBOTaskNetworkBuilder._loss, task_builders.py:191-196: `logits` has the logits of every character, n = max_word_length *)
Definition combo_loss {L} (ce : L -> nat -> Q) (weight : Q) (n : nat) (logits : list (list (list L))) (gold : list (list (list nat))) : Q :=
  let lengths := map (@length _) gold in
  let raw := map2 (map2 (map2 ce)) logits (padded_gold n gold) in
  (qtotal (concat (map2 (fun r m => concat (map2 (fun x q => map (fun y => y * q)%Q x) r m)) raw (sequence_mask lengths)))
   / (sentence_norm lengths * qnat n)) * weight.

(* LemmaSuffixBinaryTaskNetworkBuilder.build and _loss, task_builders.py:243-245, 265-267: `sce x true` is the cross entropy of a logit
   of the gold rule, `sce x false` of another; `logits` has one for each of `rules` rules *)
Definition binary_loss {L} (sce : L -> bool -> Q) (rules : nat) (logits : list (list (list L))) (gold : list (list (list nat))) : Q :=
  let lengths := map (@length _) gold in
  let one_hots := map (map (fun l => map (Nat.eqb (nth 0 l 0%nat)) (seq 0 rules))) (padded_gold 1 gold) in
  let raw := map2 (map2 (map2 sce)) logits one_hots in
  qtotal (concat (map2 (fun r m => concat (map2 (fun x q => map (fun y => y * q)%Q x) r m)) raw (sequence_mask lengths)))
  / sentence_norm lengths.
