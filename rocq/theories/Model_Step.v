(* Model of a training step: _optimizer and _optimizers (babylondigger/neural/network.py:15-19, 177-188), the embeddings that are
   trained (babylondigger/neural/utils.py:13-19, 101-107, babylondigger/neural/tagger/shared_builders.py:27-32, 49-53,
   babylondigger/neural/tagger/task_builders.py:201-204) and the repeated steps of babylondigger/neural/tagger/neural_tagger.py:144-147.
   Definitions only.

   Numbers are rational; the square root is an arbitrary function `root`.  A variable is a matrix, as a list of its rows (others are
   seen as matrices with one row).  The gradients are an arbitrary function of the variables, the batch and the random numbers.  What
   tensorflow does is written as in tensorflow 1.14: the gradient of a matrix whose rows are looked up is a list of slices, one for
   every look-up; tf.clip_by_global_norm takes the values of slices as they are; the optimizers add up slices of the same row; Adam
   changes all rows of a matrix, RMSProp only those of the slices.  Norms that are not finite are not modelled; errors
   that building the graph raises are raised by the first step. *)
From Coq Require Import String Ascii ZArith NArith QArith QArith.Qminmax Bool List.
From Verif Require Import Base.
Import ListNotations.

Definition vec := list Q.
Inductive gradient := Whole (rows : list vec) | Slices (slices : list (nat * vec)).

Fixpoint vadd (v w : vec) : vec := match v, w with x :: v', y :: w' => (x + y)%Q :: vadd v' w' | _, _ => [] end.
Definition vscale (q : Q) (v : vec) : vec := map (fun x => x * q)%Q v.

(* ---------- clipping: tf.clip_by_global_norm(gradients, clip_norm=5.0), network.py:185 ---------- *)

Definition squares (v : vec) : Q := fold_right (fun x s => x * x + s)%Q 0%Q v.
Definition sum_squares (vs : list vec) : Q := fold_right (fun v s => squares v + s)%Q 0%Q vs.
Definition values (g : gradient) : list vec := match g with Whole rows => rows | Slices l => map snd l end.

(* tf.global_norm: variables without a gradient are left out; tf.stack of nothing is a ValueError *)
Definition global_norm (root : Q -> Q) (gs : list (option gradient)) : result Q :=
  match concat (map (fun g => match g with Some g => [g] | None => [] end) gs) with
  | [] => Err EValue
  | l => Ok (root (sum_squares (concat (map values l))))
  end.

(* clip_norm * min(1 / norm, 1 / clip_norm); 1 / 0 is infinite *)
Definition clip_scale (clip_norm norm : Q) : Q :=
  if Qeq_bool norm 0 then clip_norm * (1 / clip_norm) else clip_norm * Qmin (1 / norm) (1 / clip_norm).

Definition scale_gradient (q : Q) (g : gradient) : gradient :=
  match g with
  | Whole rows => Whole (map (vscale q) rows)
  | Slices l => Slices (map (fun s => (fst s, vscale q (snd s))) l)
  end.
Definition clip (root : Q -> Q) (gs : list (option gradient)) : result (list (option gradient)) :=
  do n <- global_norm root gs;
  Ok (map (option_map (scale_gradient (clip_scale 5 n))) gs).

(* ---------- optimizers: network.py:15-19 ---------- *)

Inductive optimizer := GD | Adam | RMSProp.

(* network.py:178-181: the error message reads the type again *)
Definition optimizer_of (settings : dict str) : result optimizer :=
  do t <- of_option EKey (dict_get settings (of_string "type"));
  if str_eqb t (of_string "GD") then Ok GD
  else if str_eqb t (of_string "Adam") then Ok Adam
  else if str_eqb t (of_string "RMSProp") then Ok RMSProp
  else Err EValue.

(* a variable with the two slots of an optimizer: Adam has m and v, RMSProp the mean square in v *)
Record variable := mkVariable { v_name : str; v_trainable : bool; v_rows : list vec; v_m : list vec; v_v : list vec }.

(* the gradient of the rows of a matrix with n rows: None where no slice is *)
Definition by_row (n : nat) (g : gradient) : list (option vec) :=
  match g with
  | Whole rows => map Some rows
  | Slices l =>
      map (fun r => match filter (fun s => Nat.eqb (fst s) r) l with
                    | [] => None
                    | s :: ss => Some (fold_left (fun acc s' => vadd acc (snd s')) ss (snd s))
                    end) (seq 0 n)
  end.

Fixpoint map4 {X Y Z' U R} (f : X -> Y -> Z' -> U -> R) (a : list X) (b : list Y) (c : list Z') (d : list U) : list R :=
  match a, b, c, d with
  | x :: a', y :: b', z :: c', w :: d' => f x y z w :: map4 f a' b' c' d'
  | _, _, _, _ => []
  end.

(* the constants of the optimizers: beta1, beta2 and epsilon of Adam, decay and epsilon of RMSProp *)
Record constants := mkConstants { beta1 : Q; beta2 : Q; adam_epsilon : Q; rms_decay : Q; rms_epsilon : Q }.

(* a number of a row with its slots, for the gradient g: the new number, m and v; `lr` is the rate of the step *)
Definition update_number (root : Q -> Q) (k : constants) (o : optimizer) (lr x m v g : Q) : Q * Q * Q :=
  match o with
  | GD => (x - lr * g, m, v)
  | Adam =>
      let m' := beta1 k * m + (1 - beta1 k) * g in
      let v' := beta2 k * v + (1 - beta2 k) * (g * g) in
      (x - lr * m' / (root v' + adam_epsilon k), m', v')
  | RMSProp =>
      let v' := rms_decay k * v + (1 - rms_decay k) * (g * g) in
      (x - lr * g / root (v' + rms_epsilon k), m, v')
  end%Q.

(* a row with its slots; a row without a slice: Adam takes the gradient as 0, the others leave the row *)
Definition update_row (root : Q -> Q) (k : constants) (o : optimizer) (lr : Q) (row m v : vec) (g : option vec) : list (Q * Q * Q) :=
  match g, o with
  | Some g, _ => map4 (update_number root k o lr) row m v g
  | None, Adam => map4 (update_number root k o lr) row m v (map (fun _ => 0%Q) row)
  | None, _ => map4 (fun x m v (_ : Q) => (x, m, v)) row m v row
  end.

Definition update (root : Q -> Q) (k : constants) (o : optimizer) (lr : Q) (g : gradient) (x : variable) : variable :=
  let rows := map4 (update_row root k o lr) (v_rows x) (v_m x) (v_v x) (by_row (length (v_rows x)) g) in
  mkVariable (v_name x) (v_trainable x) (map (map (fun t => fst (fst t))) rows) (map (map (fun t => snd (fst t))) rows)
    (map (map snd) rows).

(* the rate of a step: Adam corrects it by the number of steps made before *)
Definition step_rate (root : Q -> Q) (k : constants) (o : optimizer) (lr : Q) (done : nat) : Q :=
  match o with
  | Adam => lr * root (1 - Qpower (beta2 k) (Z.of_nat (S done))) / (1 - Qpower (beta1 k) (Z.of_nat (S done)))
  | _ => lr
  end%Q.

(* apply_gradients: variables without a gradient are left out; the gradients are those of the trainable variables in their order *)
Fixpoint apply_gradients (root : Q -> Q) (k : constants) (o : optimizer) (lr : Q) (gs : list (option gradient)) (vars : list variable)
  : list variable :=
  match vars with
  | [] => []
  | x :: vars' =>
      if v_trainable x
      then match gs with
           | g :: gs' => (match g with Some g => update root k o lr g x | None => x end) :: apply_gradients root k o lr gs' vars'
           | [] => x :: vars'
           end
      else x :: apply_gradients root k o lr gs vars'
  end.

(* a step, network.py:183-188: compute_gradients is a ValueError without trainable variables; `gradient_of` gives the gradient of a
   variable, None: the loss does not depend on it *)
Definition step (root : Q -> Q) (k : constants) (o : optimizer) (lr : Q) (done : nat) (gradient_of : variable -> option gradient)
    (vars : list variable) : result (list variable) :=
  match filter v_trainable vars with
  | [] => Err EValue
  | trained =>
      do gs <- clip root (map gradient_of trained);
      Ok (apply_gradients root k o (step_rate root k o lr done) gs vars)
  end.

(* steps one after the other, neural_tagger.py:144-147: every batch has a rate and gradients, which depend on the variables *)
Fixpoint steps (root : Q -> Q) (k : constants) (o : optimizer) (done : nat)
    (batches : list (Q * (list variable -> variable -> option gradient))) (vars : list variable) : result (list variable) :=
  match batches with
  | [] => Ok vars
  | (lr, gradients) :: rest =>
      do vars' <- step root k o lr done (gradients vars) vars;
      steps root k o (S done) rest vars'
  end.
Definition train (root : Q -> Q) (k : constants) (settings : dict str)
    (batches : list (Q * (list variable -> variable -> option gradient))) (vars : list variable) : result (list variable) :=
  do o <- optimizer_of settings; steps root k o 0 batches vars.

(* ---------- embeddings ---------- *)

(* the features with a matrix of embeddings and whether they are trained: word_embedding (shared_builders.py:29-32),
   word_trained_embedding (52-53), subwords without and with 'embedding_path' (utils.py:101-106), input_subwords of lemma_combo
   (task_builders.py:202).  `setting` is 'trainable' of their settings. *)
Inductive embedding := WordEmbedding | TrainedEmbedding | Subwords (pretrained : bool) | InputSubwords (pretrained : bool).
Definition embedding_trained (e : embedding) (setting : option bool) : result bool :=
  match e with
  | WordEmbedding | TrainedEmbedding | Subwords true => of_option EKey setting
  | Subwords false | InputSubwords _ => Ok true
  end.
