(* Model of the data sets (babylondigger/evaluation/dataset.py:19-45) and of the training loop
   (babylondigger/neural/tagger/neural_tagger.py:90-176).  Definitions only.

   Random numbers: random.Random is a state of an arbitrary type R with the operations seed_of (the constructor) and below
   (randrange(n) for positive n, the source of all draws made here).  Floats are exact rational numbers. *)
From Coq Require Import String Ascii ZArith NArith QArith Bool List.
From Verif Require Import Base Model_UDEval Model_Harness.
Import ListNotations.
Open Scope Z_scope.

(* ------------------------------------------------------------------ *)
(* ShuffledDataset                                                     *)

(* Random.randrange(a, b) *)
Definition randrange {R} (below : R -> Z -> Z * R) (a b : Z) (r : R) : result (Z * R) :=
  if a <? b then let (x, r') := below r (b - a) in Ok (a + x, r') else Err EValue.

(* x[i], x[j] = x[j], x[i] *)
Definition swap {A} (l : list A) (i j : nat) : result (list A) :=
  match nth_error l i, nth_error l j with
  | Some x, Some y => Ok (set_nth (set_nth l i y) j x)
  | _, _ => Err EIndex
  end.

(* Random.shuffle: for i in reversed(range(1, len(x))): j = randbelow(i + 1); swap *)
Fixpoint shuffle_from {A R} (below : R -> Z -> Z * R) (i : nat) (l : list A) (r : R) : result (list A * R) :=
  match i with
  | O => Ok (l, r)
  | S i' =>
      let (j, r') := below r (Z.of_nat i + 1) in
      do l' <- swap l i (Z.to_nat j);
      shuffle_from below i' l' r'
  end.
Definition shuffle {A R} (below : R -> Z -> Z * R) (l : list A) (r : R) : result (list A * R) :=
  shuffle_from below (length l - 1) l r.

(* __split, dataset.py:31-43.  int(self._batch_size/2) is the quotient truncated towards 0; the float division is exact for
   batch sizes below 2^53. *)
Fixpoint split_batches {A R} (below : R -> Z -> Z * R) (batch_size : Z) (fuel : nat) (data : list A) (r : R)
  : result (list (list A)) :=
  match fuel with
  | O => Err EFuel
  | S fuel' =>
      do sr <- randrange below (Z.quot batch_size 2 + 1) (batch_size + 1) r;
      let size := Z.to_nat (fst sr) in
      match firstn size data with
      | [] => Ok []
      | batch =>
          do br <- shuffle below batch (snd sr);
          do rest <- split_batches below batch_size fuel' (skipn size data) (snd br);
          Ok (fst br :: rest)
      end
  end.

(* __iter__, dataset.py:30-45: one pass; r is the state of self._random.  All batches are built before the first element is
   given out, because chain takes them as arguments. *)
Definition shuffled_pass {A R} (seed_of : Z -> R) (below : R -> Z -> Z * R) (batch_size : Z) (r : R) (data : list A)
  : R * result (list A) :=
  let (s, r') := below r 1000000 in
  (r', do bs <- split_batches below batch_size (S (length data)) data (seed_of s); Ok (concat bs)).

(* passes one after another over what the data set contains at each time, starting from self._random = Random(seed) *)
Fixpoint passes_from {A R} (seed_of : Z -> R) (below : R -> Z -> Z * R) (batch_size : Z) (r : R) (datas : list (list A))
  : list (result (list A)) :=
  match datas with
  | [] => []
  | d :: datas' => let (r', o) := shuffled_pass seed_of below batch_size r d in
                   o :: passes_from seed_of below batch_size r' datas'
  end.
Definition passes {A R} (seed_of : Z -> R) (below : R -> Z -> Z * R) (batch_size seed : Z) (datas : list (list A))
  : list (result (list A)) :=
  passes_from seed_of below batch_size (seed_of seed) datas.

(* ------------------------------------------------------------------ *)
(* Minibatches                                                         *)

(* one sentence, neural_tagger.py:170-173: the batches so far and the sentences waiting *)
Definition take_sentence {S} (batch_size : Z) (s : list (list S) * list S) (sent : S) : list (list S) * list S :=
  let sents := snd s ++ [sent] in
  if batch_size <=? zlen sents then (fst s ++ [sents], []) else (fst s, sents).

(* _get_minibatches, neural_tagger.py:161-176, as the lists of sentences that are extracted; documents as the lists of their
   sentences *)
Definition minibatches {S} (batch_size : Z) (documents : list (list S)) : list (list S) :=
  let (done, sents) := fold_left (fun s d => fold_left (take_sentence batch_size) d s) documents ([], []) in
  match sents with [] => done | _ => done ++ [sents] end.

(* _train_epoch, neural_tagger.py:141-154.  step extracts features and labels of a batch and trains on them: it gives the new
   state of the network and the loss. *)
Definition train_epoch {S M} (step : Q -> M -> list S -> result (M * Q)) (batch_size : Z) (documents : list (list S))
           (lr : Q) (m : M) : result (M * Q) :=
  let batches := minibatches batch_size documents in
  do s <- foldM (fun s b => do r <- step lr (fst s) b; Ok (fst r, (snd s + snd r)%Q)) (m, 0%Q) batches;
  match batches with
  | [] => Err EZeroDiv
  | _ => Ok (fst s, (snd s / inject_Z (zlen batches))%Q)
  end.

(* ------------------------------------------------------------------ *)
(* The training loop                                                   *)

Definition divide (a b : Q) : result Q := if Qeq_bool b 0 then Err EZeroDiv else Ok (a / b)%Q.

(* _get_lr, neural_tagger.py:157-158 *)
Definition get_lr (epoch : Z) (initial decay : Q) : result Q := divide initial (1 + decay * inject_Z epoch).

(* line 127 *)
Definition accuracy (t : table) : Q :=
  fold_left (fun a kv => match s_aligned (snd kv) with Some x => (a + x)%Q | None => a end) t 0%Q.

Fixpoint total (l : list Q) : Q := match l with [] => 0 | q :: l' => q + total l' end%Q.

(* line 128; _previous_accs is never empty *)
Definition stagnates (previous : list Q) (acc : Q) : bool :=
  Qle_bool acc (last previous 0%Q) && Qle_bool acc (total previous / inject_Z (zlen previous))%Q.

(* the loop of NeuralTaggerTrainer.train, lines 110-138: the learning rates of the epochs, and what the generator yields.
   epoch_run trains one epoch (_train_epoch over the documents of that epoch), save is NeuralTagger(...).save(path),
   dev the optional dev_tester, path_of the directory of an epoch. *)
Fixpoint train_loop {M T} (epoch_run : Z -> Q -> M -> result M) (save : M -> str -> T) (dev : option (T -> result table))
         (path_of : Z -> str) (decay factor : Q) (n : nat) (epoch : Z) (lr : Q) (previous : list Q) (m : M)
  : list Q * gen (table * T) :=
  match n with
  | O => ([], ([], None))
  | S n' =>
      match get_lr epoch lr decay with
      | Err e => ([], ([], Some e))
      | Ok lr =>
          match epoch_run epoch lr m with
          | Err e => ([lr], ([], Some e))
          | Ok m' =>
              let tagger := save m' (path_of epoch) in
              match dev with
              | None =>
                  let (lrs, ys) := train_loop epoch_run save dev path_of decay factor n' (epoch + 1) lr previous m' in
                  (lr :: lrs, ys)
              | Some test =>
                  match test tagger with
                  | Err e => ([lr], ([], Some e))
                  | Ok scores =>
                      let acc := accuracy scores in
                      match (if stagnates previous acc then divide lr factor else Ok lr) with
                      | Err e => ([lr], ([], Some e))
                      | Ok lr' =>
                          let (lrs, ys) := train_loop epoch_run save dev path_of decay factor n' (epoch + 1) lr'
                                                      (tl (previous ++ [acc])) m' in
                          (lr :: lrs, ((scores, tagger) :: fst ys, snd ys))
                      end
                  end
              end
          end
      end
  end.

(* NeuralTaggerTrainer.train, lines 104-138, after the network was built: documents of each epoch (a shuffled data set gives
   them in another order each time), the directory model_dir and the default model_name_format *)
Definition train {S M T} (step : Q -> M -> list S -> result (M * Q)) (documents : Z -> result (list (list S)))
           (batch_size : Z) (save : M -> str -> T) (dev : option (T -> result table)) (model_dir : str)
           (initial decay factor : Q) (epochs : Z) (m : M) : list Q * gen (table * T) :=
  train_loop (fun e lr m => do ds <- documents e; do r <- train_epoch step batch_size ds lr m; Ok (fst r)) save dev
             (fun e => path_join model_dir (epoch_name e)) decay factor (Z.to_nat epochs) 0 initial [0; 0; 0; 0; 0]%Q m.
