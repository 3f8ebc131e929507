(* Properties C60-C62 and C73: shuffled data sets, minibatches, the learning rate and the epochs of training. *)
From Coq Require Import String Ascii ZArith NArith QArith Bool Lia Lqa Permutation List.
From Verif Require Import Base BaseFacts Model_UDEval Model_Harness Spec_Harness Model_Training Spec_Training Proofs_Training Proofs_Training2.
Import ListNotations.
Open Scope Z_scope.

(* ---------------- C60 ---------------- *)

(* Every pass gives every element exactly once and moves none by the batch size or more, whatever is drawn. *)
Theorem C60_bounded_permutation :
  forall (A R : Type) (seed_of : Z -> R) (below : R -> Z -> Z * R), in_range below ->
  forall (batch_size seed : Z) (datas : list (list A)), 1 <= batch_size ->
    Forall2 (fun d o => exists out, o = Ok out /\ moved_less batch_size d out) datas (passes seed_of below batch_size seed datas).
Proof. exact @passes_ok. Qed.
Print Assumptions C60_bounded_permutation.

(* The k-th pass depends on the seed, k and what the data set contains at that pass, not on the contents at earlier passes. *)
Theorem C60_reproducible :
  forall (A R : Type) (seed_of : Z -> R) (below : R -> Z -> Z * R) (batch_size seed : Z) (datas datas' : list (list A)) (k : nat),
    nth_error datas k = nth_error datas' k ->
    nth_error (passes seed_of below batch_size seed datas) k = nth_error (passes seed_of below batch_size seed datas') k.
Proof. exact @passes_same. Qed.
Print Assumptions C60_reproducible.

(* A batch size below 1 is refused at every pass, even without data. *)
Theorem C60_refused :
  forall (A R : Type) (seed_of : Z -> R) (below : R -> Z -> Z * R) (batch_size seed : Z) (datas : list (list A)),
    batch_size <= 0 -> Forall (fun o => o = Err EValue) (passes seed_of below batch_size seed datas).
Proof. exact @passes_refused. Qed.
Print Assumptions C60_refused.

(* a counter as generator *)
Definition ex_below (r n : Z) : Z * Z := ((7 * r + 3) mod n, r + 1).
Example C60_case :
  in_range ex_below /\
  passes (fun s => s) ex_below 4 11 [[1; 2; 3; 4; 5; 6; 7]; [1; 2; 3; 4; 5; 6; 7]; []] =
    [Ok [4; 1; 2; 3; 5; 7; 6]; Ok [3; 1; 2; 5; 7; 6; 4]; Ok []].
Proof.
  split; [|vm_compute; reflexivity]. intros r n P. cbn. apply Z.mod_pos_bound. auto.
Qed.

(* ---------------- C61 ---------------- *)

(* The batches cut the sentences of all documents, in order, into pieces of batch_size sentences; a batch size below 1 acts
   like 1. *)
Theorem C61_partition :
  forall (S : Type) (batch_size : Z) (documents : list (list S)),
    pieces (Z.max 1 batch_size) (concat documents) (minibatches batch_size documents).
Proof. exact @batches_pieces. Qed.
Print Assumptions C61_partition.

(* The loss of an epoch is the mean of the losses of its batches, each trained on the state the previous one left. *)
Theorem C61_epoch :
  forall (S M : Type) (step : Q -> M -> list S -> result (M * Q)) batch_size documents lr m m',
    (concat documents = [] -> train_epoch step batch_size documents lr m = Err EZeroDiv) /\
    (forall ls, concat documents <> [] -> steps (step lr) m (minibatches batch_size documents) m' ls ->
       exists q, train_epoch step batch_size documents lr m = Ok (m', q) /\ q == meanq ls) /\
    (forall q, train_epoch step batch_size documents lr m = Ok (m', q) ->
       exists ls, steps (step lr) m (minibatches batch_size documents) m' ls /\ q == meanq ls).
Proof.
  intros S M step bs docs lr m m'. split; [apply epoch_empty|]. split; [|apply epoch_inv]. intros ls N H. exact (epoch_steps step bs docs lr m m' ls N H).
Qed.
Print Assumptions C61_epoch.

Definition ex_step (lr : Q) (m : list Z) (b : list Z) : result (list Z * Q) := Ok (m ++ b, inject_Z (zlen b)).
Example C61_case :
  minibatches 2 [[1; 2; 3]; []; [4; 5]] = [[1; 2]; [3; 4]; [5]] /\ minibatches 0 [[1; 2]] = [[1]; [2]] /\
  minibatches 3 [[]; @nil Z] = [] /\
  exists q, train_epoch ex_step 2 [[1; 2; 3]; []; [4; 5]] 1 [] = Ok ([1; 2; 3; 4; 5], q) /\ q == 5 # 3.
Proof.
  repeat (split; [vm_compute; reflexivity|]). eexists. split; vm_compute; reflexivity.
Qed.

(* ---------------- C62 ---------------- *)

Definition ex_save (m : list Z) (path : str) : list Z * str := (m, path).
Definition ex_docs (e : Z) : result (list (list Z)) := Ok [[e; e + 1]].
(* accuracies 1, 2, 1, 3, 1 *)
Definition ex_test (t : list Z * str) : result table :=
  let acc := nth (length (fst t)) [0; 0; 1; 0; 2; 0; 1; 0; 3; 0; 1]%Q 0%Q in Ok [(of_string "UPOS", mkScore acc acc acc (Some acc))].

(* The decay is applied to the rate of the epoch before instead of the initial one: with a time-based decay of 1 the third
   epoch uses 1/6 instead of 1/3 of the initial rate. *)
Theorem C62_time_based_refuted :
  exists initial decay factor lrs ys lr,
    train ex_step ex_docs 2 ex_save None (of_string "m") initial decay factor 3 [] = (lrs, ys) /\ snd ys = None /\
    nth_error lrs 2 = Some lr /\ ~ lr == initial / (1 + decay * 2).
Proof.
  exists 1%Q, 1%Q, 2%Q. do 3 eexists. split; [vm_compute; reflexivity|]. split; [reflexivity|]. split; [reflexivity|]. vm_compute. discriminate.
Qed.
Print Assumptions C62_time_based_refuted.

(* The rate of epoch i: the initial rate divided by all decays up to i and once by the factor for every earlier epoch that
   stagnated. *)
Theorem C62_rate_partial :
  forall (S M T : Type) (step : Q -> M -> list S -> result (M * Q)) documents batch_size (save : M -> str -> T) dev dir
         initial decay factor epochs m lrs ys,
    (0 <= decay)%Q -> (1 <= factor)%Q ->
    train step documents batch_size save dev dir initial decay factor epochs m = (lrs, ys) ->
    forall i lr, nth_error lrs i = Some lr -> exists ks, NoDup ks /\
      (forall k, In k ks <-> ((k < i)%nat /\ stagnant (map (fun y => acc_of (fst y)) (fst ys)) k)) /\
      lr == initial / decays decay i / Qpower factor (Z.of_nat (length ks)).
Proof. exact @lr_exact. Qed.
Print Assumptions C62_rate_partial.

Theorem C62_falling :
  forall (S M T : Type) (step : Q -> M -> list S -> result (M * Q)) documents batch_size (save : M -> str -> T) dev dir
         initial decay factor epochs m lrs ys,
    (0 < initial)%Q -> (0 <= decay)%Q -> (1 <= factor)%Q ->
    train step documents batch_size save dev dir initial decay factor epochs m = (lrs, ys) ->
    (forall i lr, nth_error lrs i = Some lr -> 0 < lr <= initial)%Q /\
    (forall i j p q, (i <= j)%nat -> nth_error lrs i = Some p -> nth_error lrs j = Some q -> (q <= p)%Q).
Proof. exact @lr_falling. Qed.
Print Assumptions C62_falling.

Theorem C62_constant :
  forall (S M T : Type) (step : Q -> M -> list S -> result (M * Q)) documents batch_size (save : M -> str -> T) dev dir
         initial decay factor epochs m lrs ys,
    decay == 0 -> (1 <= factor)%Q ->
    train step documents batch_size save dev dir initial decay factor epochs m = (lrs, ys) ->
    (forall k, ~ stagnant (map (fun y => acc_of (fst y)) (fst ys)) k) ->
    forall i lr, nth_error lrs i = Some lr -> lr == initial.
Proof. exact @lr_constant. Qed.
Print Assumptions C62_constant.

(* without decay: the third accuracy is below the second, but not below the mean of 0, 0, 0, 1, 2; the fifth is below both *)
Example C62_case :
  exists lrs ys, train ex_step ex_docs 2 ex_save (Some ex_test) (of_string "m") 1 0 2 6 [] = (lrs, ys) /\
    Forall2 Qeq lrs [1; 1; 1; 1; 1; 1 # 2]%Q /\ map (fun y => acc_of (fst y)) (fst ys) = [1; 2; 1; 3; 1; 0]%Q /\
    stagnant [1; 2; 1; 3; 1; 0]%Q 4 /\ ~ stagnant [1; 2; 1; 3; 1; 0]%Q 2.
Proof.
  do 2 eexists. split; [vm_compute; reflexivity|]. split; [repeat constructor|]. split; [vm_compute; reflexivity|]. split.
  - eexists. split; [reflexivity|]. vm_compute. split; discriminate.
  - intros (acc & E & H). injection E as <-. destruct H as [_ H]. vm_compute in H. apply H. reflexivity.
Qed.

(* ---------------- C73 ---------------- *)

(* What training yields: without tester nothing; otherwise for each epoch in turn the scores of the model saved after it in
   its own directory, trained from the state of the epoch before with the rate of this epoch; one pair per epoch unless
   something raises. *)
Theorem C73_epochs :
  forall (S M T : Type) (step : Q -> M -> list S -> result (M * Q)) documents batch_size (save : M -> str -> T) dev dir
         initial decay factor epochs m lrs ys,
    train step documents batch_size save dev dir initial decay factor epochs m = (lrs, ys) ->
    (snd ys = None -> length lrs = Z.to_nat epochs) /\
    match dev with
    | None => fst ys = []
    | Some test =>
        (snd ys = None -> length (fst ys) = Z.to_nat epochs) /\
        exists ms, nth_error ms 0 = Some m /\
          forall i scores tagger, nth_error (fst ys) i = Some (scores, tagger) ->
            exists lr m1 m2 docs loss, nth_error lrs i = Some lr /\ nth_error ms i = Some m1 /\ nth_error ms (1 + i) = Some m2 /\
              documents (Z.of_nat i) = Ok docs /\ train_epoch step batch_size docs lr m1 = Ok (m2, loss) /\
              tagger = save m2 (path_join dir (epoch_name (Z.of_nat i))) /\ test tagger = Ok scores
    end.
Proof. exact @train_epochs. Qed.
Print Assumptions C73_epochs.

Example C73_case :
  exists lrs t0 t1, train ex_step ex_docs 2 ex_save (Some ex_test) (of_string "m") 1 0 2 2 [] =
    (lrs, ([(t0, ([0; 1], of_string "m/epoch-0")); (t1, ([0; 1; 1; 2], of_string "m/epoch-1"))], None)).
Proof. do 3 eexists. vm_compute. reflexivity. Qed.
