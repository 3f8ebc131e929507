(* Properties of training steps. *)
From Coq Require Import String Ascii ZArith NArith QArith Bool List Lia Lqa.
From Verif Require Import Base BaseFacts Model_Step Spec_Step Proofs_Step Proofs_Step2 Proofs_Step3.
Import ListNotations.
Open Scope Q_scope.

(* C119.  The gradient of a step is at most 5 long.  A word that is looked up j * j times with the same gradient is moved by one that
   is 5 j long, *)
Theorem C119_repeated_refuted : forall (root : Q -> Q) (j : nat), exact_on_squares root -> (1 <= j)%nat ->
  exists gs', clip root [Some (Slices (repeat (0%nat, [5]) (j * j)))] = Ok gs'
    /\ squared_length 1 1 gs' == 25 * (inject_Z (Z.of_nat j) * inject_Z (Z.of_nat j)).
Proof. exact repeated. Qed.
Print Assumptions C119_repeated_refuted.

(* and this is the worst that can happen. *)
Theorem C119_length_partial : forall (root : Q -> Q) (e : Q) (m n d : nat) gs gs',
  accurate e root -> 0 <= e -> (1 <= m)%nat -> (forall g, In (Some g) gs -> at_most m g) -> clip root gs = Ok gs' ->
  squared_length n d gs' <= inject_Z (Z.of_nat m) * (25 * (1 + e)).
Proof. exact clipped_length. Qed.
Print Assumptions C119_length_partial.

(* All gradients are multiplied with the same number between 0 and 1, which is 1 if their length (with every slice by itself) is at
   most 5; variables without a gradient have none afterwards. *)
Theorem C119_direction_partial : forall (root : Q -> Q) (e : Q) gs gs', accurate e root -> 0 <= e -> clip root gs = Ok gs' ->
  exists q, 0 < q <= 1 /\ (forall norm, global_norm root gs = Ok norm -> norm <= 5 -> q == 1) /\ length gs' = length gs
    /\ forall i, match nth_error gs i, nth_error gs' i with
                 | Some (Some g), Some (Some g') => forall r c, entry g' r c == q * entry g r c
                 | Some None, Some None => True
                 | None, None => True
                 | _, _ => False
                 end.
Proof.
  intros root e gs gs' A He C. destruct (clipped_direction root e gs gs' A He C) as (q & Q1 & Q2 & Q3 & Q4).
  exists q. split; [exact Q1|]. split; [|split; assumption].
  intros norm N L. apply Q2. unfold global_norm in N. unfold some_values.
  destruct (concat (map (fun g => match g with Some g => [g] | None => [] end) gs)) as [|g l]; [discriminate N|].
  injection N as <-. exact L.
Qed.
Print Assumptions C119_direction_partial.

(* C120.  Embeddings that are set not to be trained stay as they are.  Those of subwords without a file and of the characters of
   lemma_combo are trained: *)
Definition gd_settings : dict str := [(of_string "type", of_string "GD")].
Theorem C120_subwords_refuted : forall (root : Q -> Q) (k : constants) (err : Q) (e : embedding), accurate err root -> 0 <= err ->
  e = Subwords false \/ (exists p, e = InputSubwords p) ->
  exists flag batches x x', embedding_trained e (Some false) = Ok flag /\ v_trainable x = flag
    /\ train root k gd_settings batches [x] = Ok [x'] /\ ~ Forall2 (Forall2 Qeq) (v_rows x) (v_rows x').
Proof.
  intros root k err e A Herr He. exists true.
  exists [(1, fun _ _ => Some (Slices [(0%nat, [1])]))].
  exists (mkVariable (of_string "characters") true [[7]] [[0]] [[0]]).
  eexists. split; [destruct He as [-> | [p ->]]; reflexivity|]. split; [reflexivity|]. split; [reflexivity|].
  cbn [v_rows update map4 by_row length seq map filter fst snd Nat.eqb scale_gradient vscale update_row update_number fold_left step_rate].
  intros H. inversion_clear H as [|? ? ? ? H1 _]. inversion_clear H1 as [|? ? ? ? H2 _].
  destruct (clipped_squares root err (1 * 1 + 0 + 0) A Herr ltac:(lra)) as ((P & _) & _ & _). cbv zeta in P. lra.
Qed.
Print Assumptions C120_subwords_refuted.

(* For all others, and for every variable that is not trained, it holds. *)
Theorem C120_frozen_partial : forall (root : Q -> Q) (k : constants) settings batches vars vars' i x,
  train root k settings batches vars = Ok vars' -> nth_error vars i = Some x -> v_trainable x = false -> nth_error vars' i = Some x.
Proof.
  intros root k settings batches vars vars' i x H. unfold train in H.
  destruct (optimizer_of settings) as [o|err]; [|discriminate H]. cbn [bind] in H. exact (steps_frozen root k o batches 0 vars vars' i x H).
Qed.
Print Assumptions C120_frozen_partial.

Theorem C120_embeddings_partial : forall (root : Q -> Q) (k : constants) settings batches vars vars' i x e,
  train root k settings batches vars = Ok vars' -> nth_error vars i = Some x -> embedding_trained e (Some false) = Ok (v_trainable x) ->
  e <> Subwords false -> (forall p, e <> InputSubwords p) -> nth_error vars' i = Some x.
Proof.
  intros root k settings batches vars vars' i x e H N E S I. eapply C120_frozen_partial; [exact H|exact N|].
  destruct e as [| |[|]|p]; cbn in E; congruence.
Qed.
Print Assumptions C120_embeddings_partial.

(* C121.  A step changes only the rows of words in the batch.  With Adam every number that has momentum changes: *)
Theorem C121_adam_refuted : forall (root : Q -> Q) (k : constants) lr done gradient_of vars vars' i x r row m v c y a,
  0 < beta1 k -> ~ step_rate root k Adam lr done == 0 -> (forall q, ~ root q + adam_epsilon k == 0) ->
  step root k Adam lr done gradient_of vars = Ok vars' -> nth_error vars i = Some x -> v_trainable x = true ->
  gradient_of x <> None -> spares r (gradient_of x) -> has_row x r row m v ->
  nth_error row c = Some y -> nth_error m c = Some a -> ~ a == 0 ->
  exists x' row' y', nth_error vars' i = Some x' /\ nth_error (v_rows x') r = Some row' /\ nth_error row' c = Some y' /\ ~ y' == y.
Proof.
  intros root k lr done gradient_of vars vars' i x r row m v c y a B L P S N T G Sp R H1 H2 A.
  destruct (step_becomes root k Adam lr done gradient_of vars vars' i x S N) as (x' & N' & Bc).
  inversion Bc as [[X|X] E|g0 q X E E2]; subst x'; [congruence|congruence|].
  rewrite E in Sp. destruct (spares_scale r q g0 Sp) as (l & El & Nl). rewrite El in N'.
  pose proof (update_adam root k (step_rate root k Adam lr done) x r row m v l R Nl) as U. cbv zeta in U.
  destruct R as (R1 & R2 & R3 & R4 & R5).
  destruct (adam_moves root k (step_rate root k Adam lr done) row m v c y a B L P H1 H2 A R4 R5) as (y' & Y1 & Y2).
  eexists. eexists. exists y'. split; [exact N'|]. split; [apply U|]. split; [exact Y1|exact Y2].
Qed.
Print Assumptions C121_adam_refuted.

(* With the others it holds for all steps, *)
Theorem C121_rows_partial : forall (root : Q -> Q) (k : constants) settings o name r row m v batches vars vars' i x,
  optimizer_of settings = Ok o -> o <> Adam ->
  (forall lr gr, In (lr, gr) batches -> forall vars x, v_name x = name -> spares r (gr vars x)) ->
  train root k settings batches vars = Ok vars' -> nth_error vars i = Some x -> v_name x = name -> has_row x r row m v ->
  exists x', nth_error vars' i = Some x' /\ has_row x' r row m v.
Proof.
  intros root k settings o name r row m v batches vars vars' i x O Na Sp H. unfold train in H. rewrite O in H. cbn [bind] in H.
  exact (steps_spared root k o name r row m v Na batches 0 vars vars' i x Sp H).
Qed.
Print Assumptions C121_rows_partial.

(* and with Adam for rows of words that have not been in a batch before. *)
Theorem C121_new_rows_partial : forall (root : Q -> Q) (k : constants) settings name r batches vars vars' i x row m v,
  optimizer_of settings = Ok Adam ->
  (forall lr gr, In (lr, gr) batches -> forall vars x, v_name x = name -> spares r (gr vars x)) ->
  train root k settings batches vars = Ok vars' -> nth_error vars i = Some x -> v_name x = name -> has_row x r row m v ->
  Forall (fun q => q == 0) m ->
  exists x' row', nth_error vars' i = Some x' /\ nth_error (v_rows x') r = Some row' /\ Forall2 Qeq row row'.
Proof.
  intros root k settings name r batches vars vars' i x row m v O Sp H. unfold train in H. rewrite O in H. cbn [bind] in H.
  exact (steps_adam root k name r batches 0 vars vars' i x row m v Sp H).
Qed.
Print Assumptions C121_new_rows_partial.

(* C124.  A training step moves every number of the trained variables against its gradient.  With GD it moves by the rate times the
   gradient, with the same factor q for all numbers, which is 1 if the gradients are not clipped. *)
Theorem C124_gd_partial : forall (root : Q -> Q) (e : Q) (k : constants) lr done gradient_of vars vars',
  accurate e root -> 0 <= e -> step root k GD lr done gradient_of vars = Ok vars' ->
  exists q, 0 < q <= 1 /\
    (forall norm, global_norm root (map gradient_of (filter v_trainable vars)) = Ok norm -> norm <= 5 -> q == 1) /\
    forall i x g r c y a b, nth_error vars i = Some x -> v_trainable x = true -> gradient_of x = Some g -> fits_variable x g ->
      number_at vars i r c y a b -> exists y', number_at vars' i r c y' a b /\ y' == y - lr * (q * entry g r c).
Proof. exact gd_step. Qed.
Print Assumptions C124_gd_partial.

Theorem C124_rmsprop_partial : forall (root : Q -> Q) (e : Q) (k : constants) lr done gradient_of vars vars',
  accurate e root -> 0 <= e -> usual k -> 0 < lr -> means_positive vars ->
  step root k RMSProp lr done gradient_of vars = Ok vars' ->
  forall i x g r c y a b, nth_error vars i = Some x -> v_trainable x = true -> gradient_of x = Some g -> fits_variable x g ->
    number_at vars i r c y a b -> exists y' b', number_at vars' i r c y' a b' /\ against (entry g r c) y y'.
Proof.
  intros root e k lr done gradient_of vars vars' A He U L M S i x g r c y a b N T G F Y.
  destruct (rms_step root e k lr done gradient_of vars vars' A He U L S i x g r c y a b N T G F Y (mean_at _ _ _ _ _ _ _ M Y)) as (y' & b' & Y' & _ & Ag).
  exists y', b'. auto.
Qed.
Print Assumptions C124_rmsprop_partial.

(* With Adam it moves against the mean of the gradient and what is left of the gradients before, *)
Theorem C124_adam_partial : forall (root : Q -> Q) (e : Q) (k : constants) lr done gradient_of vars vars',
  accurate e root -> 0 <= e -> usual k -> 0 < lr -> means_positive vars ->
  step root k Adam lr done gradient_of vars = Ok vars' ->
  exists q, 0 < q <= 1 /\
    (forall norm, global_norm root (map gradient_of (filter v_trainable vars)) = Ok norm -> norm <= 5 -> q == 1) /\
    forall i x g r c y a b, nth_error vars i = Some x -> v_trainable x = true -> gradient_of x = Some g -> fits_variable x g ->
      number_at vars i r c y a b ->
      exists y' a' b', number_at vars' i r c y' a' b' /\ a' == beta1 k * a + (1 - beta1 k) * (q * entry g r c) /\ against a' y y'
        /\ (0 <= a * entry g r c -> ~ entry g r c == 0 -> against (entry g r c) y y').
Proof.
  intros root e k lr done gradient_of vars vars' A He U L M S.
  destruct (adam_step root e k lr done gradient_of vars vars' A He U L S) as (q & Q1 & Q2 & Q3). exists q. split; [exact Q1|]. split; [exact Q2|].
  intros i x g r c y a b N T G F Y. destruct (Q3 i x g r c y a b N T G F Y (mean_at _ _ _ _ _ _ _ M Y)) as (y' & a' & b' & Y' & _ & Ea & Ag).
  exists y', a', b'. split; [exact Y'|]. split; [exact Ea|]. split; [exact Ag|]. intros Sg Nz. destruct U as (U1 & U2 & _).
  set (z := entry g r c) in *. destruct Ag as (G1 & G2 & G3). split; [|split]; intros H.
  - apply G1. rewrite Ea. assert (0 <= a) by nra. assert (0 < (1 - beta1 k) * (q * z)) by (apply Qmult_lt_0_compat; [lra|]; apply Qmult_lt_0_compat; lra). nra.
  - apply G2. rewrite Ea. assert (a <= 0) by nra. assert (0 < (1 - beta1 k) * (q * - z)) by (apply Qmult_lt_0_compat; [lra|]; apply Qmult_lt_0_compat; lra). nra.
  - contradiction.
Qed.
Print Assumptions C124_adam_partial.

(* so that it can go the other way: a gradient of -4, then one of 1. *)
Definition turn_batches : list (Q * (list variable -> variable -> option gradient)) :=
  [ (1, fun _ _ => Some (Whole [[-4]])); (1, fun _ _ => Some (Whole [[1]])) ].
Definition turn_variable : variable := mkVariable (of_string "bias") true [[0]] [[0]] [[0]].
Theorem C124_adam_refuted : exists (root : Q -> Q) (e : Q) (k : constants) vars1 vars2 y1 a1 b1 y2 a2 b2,
  accurate e root /\ 0 <= e /\ usual k /\
  train root k [(of_string "type", of_string "Adam")] (firstn 1 turn_batches) [turn_variable] = Ok vars1 /\
  train root k [(of_string "type", of_string "Adam")] turn_batches [turn_variable] = Ok vars2 /\
  number_at vars1 0 0 0 y1 a1 b1 /\ number_at vars2 0 0 0 y2 a2 b2 /\ ~ against 1 y1 y2.
Proof.
  exists (root_of 1000), (root_error 1000), (mkConstants (9 # 10) (99 # 100) (1 # 1000) (9 # 10) (1 # 1000)).
  eexists. eexists. eexists. eexists. eexists. eexists. eexists. eexists.
  split; [apply root_accurate|]. split; [unfold root_error, Qle; cbn; lia|]. split; [unfold usual; cbn; lra|].
  split; [vm_compute; reflexivity|]. split; [vm_compute; reflexivity|].
  split; [eexists; eexists; eexists; eexists; repeat split; reflexivity|]. split; [eexists; eexists; eexists; eexists; repeat split; reflexivity|].
  intros (H & _). specialize (H ltac:(lra)). vm_compute in H. discriminate H.
Qed.
Print Assumptions C124_adam_refuted.

(* What the two theorems assume of the means of squares holds for all variables of a training that starts with slots of 0. *)
Theorem C124_means : forall (root : Q -> Q) (k : constants) settings batches vars vars', usual k ->
  train root k settings batches vars = Ok vars' -> means_positive vars -> means_positive vars'.
Proof. exact train_means. Qed.
Print Assumptions C124_means.

(* ---------- cases ---------- *)

(* a square root with a relative error of its square of about a five-hundredth, exact for squares *)
Example C119_root_case : accurate (root_error 1000) (root_of 1000) /\ 0 <= root_error 1000 /\ exact_on_squares (root_of 1000)
  /\ root_of 1000 2 = 1414 # 1000 /\ root_of 1000 (9 # 4) == 3 # 2.
Proof.
  split; [apply root_accurate|]. split; [unfold root_error, Qle; cbn; lia|]. split; [apply root_exact|]. split; vm_compute; reflexivity.
Qed.

(* two variables, one of them without a gradient: length 10 becomes 5; a word that is looked up four times: 10 *)
Definition reduced (gs : result (list (option gradient))) : result (list (option gradient)) :=
  match gs with
  | Ok l => Ok (map (option_map (fun g => match g with
                                          | Whole rows => Whole (map (map Qred) rows)
                                          | Slices s => Slices (map (fun p => (fst p, map Qred (snd p))) s)
                                          end)) l)
  | Err e => Err e
  end.
Example C119_case :
  reduced (clip (root_of 1) [Some (Whole [[6; 0]; [0; 0]]); None; Some (Slices [(3%nat, [8])])])
  = Ok [Some (Whole [[3; 0]; [0; 0]]); None; Some (Slices [(3%nat, [4])])]
  /\ reduced (clip (root_of 1) [Some (Slices (repeat (0%nat, [5]) 4))]) = Ok [Some (Slices (repeat (0%nat, [5 # 2]) 4))]
  /\ reduced (clip (root_of 1) [Some (Whole [[3; 4]])]) = Ok [Some (Whole [[3; 4]])]
  /\ clip (root_of 1) [None; None] = Err EValue.
Proof. repeat split; vm_compute; reflexivity. Qed.

(* three words; the first batch has words 1 and 2, twice the latter, the second has word 2; word 0 is in none *)
Definition case_constants : constants := mkConstants (9 # 10) (99 # 100) (1 # 1000) (9 # 10) (1 # 1000).
Definition case_words : variable := mkVariable (of_string "words") true [[5]; [6]; [7]] [[0]; [0]; [0]] [[0]; [0]; [0]].
Definition case_frozen : variable := mkVariable (of_string "word_embeddings") false [[1]; [2]] [[0]; [0]] [[0]; [0]].
Definition case_batches : list (Q * (list variable -> variable -> option gradient)) :=
  [ (1, fun _ _ => Some (Slices [(1%nat, [1]); (2%nat, [1]); (2%nat, [1])]));
    (1 # 2, fun _ _ => Some (Slices [(2%nat, [4])])) ].
Definition rows_after (type : str) : result (list (list vec)) :=
  match train (root_of 1000) case_constants [(of_string "type", type)] case_batches [case_words; case_frozen] with
  | Ok l => Ok (map (fun x => map (map Qred) (v_rows x)) l)
  | Err e => Err e
  end.
Example C120_case : rows_after (of_string "GD") = Ok [[[5]; [5]; [3]]; [[1]; [2]]] /\ rows_after (of_string "SGD") = Err EValue.
Proof. split; vm_compute; reflexivity. Qed.
Example C121_case :
  match rows_after (of_string "Adam"),
        train (root_of 1000) case_constants [(of_string "type", of_string "Adam")] (firstn 1 case_batches) [case_words; case_frozen] with
  | Ok [[[w0]; [w1]; [w2]]; _], Ok [x; _] => w0 = 5 /\ exists y, nth_error (v_rows x) 1 = Some [y] /\ ~ w1 == y
  | _, _ => False
  end.
Proof. vm_compute. split; [reflexivity|]. eexists. split; [reflexivity|]. discriminate. Qed.
Example C121_spared_case : (forall lr gr, In (lr, gr) case_batches -> forall vars x, v_name x = of_string "words" -> spares 0 (gr vars x))
  /\ has_row case_words 0 [5] [0] [0] /\ optimizer_of [(of_string "type", of_string "RMSProp")] = Ok RMSProp.
Proof.
  split; [|split; [repeat split|reflexivity]].
  intros lr gr [E|[E|[]]] vars x _; injection E as <- <-; cbn; intuition discriminate.
Qed.

(* word 2 of three is looked up twice, and the gradients are 10 long: the factor is a half *)
Example C124_case :
  let g := Slices [(1%nat, [6]); (2%nat, [0]); (2%nat, [-8])] in
  fits_variable case_words g /\ number_at [case_words] 0 2 0 7 0 0 /\ entry g 2 0 == -8 /\ means_positive [case_words] /\ usual case_constants /\
  match step (root_of 1000) case_constants GD (1 # 10) 0 (fun _ => Some g) [case_words] with
  | Ok [x] => map (map Qred) (v_rows x) = [[5]; [57 # 10]; [37 # 5]]
  | _ => False
  end.
Proof.
  cbv zeta. split; [|split; [|split; [|split; [|split]]]].
  - intros s [<-|[<-|[<-|[]]]]; eexists; (split; reflexivity).
  - eexists. eexists. eexists. eexists. repeat split; reflexivity.
  - reflexivity.
  - repeat constructor; discriminate.
  - unfold usual; cbn; lra.
  - vm_compute. reflexivity.
Qed.
