(* Properties of dropout. *)
From Coq Require Import String Ascii ZArith NArith QArith Bool List Lia.
From Verif Require Import Base BaseFacts Model_Layers Model_Network Model_Dropout Spec_Network Spec_Dropout Proofs_Layers Proofs_Dropout Proofs_Dropout2.
Import ListNotations.

(* C116.  Predictions are made without dropout. *)
Theorem C116_feed : forall (T O V : Type) (teqb : T -> T -> bool) (n : network T O) (t : T) (input : dict V) (f : feed T V) (default : V),
  identity_test teqb -> NoDup (map snd (n_inputs n) ++ map snd (n_gold n)) -> dict_ok input ->
  dict_get (n_gold n) n_dropout = Some t -> get_feed_dict teqb n input None = Ok f ->
  dropout_value teqb default f t = default.
Proof. intros T O V teqb n t input f default Heq. apply (predicted_default teqb Heq). Qed.
Print Assumptions C116_feed.

(* and the probability of a training step is that of the settings *)
Theorem C116_training : forall (T O V : Type) (teqb : T -> T -> bool) (n : network T O) (t : T) (input labels : dict V) (lr d : V)
    (f : feed T V) (default : V),
  identity_test teqb -> NoDup (map snd (n_inputs n) ++ map snd (n_gold n)) -> dict_ok input -> dict_ok labels ->
  dict_get (n_gold n) n_dropout = Some t -> get_feed_dict teqb n input (Some (training_labels labels lr d)) = Ok f ->
  dropout_value teqb default f t = d.
Proof. intros T O V teqb n t input labels lr d f default Heq. apply (trained_value teqb Heq). Qed.
Print Assumptions C116_training.

Theorem C116_prediction : forall (A : arith) (W : Type) (D : dropping A) (u : noise A) (n : layered_net A W) b s,
  exact_one D -> not_negative u -> Forall has_parts (l_tasks n) ->
  net_answers D (one D) u n b s = predict_sentence (plain n) b s.
Proof. intros A W D u n b s E N H. now apply prediction. Qed.
Print Assumptions C116_prediction.

(* C117.  Dropout acts behind every layer that is given its probability.  It does not act behind the recurrent layers, and a network
   of word features and lemma_combo is trained without it. *)
Theorem C117_layers_refuted : forall (A : arith) (W : Type) (D : dropping A) (keep : num A) (u v : noise A) (n : layered_net A W) b s,
  same_outside_layers u v -> net_logits D keep u n b s = net_logits D keep v n b s.
Proof. intros. now apply layers_quiet. Qed.
Print Assumptions C117_layers_refuted.

Theorem C117_combo_refuted : forall (A : arith) (W : Type) (D : dropping A) (keep keep' : num A) (u v : noise A) (n : layered_net A W) b s,
  l_encoder n = WE_charCNN -> Forall is_combo (l_tasks n) -> net_logits D keep u n b s = net_logits D keep' v n b s.
Proof. intros. now apply combo_quiet. Qed.
Print Assumptions C117_combo_refuted.

(* It acts on the input of the encoder, on what is skipped to its output, on the input of the convolution over bilstm, *)
Theorem C117_bilstm_partial : forall (A : arith) (W : Type) (D : dropping A) (keep : num A) (u : noise A) layers sk (fs : @features A W) b s,
  let words := word_features fs b s in
  let r := shared_dropped D keep u (BiLSTM layers sk) fs b s in
  exists input skipped, dropped D keep (u AtInput) words input /\ dropped D keep (u AtSkip) words skipped /\
    dict_get r n_bilstm = Some (bilstm_layer layers (length s) input) /\
    (forall k, sk = Some k -> dict_get r n_bilstm_words = Some (skip k (bilstm_layer layers (length s) input) skipped)) /\
    dict_get r n_word_features = Some words.
Proof.
  intros A W D keep u layers sk fs b s words r.
  exists (nn_dropout D keep (u AtInput) words), (nn_dropout D keep (u AtSkip) words).
  split; [apply nn_dropout_dropped|]. split; [apply nn_dropout_dropped|].
  unfold r. cbn [shared_dropped]. unfold bilstm_shared. cbv zeta. rewrite bilstm_dropped_plain. fold words.
  split; [|split].
  - destruct sk as [k|]; cbn [with_skip]; [rewrite dict_get_set_other by discriminate|]; apply dict_get_set_same.
  - intros k ->. cbn [with_skip]. apply dict_get_set_same.
  - destruct sk as [k|]; cbn [with_skip]; rewrite ?dict_get_set_other by discriminate; apply dict_get_set_same.
Qed.
Print Assumptions C117_bilstm_partial.

Theorem C117_dilated_partial : forall (A : arith) (W : Type) (D : dropping A) (keep : num A) (u : noise A) kernels sk (fs : @features A W) b s,
  let words := word_features fs b s in
  let r := shared_dropped D keep u (Dilated_CNN kernels sk) fs b s in
  exists input skipped, dropped D keep (u AtInput) words input /\ dropped D keep (u AtSkip) words skipped /\
    dict_get r n_dilated = Some (conv_layers kernels input) /\
    (forall k, sk = Some k -> dict_get r n_dilated_words = Some (skip k (conv_layers kernels input) skipped)) /\
    dict_get r n_word_features = Some words.
Proof.
  intros A W D keep u kernels sk fs b s words r.
  exists (nn_dropout D keep (u AtInput) words), (nn_dropout D keep (u AtSkip) words).
  split; [apply nn_dropout_dropped|]. split; [apply nn_dropout_dropped|].
  unfold r. cbn [shared_dropped]. cbv zeta. fold words.
  split; [|split].
  - destruct sk as [k|]; cbn [with_skip]; [rewrite dict_get_set_other by discriminate|]; apply dict_get_set_same.
  - intros k ->. cbn [with_skip]. apply dict_get_set_same.
  - destruct sk as [k|]; cbn [with_skip]; rewrite ?dict_get_set_other by discriminate; apply dict_get_set_same.
Qed.
Print Assumptions C117_dilated_partial.

Theorem C117_convolution_partial : forall (A : arith) (W : Type) (D : dropping A) (keep : num A) (u : noise A) layers sk kernels
    (fs : @features A W) b s,
  ~ In n_bilstm_words (map fst fs) ->
  let bilstm := shared_dropped D keep u (BiLSTM layers sk) fs b s in
  exists from input, dict_get bilstm (match sk with None => n_bilstm | Some _ => n_bilstm_words end) = Some from /\
    dropped D keep (u AtConvolution) from input /\
    forall name, dict_get (shared_dropped D keep u (BiLSTM_CNN layers sk kernels) fs b s) name
      = if str_eqb name n_bilstm_cnn then Some (map (word_cnn kernels) input) else dict_get bilstm name.
Proof.
  intros A W D keep u layers sk kernels fs b s N bilstm. destruct (convolution_from D keep u layers sk fs b s N) as [from [H1 H2]].
  exists from, (nn_dropout D keep (u AtConvolution) from). split; [exact H1|]. split; [apply nn_dropout_dropped|].
  intros name. cbn [shared_dropped]. cbv zeta.
  change (bilstm_shared D keep u layers sk fs b s) with bilstm in *. fold bilstm in H2. rewrite H2.
  destruct (str_eqb name n_bilstm_cnn) eqn:E.
  - apply str_eqb_eq in E. subst name. apply dict_get_set_same.
  - apply dict_get_set_other. intros <-. rewrite str_eqb_refl in E. discriminate.
Qed.
Print Assumptions C117_convolution_partial.

(* and between the two dense layers of every part of a label. *)
Theorem C117_heads_partial : forall (A : arith) (W : Type) (D : dropping A) (keep : num A) (u : noise A) t name heads rules
    (shared : dict (list (list (num A)))) (b : list (list W)) s ls j h rows,
  task_logits D keep u t (TDense name heads rules) shared b s = Ok ls -> nth_error heads j = Some h -> nth_error ls j = Some rows ->
  exists vs between, dict_get shared name = Some vs /\ dropped D keep (u (AtHead t j)) (map (fst h) vs) between /\
    rows = match rules with
           | None => map (snd h) between
           | Some (n, allowed) =>
               map2 (fun l m => masked m l) (map (snd h) between) (pad_to (longest_sentence b) (repeat false n) (map allowed s))
           end.
Proof.
  intros A W D keep u t name heads rules shared b s ls j h rows L Hj R. cbn [task_logits] in L.
  destruct (dict_get shared name) as [vs|]; [|discriminate L]. cbn [of_option bind] in L.
  assert (L' : ls = indexed (fun j h =>
            match rules with
            | None => head_logits D keep u t j h vs
            | Some (n, allowed) =>
                map2 (fun l m => masked m l) (head_logits D keep u t j h vs) (pad_to (longest_sentence b) (repeat false n) (map allowed s))
            end) heads) by congruence. subst ls. clear L. rewrite nth_indexed, Hj in R. cbn [option_map] in R.
  exists vs, (nn_dropout D keep (u (AtHead t j)) (map (fst h) vs)). split; [reflexivity|]. split; [apply nn_dropout_dropped|].
  destruct rules as [[n allowed]|]; unfold head_logits in R; congruence.
Qed.
Print Assumptions C117_heads_partial.

(* C118.  The setting `dropout` is the share of values that are left out in training; 0 switches dropout off.  Of n equally likely
   random numbers, k keep the value when the setting is k / n. *)
Theorem C118_share_refuted : forall n k, (0 < n)%nat -> (k <= n)%nat ->
  length (filter (fun i => negb (Qeq_bool (drop rational_dropping (minus rational_dropping 1%Q (draw n k)) (draw n i) 1%Q) 0%Q)) (seq 0 n)) = k.
Proof. exact share_not_zero. Qed.
Print Assumptions C118_share_refuted.

(* With 0, a dense task computes the same logits for every word of every sentence, whatever has been trained. *)
Theorem C118_zero_refuted : forall (A : arith) (W : Type) (D : dropping A) (h : (list (num A) -> list (num A)) * (list (num A) -> list (num A))) size,
  exact_one D -> (forall x y : num A, mul (divide D x zero) zero = mul (divide D y zero) zero) -> (forall v, length (fst h v) = size) ->
  exists l0, forall (u : noise A) t name heads j shared (b : list (list W)) s ls rows l, less_than_one D u ->
    nth_error heads j = Some h -> task_logits D zero u t (TDense name heads None) shared b s = Ok ls ->
    nth_error ls j = Some rows -> In l rows -> l = l0.
Proof. intros A W D h size E Z F. exact (all_alike D E h size Z F). Qed.
Print Assumptions C118_zero_refuted.

(* What holds: 1 switches dropout off, *)
Theorem C118_one_partial : forall (A : arith) (W : Type) (D : dropping A) (u v : noise A) (n : layered_net A W) b s,
  exact_one D -> not_negative u -> not_negative v -> net_logits D (one D) u n b s = net_logits D (one D) v n b s.
Proof. intros A W D u v n b s E. exact (kept_logits D E u v n b s). Qed.
Print Assumptions C118_one_partial.

(* and with any other setting than 0 values stay what they are on average. *)
Theorem C118_mean_partial : forall n k x, (0 < k <= n)%nat ->
  (total (map (fun i => drop rational_dropping (minus rational_dropping 1%Q (draw n k)) (draw n i) x) (seq 0 n)) / inject_Z (Z.of_nat n) == x)%Q.
Proof.
  intros n k x H. cbn [minus rational_dropping]. rewrite (mean_kept n k x H). field.
  intros X. pose proof (qpos n ltac:(lia)) as P. rewrite X in P. now apply Qlt_irrefl in P.
Qed.
Print Assumptions C118_mean_partial.

(* ---------- cases ---------- *)

(* words are integers; two components each; one recurrent layer that adds up what it has read *)
Section Case.
Variable A : arith.
Variable of_Z : Z -> num A.
Definition case_cell : cell A := mkCell (num A) (of_Z 0%Z) (fun st v => let st' := fold_left add v st in (st', [st'])).
Definition case_layer : lstm A := mkLstm case_cell case_cell 1.
Definition case_features : @features A Z := [(of_string "word_embedding", WordLevel (fun w => w) (fun i => [of_Z i; of_Z (i + 1)]) (fun v => v))].
Definition case_heads : list ((list (num A) -> list (num A)) * (list (num A) -> list (num A))) :=
  [ ((fun v => [fold_left add v (of_Z 0%Z); of_Z 7%Z]), (fun v => v));
    ((fun v => firstn 1 v), (fun v => of_Z 5%Z :: v)) ].
Definition case_net (sk : option skip_connection) : layered_net A Z :=
  mkLayered case_features (BiLSTM [case_layer; case_layer] sk)
    [ TDense (of_string "bilstm") case_heads None; TDense (of_string "word_embedding") case_heads None ].
End Case.

Definition case_noise : noise integers := fun _ i c => Z.of_nat (i + c).
Example C116_case : exact_one integer_dropping /\ not_negative case_noise
  /\ Forall has_parts (l_tasks (case_net integers (fun z => z) (Some SkipConcat)))
  /\ net_answers integer_dropping 1%Z case_noise (case_net integers (fun z => z) (Some SkipConcat)) [[1;2]; [3;4;1]]%Z [1;2]%Z
     = Ok [[[0; 1]; [0; 1]; [1; 0]]; [[1; 0]; [1; 0]; [1; 0]]]%nat.
Proof.
  split; [|split; [|split; [|vm_compute; reflexivity]]].
  - constructor; try reflexivity; [apply Z.div_1_r|apply Z.mul_1_r].
  - intros p i c. unfold case_noise. cbn. apply Z.leb_le. lia.
  - repeat constructor; cbn; discriminate.
Qed.

Definition case_network : network nat nat :=
  mkNetwork [(of_string "words", 0%nat)] [] [(n_dropout, 1%nat); (n_lr, 2%nat); (of_string "pos_labels", 3%nat)] 9%nat 4%nat [].
Example C116_feed_case :
  exists f g, get_feed_dict Nat.eqb case_network [(of_string "words", 30)] None = Ok f /\ dropout_value Nat.eqb 100 f 1%nat = 100
    /\ get_feed_dict Nat.eqb case_network [(of_string "words", 30)] (Some (training_labels [(of_string "pos_labels", 40)] 2 50)) = Ok g
    /\ dropout_value Nat.eqb 100 g 1%nat = 50.
Proof. eexists. eexists. repeat split; vm_compute; reflexivity. Qed.

(* half of the values are dropped, by random numbers that differ between the components; other numbers behind the layers change
   nothing, other numbers at the input do *)
Definition case_half : noise rationals := fun _ i c => if Nat.even (i + c) then (3 # 4)%Q else (1 # 4)%Q.
Definition case_other_layers : noise rationals :=
  fun p i c => match p with AtLayer _ => (1 # 8)%Q | _ => case_half p i c end.
Definition case_other_input : noise rationals :=
  fun p i c => match p with AtInput => (1 # 4)%Q | _ => case_half p i c end.
Definition half_logits (u : noise rationals) : result (list (list (list (list Q)))) :=
  match net_logits rational_dropping (1 # 2)%Q u (case_net rationals inject_Z None) [[1;2]]%Z [1;2]%Z with
  | Ok l => Ok (map (map (map (map Qred))) l)
  | Err e => Err e
  end.
Example C117_case : same_outside_layers case_half case_other_layers
  /\ half_logits case_half = Ok [[[[88; 0]; [0; 14]]; [[5; 24]; [5; 0]]]; [[[6; 0]; [0; 14]]; [[5; 2]; [5; 0]]]]%Q
  /\ half_logits case_other_layers = half_logits case_half
  /\ half_logits case_other_input <> half_logits case_half.
Proof.
  split; [|split; [vm_compute; reflexivity|split; [vm_compute; reflexivity|vm_compute; discriminate]]].
  intros p H i c. destruct p; try reflexivity. exfalso. now apply (H i0).
Qed.

(* of ten numbers, nine keep the value with 0.9; with 0 all words get the same *)
Example C118_case :
  map (fun i => Qred (drop rational_dropping (1 - (9 # 10))%Q (draw 10 i) 3%Q)) (seq 0 10) = (0 :: repeat (10 # 3) 9)%Q
  /\ net_logits integer_dropping 0%Z (fun _ _ _ => 0%Z) (case_net integers (fun z => z) None) [[1;2]; [3;4;1]]%Z [3;4;1]%Z
     = Ok [[[[0; 0]; [0; 0]; [0; 0]]; [[5; 0]; [5; 0]; [5; 0]]]; [[[0; 0]; [0; 0]; [0; 0]]; [[5; 0]; [5; 0]; [5; 0]]]]%Z.
Proof. split; vm_compute; reflexivity. Qed.
