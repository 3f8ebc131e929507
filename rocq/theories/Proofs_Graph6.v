(* Which networks can be built, and the sizes of their layers *)
From Coq Require Import String Ascii ZArith NArith Bool Lia List.
From Verif Require Import Base BaseFacts Model_Graph Spec_Graph Proofs_Graph Proofs_Graph2 Proofs_Graph3 Proofs_Graph4 Proofs_Graph5.
Import ListNotations.
Open Scope Z_scope.

Lemma task_fits_iff f e t : Forall p_cond (pieces f) -> enc_cond f e -> (task_fits f e t <-> task_cond (enc_dict f e) t).
Proof.
  intros C D.
  assert (P : forall name, (exists n, provides f e name n) <-> exists_in (enc_dict f e) name).
  { intros name. unfold exists_in. split; intros (n & H); exists n; apply provides_iff in H || apply provides_iff; auto. }
  destruct t as [k name ds parts|name rows embed ds ks hw outputs|name ds rules]; cbn [task_fits task_cond]; [rewrite P; tauto| |tauto].
  rewrite P. assert (Q : (exists n, (ks = [] /\ n = embed + ds \/ ends_with ks n) /\ combines embed n) <-> combines embed (out_channels ks (embed + ds))).
  { split.
    - intros (n & [[-> ->]|H] & B); [exact B|]. apply ends_with_iff in H. destruct H as [N ->].
      rewrite (out_channels_any ks _ 0) by auto. auto.
    - intros B. exists (out_channels ks (embed + ds)). split; auto. destruct ks as [|k ks]; [left; auto|right].
      apply ends_with_iff. split; [discriminate|reflexivity]. }
  rewrite Q. tauto.
Qed.

Lemma labels_iff shared ts : Forall (task_cond shared) ts ->
  (NoDup (map lab ts) <-> forall i j t1 t2, nth_error ts i = Some t1 -> nth_error ts j = Some t2 -> i <> j -> ~ same_labels t1 t2).
Proof.
  intros F. rewrite Forall_forall in F.
  assert (L : forall t1 t2, In t1 ts -> In t2 ts -> (same_labels t1 t2 <-> lab t1 = lab t2)).
  { intros t1 t2 I1 I2. apply F in I1, I2. destruct t1 as [[]| |], t2 as [[]| |]; cbn in I1, I2 |- *; try tauto; split; intros X; try discriminate; auto; contradiction. }
  rewrite NoDup_nth_error. split.
  - intros N i j t1 t2 E1 E2 D S. apply L in S; [|eapply nth_error_In; eauto|eapply nth_error_In; eauto]. apply D. apply N.
    + rewrite map_length. apply nth_error_Some. congruence.
    + rewrite !nth_error_map, E1, E2. cbn. congruence.
  - intros H i j I E. rewrite map_length in I. rewrite !nth_error_map in E.
    destruct (nth_error ts i) as [t1|] eqn:E1; [|apply nth_error_Some in I; congruence].
    destruct (nth_error ts j) as [t2|] eqn:E2; cbn in E; [|discriminate]. injection E as E.
    destruct (Nat.eq_dec i j) as [|D]; auto. exfalso. apply (H i j t1 t2 E1 E2 D). apply L; auto; eapply nth_error_In; eauto.
Qed.

Lemma all_fits known f e ts : known = true /\ fits f e ts <-> all_cond known f e ts /\ NoDup (names_of (all_decl f e ts)).
Proof.
  unfold fits, all_cond. rewrite features_fit_iff. split.
  - intros (K & (N & C) & E & T & F & L & S). apply encoder_fits_iff in E; auto.
    assert (TC : Forall (task_cond (enc_dict f e)) ts).
    { apply Forall_forall. intros t I. apply task_fits_iff; auto. }
    split; [tauto|]. apply all_NoDup; auto. split; auto. apply (labels_iff _ _ TC). auto.
  - intros ((K & (N & C) & E & T & TC) & D). apply all_NoDup in D; auto. destruct D as [D S].
    rewrite encoder_fits_iff by auto. rewrite Forall_forall in TC. repeat split; auto.
    + intros t I. apply task_fits_iff; auto.
    + apply (labels_iff (enc_dict f e)); auto. apply Forall_forall. auto.
Qed.

Lemma build_fits known f e ts : (exists g, build known f e ts = Ok g) <-> known = true /\ fits f e ts.
Proof.
  rewrite all_fits. split.
  - intros (g & H). apply build_iff in H. tauto.
  - intros [C N]. apply build_possible; auto.
Qed.

(* ---- sizes ---- *)

Lemma build_names known f e ts g : build known f e ts = Ok g -> NoDup (map fst (variables g)).
Proof. intros H. apply build_iff in H. destruct H as (_ & -> & N). rewrite vars_names. auto. Qed.

Lemma in_vars k v d : In (k, v) d -> In (key_name k, v) (vars_of d).
Proof. intros I. unfold vars_of. apply (in_map (fun kv => (key_name (fst kv), snd kv))) in I. auto. Qed.

Lemma parts_decl_In l input ds parts : forall i j n, nth_error parts j = Some n ->
  let d := parts_decl l input ds i parts in
  In (KPart (i + j) l false false, [input; ds]) d /\ In (KPart (i + j) l false true, [ds]) d /\
  In (KPart (i + j) l true false, [ds; n]) d /\ In (KPart (i + j) l true true, [n]) d.
Proof.
  induction parts as [|p parts IH]; intros i [|j] n; cbn [nth_error]; try discriminate; cbn zeta; cbn [parts_decl].
  - intros E. injection E as ->. rewrite Nat.add_0_r. cbn [In]. tauto.
  - intros E. destruct (IH (S i) j n E) as (A & B & C & D). rewrite Nat.add_succ_r. cbn [In]. cbn [Nat.add] in *. tauto.
Qed.

Lemma tasks_decl_In shared t x ts : In t ts -> (forall n, In x (task_decl shared t n)) -> forall n, In x (tasks_decl shared ts n).
Proof.
  induction ts as [|t' ts IH]; cbn [In tasks_decl]; [tauto|]. intros [->|I] K n; rewrite in_app_iff; [left; auto|right; auto].
Qed.

Lemma build_dense known f e ts g k name ds parts i n : build known f e ts = Ok g ->
  In (Dense k name ds parts) ts -> nth_error parts i = Some n ->
  exists m, provides f e name m /\
    In (weights (hidden_scope k i), [m; ds]) (variables g) /\ In (biases (hidden_scope k i), [ds]) (variables g) /\
    In (weights (logits_scope k i), [ds; n]) (variables g) /\ In (biases (logits_scope k i), [n]) (variables g).
Proof.
  intros H I P. apply build_iff in H. destruct H as (C & -> & _). destruct C as (_ & (_ & C) & E & _ & F).
  rewrite Forall_forall in F. pose proof (F _ I) as T. cbn in T. destruct T as [_ (m & T)]. exists m. split; [apply provides_iff; auto|].
  destruct (parts_decl_In k (rsize (enc_dict f e) name) ds parts 0 i n P) as (A1 & A2 & A3 & A4).
  assert (R : rsize (enc_dict f e) name = m) by (unfold rsize; rewrite T; auto). rewrite R in *.
  assert (X : forall x, In x (parts_decl k m ds 0 parts) -> In x (all_decl f e ts)).
  { intros x Y. unfold all_decl. apply in_or_app. right. apply (tasks_decl_In _ _ _ _ I). intros j. cbn [task_decl]. rewrite R. auto. }
  apply X, in_vars in A1, A2, A3, A4. cbn [Nat.add key_name part_name kb] in *. unfold part_name, part_scope in *.
  unfold weights, biases, hidden_scope, logits_scope. rewrite <- !app_assoc in *. auto.
Qed.

Lemma bilstm_decl_In s cell n : forall i input j fw, (j < n)%nat ->
  let d := bilstm_decl s cell i n input in
  let size := match j with O => input | _ => 2 * cell end in
  In (KRnn s (i + j) fw false, [size + cell; 4 * cell]) d /\ In (KRnn s (i + j) fw true, [4 * cell]) d.
Proof.
  induction n as [|n IH]; intros i input [|j] fw L; try lia; cbn zeta; cbn [bilstm_decl]; unfold lstm_decl at 1 2 3 4; cbn [app].
  - rewrite Nat.add_0_r. destruct fw; cbn [In]; tauto.
  - destruct (IH (S i) (2 * cell) j fw ltac:(lia)) as (A & B). rewrite Nat.add_succ_r. cbn [Nat.add] in A, B.
    replace (match j with O => 2 * cell | S _ => 2 * cell end) with (2 * cell) in A by (destruct j; auto). cbn [In]. tauto.
Qed.

Lemma build_rnn known f e ts g cell layers i : build known f e ts = Ok g -> has_rnn e cell layers -> (Z.of_nat i < layers) ->
  exists m, (i = 0%nat /\ words_size f m \/ i <> 0%nat /\ m = 2 * cell) /\
    In (weights (rnn_layer i "fw"), [m + cell; 4 * cell]) (variables g) /\ In (biases (rnn_layer i "fw"), [4 * cell]) (variables g) /\
    In (weights (rnn_layer i "bw"), [m + cell; 4 * cell]) (variables g) /\ In (biases (rnn_layer i "bw"), [4 * cell]) (variables g).
Proof.
  intros H R L. apply build_iff in H. destruct H as (C & -> & _). destruct C as (_ & (_ & C) & E & _ & _).
  exists (match i with O => word_size f | _ => 2 * cell end). split.
  { destruct i; [left; split; auto; apply words_size_iff; auto|right; auto]. }
  assert (X : forall x, In x (bil_decl cell layers f) -> In x (all_decl f e ts)).
  { intros x Y. unfold all_decl. apply in_or_app. left. apply in_or_app. right.
    destruct e as [|c l sk|c l sk ks|]; cbn in R; try contradiction; destruct R as [-> ->]; cbn [enc_decl]; [auto|apply in_or_app; auto]. }
  unfold bil_decl in X. destruct (bilstm_decl_In None cell (Z.to_nat layers) 0 (word_size f) i true ltac:(lia)) as (A1 & A2).
  destruct (bilstm_decl_In None cell (Z.to_nat layers) 0 (word_size f) i false ltac:(lia)) as (A3 & A4).
  apply X, in_vars in A1, A2, A3, A4. cbn [Nat.add key_name direction] in *. unfold rnn_scope in *.
  unfold weights, biases, rnn_layer. rewrite <- !app_assoc in *. auto.
Qed.

Lemma conv_decl_In mk ks : forall s ch i k, nth_error ks i = Some k -> exists input,
  conv_input ks ch i input /\ In (mk (s + i)%nat k, [1; cv_size k; input; cv_count k]) (conv_decl mk s ks ch).
Proof.
  unfold conv_input. induction ks as [|k0 ks' IH]; intros s ch [|i] k E0; cbn [nth_error] in E0; try discriminate.
  - injection E0 as ->. exists ch. split; auto. rewrite Nat.add_0_r. left; auto.
  - destruct (IH (S s) (cv_count k0) i k E0) as (input & Q & J). exists input. split.
    + right. destruct Q as [[-> ->]|(p & Q & D & ->)]; [exists k0; auto|]. exists p. destruct i as [|i]; [congruence|].
      cbn [Nat.sub] in *. rewrite Nat.sub_0_r in *. auto.
    + cbn [conv_decl]. right. rewrite Nat.add_succ_r. exact J.
Qed.

Lemma unnamed_vars g d j m n : variables g = vars_of d -> (forall x, In x (unnamed_decl m n j) -> In x d) -> unnamed_layer g m n.
Proof.
  intros V X. exists j. cbn zeta. rewrite V. split.
  - apply (in_vars (KUnnamed j false)). apply X. left. auto.
  - apply (in_vars (KUnnamed j true)). apply X. right. left. auto.
Qed.
Lemma tasks_decl_part (P : nat -> decl) shared t ts : In t ts -> (forall n x, In x (P n) -> In x (task_decl shared t n)) ->
  forall n, exists j, forall x, In x (P j) -> In x (tasks_decl shared ts n).
Proof.
  induction ts as [|t' ts IH]; cbn [In tasks_decl]; [tauto|]. intros [->|I] K n.
  - exists n. intros x X. apply in_or_app. left. auto.
  - destruct (IH I K (n + task_bump t')%nat) as (j & H). exists j. intros x X. apply in_or_app. right. auto.
Qed.
Lemma pieces_decl_part (P : nat -> decl) ps p : In p ps -> (forall n x, In x (P n) -> In x (p_decl p n)) ->
  forall n, exists j, forall x, In x (P j) -> In x (pieces_decl ps n).
Proof.
  induction ps as [|q ps IH]; cbn [In pieces_decl]; [tauto|]. intros [->|I] K n.
  - exists n. intros x X. apply in_or_app. left. auto.
  - destruct (IH I K (n + p_bump q)%nat) as (j & H). exists j. intros x X. apply in_or_app. right. auto.
Qed.

Lemma build_combo known f e ts g name rows embed ds ks hw outputs : build known f e ts = Ok g ->
  In (Combo name rows embed ds ks hw outputs) ts ->
  exists m, provides f e name m /\ In (of_string "input_subwords_e", [rows; embed]) (variables g) /\
    In (weights (of_string "dense_cnn"), [m; ds]) (variables g) /\ In (biases (of_string "dense_cnn"), [ds]) (variables g) /\
    (hw = true -> unnamed_layer g embed embed) /\
    (forall i k, nth_error ks i = Some k -> exists input, conv_input ks (embed + ds) i input /\
      In (conv_variable (of_string "cnn_kernel") i k, [1; cv_size k; input; cv_count k]) (variables g)) /\
    (hw = false -> forall n, (ks = [] /\ n = embed + ds \/ ends_with ks n) -> In (of_string "output_subwords", [1; 1; n; outputs]) (variables g)) /\
    (hw = true -> forall n, ends_with ks n -> In (of_string "output_subwords", [1; 1; (if embed =? 1 then n else embed); outputs]) (variables g)).
Proof.
  intros H I. apply build_iff in H. destruct H as (C & V & _). rewrite !V. destruct C as (_ & (_ & C) & E & _ & F).
  rewrite Forall_forall in F. pose proof (F _ I) as T. cbn in T. destruct T as [(m & T) B]. exists m. split; [apply provides_iff; auto|].
  assert (X : forall x, (forall n, In x (task_decl (enc_dict f e) (Combo name rows embed ds ks hw outputs) n)) -> In x (all_decl f e ts)).
  { intros x Y. unfold all_decl. apply in_or_app. right. apply (tasks_decl_In _ _ _ _ I). auto. }
  assert (R : rsize (enc_dict f e) name = m) by (unfold rsize; rewrite T; auto).
  split; [|split; [|split; [|split; [|split; [|split]]]]].
  - apply (in_vars KInputE). apply X. intros n. left. auto.
  - apply (in_vars (KDenseCnn false)). apply X. intros n. right. left. rewrite R. auto.
  - apply (in_vars (KDenseCnn true)). apply X. intros n. right. right. left. auto.
  - intros ->. destruct (tasks_decl_part (unnamed_decl embed embed) (enc_dict f e) _ ts I) with (n := pieces_bump (pieces f)) as (j & J).
    { intros n x Y. cbn [task_decl]. right. right. right. apply in_or_app. right. apply in_or_app. left. auto. }
    apply (unnamed_vars g _ j embed embed V). intros x Y. unfold all_decl. apply in_or_app. right. auto.
  - intros i k K. destruct (conv_decl_In KKernel ks 0%nat (embed + ds) i k K) as (input & Q & J). exists input. split; auto.
    apply (in_vars (KKernel i k)). apply X. intros n. cbn [task_decl]. right. right. right. apply in_or_app. left. exact J.
  - intros -> n N. apply (in_vars KOutput). apply X. intros j. cbn [task_decl]. right. right. right. apply in_or_app. right. left.
    f_equal. f_equal. f_equal. f_equal. destruct N as [[-> ->]|N]; [reflexivity|]. apply ends_with_iff in N. destruct N as [N ->]. apply out_channels_any; auto.
  - intros -> n N. specialize (B eq_refl). apply (in_vars KOutput). apply X. intros j. cbn [task_decl]. right. right. right. apply in_or_app. right.
    apply in_or_app. right. left. f_equal. f_equal. f_equal. f_equal. apply ends_with_iff in N. destruct N as [N ->].
    rewrite (out_channels_any ks _ 0) in * by auto. unfold combines in B. unfold bsize.
    destruct (embed =? out_channels ks 0) eqn:E1, (embed =? 1) eqn:E2; rewrite ?Z.eqb_refl; try lia.
    + rewrite Z.eqb_sym, E1. destruct (out_channels ks 0 =? 1) eqn:E3; lia.
Qed.

Lemma pieces_decl_In x ps p : In p ps -> (forall n, In x (p_decl p n)) -> forall n, In x (pieces_decl ps n).
Proof.
  induction ps as [|q ps IH]; cbn [In pieces_decl]; [tauto|]. intros [->|I] K n; rewrite in_app_iff; [left; auto|right; auto].
Qed.

Lemma subwords_of_piece f name c : subwords_of f name c -> exists s, name = sub_name s /\ In (sub_piece s c) (pieces f).
Proof.
  intros H. destruct H as [c H|c H|c H]; [exists Characters|exists Bpe|exists Morfessor]; (split; [reflexivity|]); apply pieces_In; eauto 10.
Qed.

Lemma build_features known f e ts g : build known f e ts = Ok g ->
  (forall rows size d, f_words f = Some (rows, size, d) -> In (of_string "word_embeddings", [rows; size]) (variables g) /\
    forall u, d = Some u -> In (weights (of_string "we_dense_layer"), [size; u]) (variables g) /\ In (biases (of_string "we_dense_layer"), [u]) (variables g)) /\
  (forall rows size, f_trained f = Some (rows, size) -> In (of_string "trained_words", [rows; size]) (variables g)) /\
  (forall name c, subwords_of f name c -> In (name, [sw_rows c; sw_size c]) (variables g) /\
    (forall ks i k, sw_aggregator c = Cnn ks -> nth_error ks i = Some k -> exists input, conv_input ks (sw_size c) i input /\
      In (conv_variable (name ++ of_string "_cnn") i k, [1; cv_size k; input; cv_count k]) (variables g)) /\
    (forall cell layers i, sw_aggregator c = Rnn cell layers -> Z.of_nat i < layers -> exists m,
      (i = 0%nat /\ m = sw_size c \/ i <> 0%nat /\ m = 2 * cell) /\
      In (weights (named_rnn_layer name i "fw"), [m + cell; 4 * cell]) (variables g) /\
      In (biases (named_rnn_layer name i "fw"), [4 * cell]) (variables g) /\
      In (weights (named_rnn_layer name i "bw"), [m + cell; 4 * cell]) (variables g) /\
      In (biases (named_rnn_layer name i "bw"), [4 * cell]) (variables g)) /\
    (forall cell layers n, sw_aggregator c = Rnn cell layers -> subwords_give (sw_aggregator c) (sw_size c) n -> unnamed_layer g n n) /\
    (sw_highway c = true -> forall n, subwords_give (sw_aggregator c) (sw_size c) n ->
      In (weights (name ++ of_string "_dense_highway"), [n; n]) (variables g) /\
      In (biases (name ++ of_string "_dense_highway"), [n]) (variables g) /\ unnamed_layer g n n)).
Proof.
  intros H. apply build_iff in H. destruct H as (C & V & _). rewrite !V.
  assert (X : forall p x, In p (pieces f) -> (forall n, In x (p_decl p n)) -> In x (all_decl f e ts)).
  { intros p x I Y. unfold all_decl. apply in_or_app. left. apply in_or_app. left. apply (pieces_decl_In x _ p); auto. }
  split; [|split].
  - intros rows size d E. assert (I : In (words_piece (rows, size, d)) (pieces f)) by (apply pieces_In; eauto). split.
    + apply (in_vars KWords). apply (X _ _ I). intros n. left. auto.
    + intros u ->. split; [apply (in_vars (KWeDense false))|apply (in_vars (KWeDense true))]; apply (X _ _ I); intros n; right; [left|right; left]; auto.
  - intros rows size E. assert (I : In (trained_piece (rows, size)) (pieces f)) by (apply pieces_In; eauto 6).
    apply (in_vars KTrained). apply (X _ _ I). intros n. left. auto.
  - intros name c S. apply subwords_of_piece in S. destruct S as (s & -> & I).
    assert (Y : forall x, (forall n, In x (agg_decl s (sw_aggregator c) (sw_size c) n)) -> In x (all_decl f e ts)).
    { intros x A. apply (X _ _ I). intros n. cbn [sub_piece p_decl]. unfold sub_decl. right. apply in_or_app. left. auto. }
    split; [|split; [|split; [|split]]].
    + apply (in_vars (KSub s)). apply (X _ _ I). intros n. left. auto.
    + intros ks i k A K. destruct (conv_decl_In (KCnn s) ks 0%nat (sw_size c) i k K) as (input & Q & J). exists input. split; auto.
      apply (in_vars (KCnn s i k)). apply Y. intros n. rewrite A. exact J.
    + intros cell layers i A L. exists (match i with O => sw_size c | _ => 2 * cell end). split; [destruct i; auto|].
      destruct (bilstm_decl_In (Some s) cell (Z.to_nat layers) 0 (sw_size c) i true ltac:(lia)) as (A1 & A2).
      destruct (bilstm_decl_In (Some s) cell (Z.to_nat layers) 0 (sw_size c) i false ltac:(lia)) as (A3 & A4).
      assert (Z1 : forall x, In x (bilstm_decl (Some s) cell 0 (Z.to_nat layers) (sw_size c)) -> In x (all_decl f e ts)).
      { intros x B. apply Y. intros n. rewrite A. cbn [agg_decl]. apply in_or_app. auto. }
      apply Z1, in_vars in A1, A2, A3, A4. cbn [Nat.add key_name direction] in *. unfold rnn_scope in *.
      unfold weights, biases, named_rnn_layer. rewrite <- !app_assoc in *. auto.
    + intros cell layers n A G. apply subwords_give_iff in G. destruct G as [_ ->].
      destruct (pieces_decl_part (unnamed_decl (agg_size (sw_aggregator c) (sw_size c)) (agg_size (sw_aggregator c) (sw_size c))) _ _ I) with (n := 0%nat) as (j & J).
      { intros n x Y1. cbn [sub_piece p_decl]. unfold sub_decl. right. apply in_or_app. left. rewrite A in *. cbn [agg_decl]. apply in_or_app. right. auto. }
      apply (unnamed_vars g _ j _ _ V). intros x Y1. unfold all_decl. apply in_or_app. left. apply in_or_app. left. auto.
    + intros A n G. apply subwords_give_iff in G. destruct G as [_ ->]. split; [|split].
      * apply (in_vars (KHigh s false)). apply (X _ _ I). intros n. cbn [sub_piece p_decl]. unfold sub_decl. rewrite A. right. apply in_or_app. right. left. auto.
      * apply (in_vars (KHigh s true)). apply (X _ _ I). intros n. cbn [sub_piece p_decl]. unfold sub_decl. rewrite A. right. apply in_or_app. right. right. left. auto.
      * destruct (pieces_decl_part (fun n => unnamed_decl (agg_size (sw_aggregator c) (sw_size c)) (agg_size (sw_aggregator c) (sw_size c)) (n + agg_bump (sw_aggregator c))%nat) _ _ I) with (n := 0%nat) as (j & J).
        { intros n x Y1. cbn [sub_piece p_decl]. unfold sub_decl. right. apply in_or_app. right. rewrite A. right. right. auto. }
        apply (unnamed_vars g _ (j + agg_bump (sw_aggregator c))%nat _ _ V). intros x Y1. unfold all_decl. apply in_or_app. left. apply in_or_app. left. auto.
Qed.

(* the convolutions of encoders *)
Lemma build_encoder_conv known f e ts g : build known f e ts = Ok g ->
  (forall ks sk i k, e = Dilated_CNN (Some ks) sk -> nth_error ks i = Some k -> exists w input, words_size f w /\ conv_input ks w i input /\
     In (conv_variable (of_string "dilated_cnn") i k, [1; cv_size k; input; cv_count k]) (variables g)) /\
  (forall cell layers sk ks i k, e = BiLSTM_CNN cell layers sk ks -> nth_error ks i = Some k -> exists input, conv_input ks 1 i input /\
     In (conv_variable (of_string "cnn_kernel") i k, [1; cv_size k; input; cv_count k]) (variables g)).
Proof.
  intros H. apply build_iff in H. destruct H as (C & -> & _). destruct C as (_ & (_ & C) & _).
  assert (X : forall x, In x (enc_decl f e) -> In x (all_decl f e ts)).
  { intros x Y. unfold all_decl. apply in_or_app. left. apply in_or_app. right. auto. }
  split.
  - intros ks sk i k -> K. destruct (conv_decl_In KDilated ks 0%nat (word_size f) i k K) as (input & Q & J). exists (word_size f), input.
    split; [apply words_size_iff; auto|]. split; auto. apply (in_vars (KDilated i k)). apply X. exact J.
  - intros cell layers sk ks i k -> K. destruct (conv_decl_In KKernel ks 0%nat 1 i k K) as (input & Q & J). exists input.
    split; auto. apply (in_vars (KKernel i k)). apply X. cbn [enc_decl]. apply in_or_app. right. exact J.
Qed.
