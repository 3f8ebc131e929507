(* Lemmas about the layers: which positions a position depends on. *)
From Coq Require Import String Ascii ZArith NArith Bool List Lia.
From Verif Require Import Base BaseFacts Model_Layers Spec_Layers.
Import ListNotations.
Open Scope nat_scope.

Lemma nth_map2 {X Y R} (f : X -> Y -> R) : forall l m t,
  nth_error (map2 f l m) t = match nth_error l t, nth_error m t with Some x, Some y => Some (f x y) | _, _ => None end.
Proof.
  induction l as [|x l IH]; intros [|y m] [|t]; cbn [map2 nth_error]; try reflexivity.
  - destruct (nth_error l t); reflexivity.
  - apply IH.
Qed.

Lemma map2_length {X Y R} (f : X -> Y -> R) : forall l m, length (map2 f l m) = Nat.min (length l) (length m).
Proof. induction l as [|x l IH]; intros [|y m]; cbn [map2 length Nat.min]; auto. Qed.

Lemma map2_firstn {X Y R} (f : X -> Y -> R) : forall n l m, firstn n (map2 f l m) = map2 f (firstn n l) (firstn n m).
Proof. induction n as [|n IH]; intros [|x l] [|y m]; cbn [map2 firstn]; try reflexivity. now rewrite IH. Qed.

Lemma nth_pad_to {X} n (z : X) l t : t < length l -> nth_error (pad_to n z l) t = nth_error l t.
Proof. intros H. unfold pad_to. now apply nth_error_app1. Qed.

Lemma pad_to_length {X} n (z : X) l : length (pad_to n z l) = Nat.max n (length l).
Proof. unfold pad_to. rewrite app_length, repeat_length. lia. Qed.

Lemma maximum_le l n : In n l -> n <= maximum l.
Proof.
  induction l as [|m l IH]; [intros []|]. unfold maximum. cbn [fold_right]. fold (maximum l). intros [->|H]; [lia|].
  specialize (IH H). lia.
Qed.
Lemma maximum_lub l n : (forall m, In m l -> m <= n) -> maximum l <= n.
Proof.
  induction l as [|m l IH]; intros H; [apply Nat.le_0_l|]. unfold maximum. cbn [fold_right]. fold (maximum l).
  pose proof (H m (or_introl eq_refl)). pose proof (IH (fun x Hx => H x (or_intror Hx))). lia.
Qed.
Lemma maximum_in l : l <> [] -> In (maximum l) l.
Proof.
  induction l as [|m l IH]; [congruence|]. intros _. unfold maximum. cbn [fold_right]. fold (maximum l).
  destruct (Nat.max_spec m (maximum l)) as [[H ->]|[H ->]]; [|now left].
  right. apply IH. destruct l; [cbn in H; lia|discriminate].
Qed.

(* ---------- recurrent layers ---------- *)

Section Numbers.
Context {A : arith}.
Notation vec := (list (num A)).

Lemma rnn_length (c : cell A) d : forall xs st len, length (rnn c st d len xs) = length xs.
Proof.
  induction xs as [|x xs IH]; intros st [|len]; cbn [rnn length]; try reflexivity.
  - now rewrite IH.
  - destruct (step c st x) as [st' o]. cbn [length]. now rewrite IH.
Qed.

Lemma rnn_firstn (c : cell A) d : forall xs st len, firstn len (rnn c st d len xs) = rnn c st d len (firstn len xs).
Proof.
  induction xs as [|x xs IH]; intros st [|len]; cbn [rnn firstn]; try reflexivity.
  destruct (step c st x) as [st' o]. cbn [firstn]. now rewrite IH.
Qed.

Lemma reverse_sequence_length {X} len (xs : list X) : length (reverse_sequence len xs) = length xs.
Proof. unfold reverse_sequence. rewrite app_length, rev_length, firstn_length, skipn_length. lia. Qed.

Lemma reverse_sequence_firstn {X} len (xs : list X) : len <= length xs ->
  firstn len (reverse_sequence len xs) = reverse_sequence len (firstn len xs).
Proof.
  intros H. unfold reverse_sequence. rewrite firstn_app, rev_length, firstn_length, Nat.min_l by exact H.
  rewrite Nat.sub_diag, firstn_O, app_nil_r. rewrite firstn_all2 by (rewrite rev_length, firstn_length; lia).
  rewrite firstn_firstn, Nat.min_id, skipn_all2 by (rewrite firstn_length; lia). now rewrite app_nil_r.
Qed.

Lemma bidirectional_length (l : lstm A) len xs : length (bidirectional l len xs) = length xs.
Proof. unfold bidirectional. rewrite map2_length, reverse_sequence_length, !rnn_length, reverse_sequence_length. apply Nat.min_id. Qed.

Lemma bidirectional_firstn (l : lstm A) len xs : len <= length xs ->
  firstn len (bidirectional l len xs) = bidirectional l len (firstn len xs).
Proof.
  intros H. unfold bidirectional. rewrite map2_firstn, rnn_firstn. f_equal.
  rewrite reverse_sequence_firstn by (rewrite rnn_length, reverse_sequence_length; exact H).
  now rewrite rnn_firstn, reverse_sequence_firstn.
Qed.

Lemma bilstm_fold ls len : forall xs ys : list vec, len <= length xs -> firstn len xs = ys ->
  firstn len (fold_left (fun hidden l' => map2 (map2 add) hidden (bidirectional l' len hidden)) ls xs)
  = fold_left (fun hidden l' => map2 (map2 add) hidden (bidirectional l' len hidden)) ls ys.
Proof.
  induction ls as [|l ls IH]; intros xs ys H E; cbn [fold_left]; [exact E|]. apply IH.
  - rewrite map2_length, bidirectional_length, Nat.min_id. exact H.
  - rewrite map2_firstn, bidirectional_firstn by exact H. subst ys. reflexivity.
Qed.

Lemma bilstm_firstn (ls : list (lstm A)) len xs : len <= length xs ->
  firstn len (bilstm_layer ls len xs) = bilstm_layer ls len (firstn len xs).
Proof.
  intros H. destruct ls as [|l ls]; cbn [bilstm_layer]; [reflexivity|]. apply bilstm_fold.
  - now rewrite bidirectional_length.
  - now apply bidirectional_firstn.
Qed.

(* ---------- convolutions ---------- *)

Lemma conv_layer_length (k : kernel A) xs : length (conv_layer k xs) = length xs.
Proof. unfold conv_layer. now rewrite map_length, seq_length. Qed.
Lemma conv_layers_length (ks : list (kernel A)) : forall xs, length (conv_layers ks xs) = length xs.
Proof.
  induction ks as [|k ks IH]; intros xs; [reflexivity|]. unfold conv_layers in *. cbn [fold_left]. rewrite IH. apply conv_layer_length.
Qed.

Definition ahead (k : kernel A) : nat := ((length (taps k) - 1) * k_dilation k + 1) / 2.

Lemma reaches (k : kernel A) : reach_left k + ahead k = (length (taps k) - 1) * k_dilation k.
Proof.
  unfold reach_left, ahead. set (m := (length (taps k) - 1) * k_dilation k).
  pose proof (Nat.div_mod m 2). pose proof (Nat.div_mod (m + 1) 2). pose proof (Nat.mod_upper_bound m 2).
  pose proof (Nat.mod_upper_bound (m + 1) 2). lia.
Qed.

Lemma conv_at_local (k : kernel A) xs ys t :
  (forall p, t <= p + reach_left k -> p <= t + ahead k -> nth_error xs p = nth_error ys p) -> conv_at k xs t = conv_at k ys t.
Proof.
  intros H. unfold conv_at. f_equal. f_equal. apply map_ext_in. intros [j m] Hj. apply in_combine_l, in_seq in Hj. cbn [fst snd].
  assert (tap_input k xs t j = tap_input k ys t j) as ->; [|reflexivity]. unfold tap_input.
  destruct (t + j * k_dilation k <? reach_left k) eqn:E; [reflexivity|]. apply Nat.ltb_ge in E. apply H; [lia|].
  pose proof (reaches k). assert (j * k_dilation k <= (length (taps k) - 1) * k_dilation k) by (apply Nat.mul_le_mono_r; lia). lia.
Qed.

Lemma nth_conv_layer (k : kernel A) xs t : nth_error (conv_layer k xs) t = if t <? length xs then Some (conv_at k xs t) else None.
Proof.
  unfold conv_layer. destruct (t <? length xs) eqn:E.
  - apply Nat.ltb_lt in E. rewrite nth_error_map, (nth_error_nth' _ 0) by (rewrite seq_length; lia). rewrite seq_nth by lia.
    reflexivity.
  - apply Nat.ltb_ge in E. apply nth_error_None. rewrite map_length, seq_length. lia.
Qed.

Lemma conv_layers_local (ks : list (kernel A)) : forall xs ys t,
  (forall p, t <= p + looks_back ks -> p <= t + looks_ahead ks -> nth_error xs p = nth_error ys p) ->
  nth_error (conv_layers ks xs) t = nth_error (conv_layers ks ys) t.
Proof.
  induction ks as [|k ks IH]; intros xs ys t H; [cbn; apply H; cbn; lia|].
  change (nth_error (conv_layers ks (conv_layer k xs)) t = nth_error (conv_layers ks (conv_layer k ys)) t).
  assert (looks_back (k :: ks) = reach_left k + looks_back ks) as Eb by reflexivity.
  assert (looks_ahead (k :: ks) = ahead k + looks_ahead ks) as Ea by reflexivity.
  apply IH. intros p H1 H2. rewrite !nth_conv_layer.
  assert ((p <? length xs) = (p <? length ys)) as ->.
  { specialize (H p ltac:(lia) ltac:(lia)). destruct (Nat.ltb_spec p (length xs)) as [L|L], (Nat.ltb_spec p (length ys)) as [M|M]; try reflexivity.
    - apply nth_error_Some in L. apply nth_error_None in M. congruence.
    - apply nth_error_None in L. apply nth_error_Some in M. congruence. }
  rewrite (conv_at_local k xs ys p); [reflexivity|]. intros q H3 H4. apply H; lia.
Qed.
End Numbers.
