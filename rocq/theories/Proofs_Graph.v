(* Names of variables are different *)
From Coq Require Import String Ascii ZArith NArith Bool Lia List.
From Verif Require Import Base BaseFacts Model_Graph Spec_Graph.
Import ListNotations.
Open Scope Z_scope.

Inductive sub := Characters | Bpe | Morfessor.
Definition sub_name (s : sub) : str :=
  match s with
  | Characters => of_string "characters"
  | Bpe => of_string "bpe_subwords"
  | Morfessor => of_string "morfessor_subwords"
  end.

Inductive vkey :=
| KWords | KTrained | KSub (s : sub) | KWeDense (b : bool)
| KCnn (s : sub) (i : nat) (c : conv) | KRnn (s : option sub) (i : nat) (fw b : bool)
| KUnnamed (n : nat) (b : bool) | KHigh (s : sub) (b : bool)
| KDilated (i : nat) (c : conv) | KKernel (i : nat) (c : conv)
| KInputE | KOutput | KDenseCnn (b : bool) | KPart (i : nat) (l : label_kind) (logits b : bool) | KBinary (b : bool).

Definition kb (b : bool) : str := if b then of_string "/bias" else of_string "/kernel".
Definition direction (fw : bool) : str := if fw then of_string "/fw" else of_string "/bw".
Definition part_name (i : nat) (l : label_kind) (logits : bool) : str :=
  part_scope (Z.of_nat i) (if logits then "/logits_" else "/dense_") l.
Definition key_name (k : vkey) : str :=
  match k with
  | KWords => of_string "word_embeddings"
  | KTrained => of_string "trained_words"
  | KSub s => sub_name s
  | KWeDense b => of_string "we_dense_layer" ++ kb b
  | KCnn s i c => conv_name (sub_name s ++ of_string "_cnn") (Z.of_nat i) c
  | KRnn s i fw b => (rnn_scope (match s with Some s => sub_name s | None => [] end) i ++ direction fw) ++
                     (if b then of_string "/lstm_cell/bias" else of_string "/lstm_cell/kernel")
  | KUnnamed n b => default_scope n ++ kb b
  | KHigh s b => (sub_name s ++ of_string "_dense_highway") ++ kb b
  | KDilated i c => conv_name (of_string "dilated_cnn") (Z.of_nat i) c
  | KKernel i c => conv_name (of_string "cnn_kernel") (Z.of_nat i) c
  | KInputE => of_string "input_subwords_e"
  | KOutput => of_string "output_subwords"
  | KDenseCnn b => of_string "dense_cnn" ++ kb b
  | KPart i l logits b => part_name i l logits ++ kb b
  | KBinary b => of_string "dense_lemma_rule_labels" ++ kb b
  end.

Lemma span_inj (P : N -> Prop) l1 l2 x y r1 r2 :
  Forall P l1 -> Forall P l2 -> ~ P x -> ~ P y -> l1 ++ x :: r1 = l2 ++ y :: r2 -> l1 = l2 /\ x :: r1 = y :: r2.
Proof.
  intros F1. revert l2. induction F1 as [|a l1 Pa F1 IH]; intros l2 F2 Nx Ny E.
  - destruct F2 as [|b l2 Pb F2]; [auto|]. injection E as <- _. contradiction.
  - destruct F2 as [|b l2 Pb F2]; [injection E as -> _; contradiction|].
    injection E as <- E. destruct (IH l2 F2 Nx Ny E) as [-> E']. auto.
Qed.

Lemma print_span a b x y r1 r2 : ~ (is_digit x \/ x = 45%N) -> ~ (is_digit y \/ y = 45%N) ->
  print_Z a ++ x :: r1 = print_Z b ++ y :: r2 -> a = b /\ x :: r1 = y :: r2.
Proof.
  intros Nx Ny E. destruct (span_inj _ _ _ _ _ _ _ (print_Z_chars a) (print_Z_chars b) Nx Ny E) as [E1 E2].
  split; auto. apply print_Z_inj; auto.
Qed.

Lemma not_digit (x : N) : (57 < x)%N \/ x = 47%N -> ~ (is_digit x \/ x = 45%N).
Proof. unfold is_digit. lia. Qed.

Ltac spell H := repeat match type of H with
  | context [of_string ?s] => let v := eval vm_compute in (of_string s) in change (of_string s) with v in H
  end.

Lemma conv_name_inj v i j c d : conv_name v i c = conv_name v j d -> i = j /\ c = d.
Proof.
  unfold conv_name. intros E. apply app_inv_head in E. spell E. cbn [app] in E. injection E as E.
  apply print_span in E; [|apply not_digit; lia|apply not_digit; lia]. destruct E as [-> E]. injection E as E.
  apply print_span in E; [|apply not_digit; lia|apply not_digit; lia]. destruct E as [Es E]. injection E as E.
  apply print_span in E; [|apply not_digit; lia|apply not_digit; lia]. destruct E as [Ec E]. injection E as E.
  apply print_Z_inj in E. destruct c, d; cbn in *; subst; auto.
Qed.

Lemma print_digit (i : nat) : exists c r, print_Z (Z.of_nat i) = c :: r /\ is_digit c.
Proof.
  destruct i as [|i]; [exists 48%N, []; split; [reflexivity|unfold is_digit; lia]|].
  unfold print_Z. cbn [Z.of_nat]. pose proof (print_N_digits (Z.to_N (Z.pos (Pos.of_succ_nat i)))) as D.
  destruct (print_N (Z.to_N (Z.pos (Pos.of_succ_nat i)))) as [|c r] eqn:E; [destruct (print_N_nonnil _ E)|].
  inversion D; subst. exists c, r. auto.
Qed.

Lemma default_scope_inj i j : default_scope i = default_scope j -> i = j.
Proof.
  unfold default_scope. destruct i as [|i], j as [|j]; intros E; auto; [spell E; discriminate|spell E; discriminate|].
  apply app_inv_head in E. apply print_Z_inj in E. lia.
Qed.

(* which kind of variable has this name *)
Open Scope nat_scope.
Open Scope char_scope.
Definition letter (s : str) (i : nat) (c : ascii) : bool := (nth i s 0 =? N_of_ascii c)%N.
Definition sub_class (s : str) (n : nat) (k : nat) : nat :=
  if letter s n "_" then if letter s (S n) "c" then k + 2 else k + 1 else k.
Definition class (s : str) : nat :=
  if letter s 0 "w" then if letter s 1 "o" then 0 else 1
  else if letter s 0 "t" then 2
  else if letter s 0 "c" then if letter s 1 "n" then 3 else sub_class s 10 10
  else if letter s 0 "b" then
    if letter s 1 "p" then sub_class s 12 20
    else if letter s 18 "c" then 31 else if letter s 18 "b" then 32 else if letter s 18 "m" then 33 else 30
  else if letter s 0 "m" then sub_class s 18 40
  else if letter s 0 "d" then
    if letter s 1 "i" then 4
    else if letter s 5 "_" then if letter s 6 "c" then 5 else if letter s 6 "l" then 6 else 7
    else 8
  else if letter s 0 "i" then 50
  else if letter s 0 "o" then 51
  else 52.
Definition key_class (k : vkey) : nat :=
  match k with
  | KWords => 0 | KTrained => 2 | KWeDense _ => 1
  | KSub Characters => 10 | KSub Bpe => 20 | KSub Morfessor => 40
  | KCnn Characters _ _ => 12 | KCnn Bpe _ _ => 22 | KCnn Morfessor _ _ => 42
  | KHigh Characters _ => 11 | KHigh Bpe _ => 21 | KHigh Morfessor _ => 41
  | KRnn None _ _ _ => 30 | KRnn (Some Characters) _ _ _ => 31 | KRnn (Some Bpe) _ _ _ => 32 | KRnn (Some Morfessor) _ _ _ => 33
  | KUnnamed 0 _ => 8 | KUnnamed (S _) _ => 7
  | KDilated _ _ => 4 | KKernel _ _ => 3 | KInputE => 50 | KOutput => 51 | KDenseCnn _ => 5 | KPart _ _ _ _ => 52 | KBinary _ => 6
  end.
Lemma letter_digit s c d : is_digit d -> (57 < N_of_ascii c)%N -> letter (d :: s) 0 c = false.
Proof. unfold letter, is_digit. cbn [nth]. intros. apply N.eqb_neq. lia. Qed.
Lemma class_key k : class (key_name k) = key_class k.
Proof.
  destruct k as [| |s1|b1|s1 i1 c1|s1 i1 fw1 b1|n1 b1|s1 b1|i1 c1|i1 c1| | |b1|i1 l1 g1 b1|b1]; try destruct s1; try reflexivity.
  - destruct s; reflexivity.
  - destruct n1 as [|n1]; [destruct b1; reflexivity|]. unfold key_name, default_scope, key_class.
    destruct (print_digit (S n1)) as (c & r & -> & D). unfold class. cbn [of_string app].
    change (letter _ 0 "w") with false. change (letter _ 0 "t") with false. change (letter _ 0 "c") with false. change (letter _ 0 "b") with false.
    change (letter _ 0 "m") with false. change (letter _ 0 "d") with true. change (letter _ 1 "i") with false. change (letter _ 5 "_") with true.
    unfold letter. cbn [nth]. unfold is_digit in D.
    rewrite (proj2 (N.eqb_neq c (N_of_ascii "c"))) by (cbn; lia). rewrite (proj2 (N.eqb_neq c (N_of_ascii "l"))) by (cbn; lia). reflexivity.
  - unfold key_name, part_name, part_scope, key_class. destruct (print_digit i1) as (c & r & -> & D). unfold class. cbn [app].
    rewrite !letter_digit by (auto; cbn; lia). reflexivity.
Qed.
Open Scope Z_scope.

Lemma kb_inj a b : kb a = kb b -> a = b.
Proof. destruct a, b; auto; discriminate. Qed.
Lemma kb_slash b : exists r, kb b = 47%N :: r.
Proof. destruct b; eexists; reflexivity. Qed.

Lemma key_name_inj k1 k2 : key_name k1 = key_name k2 -> k1 = k2.
Proof.
  intros E. pose proof (f_equal class E) as C. rewrite !class_key in C.
  destruct k1 as [| |s1|b1|s1 i1 c1|s1 i1 fw1 b1|n1 b1|s1 b1|i1 c1|i1 c1| | |b1|i1 l1 g1 b1|b1];
  destruct k2 as [| |s2|b2|s2 i2 c2|s2 i2 fw2 b2|n2 b2|s2 b2|i2 c2|i2 c2| | |b2|i2 l2 g2 b2|b2]; try reflexivity;
  try (exfalso; clear E; revert C; repeat match goal with s : sub |- _ => destruct s | s : option sub |- _ => destruct s as [[| |]|] end; try destruct n1; try destruct n2; discriminate).
  - destruct s1, s2; try discriminate; reflexivity.
  - apply app_inv_head in E. apply kb_inj in E. congruence.
  - assert (s1 = s2) as -> by (destruct s1, s2; try discriminate; reflexivity). apply conv_name_inj in E. destruct E as [E ->]. apply Nat2Z.inj in E. congruence.
  - assert (s1 = s2) as -> by (destruct s1 as [[| |]|], s2 as [[| |]|]; try discriminate; reflexivity). clear C.
    cbn [key_name] in E. unfold rnn_scope in E. rewrite <- !app_assoc in E. apply app_inv_head in E. apply app_inv_head in E. apply app_inv_head in E.
    destruct fw1, fw2, b1, b2; unfold direction in E; spell E; cbn [app] in E;
      (apply print_span in E; [|apply not_digit; lia|apply not_digit; lia]); destruct E as [E1 E2]; try discriminate; apply Nat2Z.inj in E1; congruence.
  - cbn [key_name] in E. assert (N : n1 = n2).
    { destruct n1 as [|n1], n2 as [|n2]; try discriminate; auto. unfold default_scope in E. rewrite <- !app_assoc in E. apply app_inv_head in E.
      destruct (kb_slash b1) as (r1 & K1), (kb_slash b2) as (r2 & K2). rewrite K1, K2 in E.
      apply print_span in E; [|apply not_digit; lia|apply not_digit; lia]. destruct E as [E1 _]. lia. }
    subst n2. apply app_inv_head in E. apply kb_inj in E. congruence.
  - assert (s1 = s2) as -> by (destruct s1, s2; try discriminate; reflexivity). apply app_inv_head in E. apply kb_inj in E. congruence.
  - apply conv_name_inj in E. destruct E as [E ->]. apply Nat2Z.inj in E. congruence.
  - apply conv_name_inj in E. destruct E as [E ->]. apply Nat2Z.inj in E. congruence.
  - apply app_inv_head in E. apply kb_inj in E. congruence.
  - cbn [key_name] in E. unfold part_name, part_scope in E. rewrite <- !app_assoc in E.
    destruct g1, g2, l1, l2, b1, b2; unfold label_name, kb in E; spell E; cbn [app] in E;
      (apply print_span in E; [|apply not_digit; lia|apply not_digit; lia]); destruct E as [E1 E2]; try discriminate; apply Nat2Z.inj in E1; congruence.
  - apply app_inv_head in E. apply kb_inj in E. congruence.
Qed.
