(* UTF-8: what is encoded is decoded to the same characters, and the other way round. *)
From Coq Require Import String Ascii ZArith NArith Bool Lia List.
From Verif Require Import Base BaseFacts Model_Datamodel Model_Conllu Model_Encoding Spec_Conllu Spec_Encoding.
Import ListNotations.
Open Scope N_scope.
Ltac Zify.zify_post_hook ::= Z.to_euclidean_division_equations.

Ltac tests := repeat match goal with
  | |- context [?a <? ?b] => destruct (N.ltb_spec a b)
  | |- context [?a <=? ?b] => destruct (N.leb_spec a b)
  | H : context [?a <? ?b] |- _ => destruct (N.ltb_spec a b)
  | H : context [?a <=? ?b] |- _ => destruct (N.leb_spec a b)
  end; cbn [andb orb negb] in *.

Lemma encode_cons c s : encode (c :: s) = do b <- encode_char c; rmap (app b) (encode s).
Proof. unfold encode. cbn [mapM]. destruct (encode_char c); cbn; auto. destruct (mapM encode_char s); reflexivity. Qed.

Lemma encode_nil : encode [] = Ok [].
Proof. reflexivity. Qed.

Lemma encode_app s1 s2 : encode (s1 ++ s2) = do b1 <- encode s1; rmap (app b1) (encode s2).
Proof.
  induction s1 as [|c s1 IH]; cbn [app].
  - rewrite encode_nil. cbn. destruct (encode s2); reflexivity.
  - rewrite !encode_cons, IH. destruct (encode_char c); cbn; auto. destruct (encode s1); cbn; auto. destruct (encode s2); cbn; auto.
    rewrite app_assoc. reflexivity.
Qed.

Lemma encode_char_scalar c : scalar c <-> exists b, encode_char c = Ok b.
Proof.
  unfold scalar, encode_char. split.
  - intros H. tests; eauto; lia.
  - intros [b H]. tests; try discriminate; lia.
Qed.

Lemma encode_char_err c : ~ scalar c -> encode_char c = Err EValue.
Proof. unfold scalar, encode_char. intros H. tests; auto; lia. Qed.

Lemma encode_err s e : encode s = Err e -> e = EValue.
Proof.
  induction s as [|c s IH]; [discriminate|]. rewrite encode_cons. intros H.
  destruct (encode_char c) as [b|e'] eqn:E; cbn in H.
  - destruct (encode s); [discriminate|]. cbn in H. apply IH. congruence.
  - unfold encode_char in E. revert E. tests; congruence.
Qed.

Lemma encode_scalar s : Forall scalar s <-> exists b, encode s = Ok b.
Proof.
  induction s as [|c s IH].
  - split; eauto. intros. exists []. reflexivity.
  - rewrite encode_cons. split.
    + intros H. inversion H as [|? ? H1 H2]; subst. apply encode_char_scalar in H1 as [b ->]. apply IH in H2 as [bs ->]. cbn. eauto.
    + intros [b H]. destruct (encode_char c) eqn:E; [|discriminate]. cbn in H. destruct (encode s) eqn:E2; [|discriminate].
      constructor; [apply encode_char_scalar; eauto|apply IH; eauto].
Qed.

Lemma not_scalar_err s : ~ Forall scalar s -> encode s = Err EValue.
Proof.
  intros H. destruct (encode s) as [b|e] eqn:E; [exfalso; apply H, encode_scalar; eauto|]. f_equal. eapply encode_err; eauto.
Qed.

Lemma ok_inj {A} (x y : A) : Ok x = Ok y -> x = y.
Proof. congruence. Qed.

Lemma decode_char c b r : encode_char c = Ok b -> decode (b ++ r) = rmap (cons c) (decode r).
Proof.
  unfold encode_char. intros H.
  destruct (N.ltb_spec c 128) as [L|L].
  { apply ok_inj in H. subst b. cbn [app decode]. destruct (N.ltb_spec c 128); [reflexivity|lia]. }
  destruct (N.ltb_spec c 2048) as [L2|L2].
  { apply ok_inj in H. subst b. cbn [app decode]. unfold continues.
    replace (192 + c / 64 <? 128) with false by (symmetry; apply N.ltb_ge; lia).
    replace (128 <=? 128 + c mod 64) with true by (symmetry; apply N.leb_le; lia).
    replace (128 + c mod 64 <? 192) with true by (symmetry; apply N.ltb_lt; lia). cbn [andb negb].
    replace (192 + c / 64 <? 194) with false by (symmetry; apply N.ltb_ge; lia).
    replace (192 + c / 64 <? 224) with true by (symmetry; apply N.ltb_lt; lia).
    replace ((192 + c / 64 - 192) * 64 + (128 + c mod 64 - 128)) with c by lia. reflexivity. }
  destruct (N.leb_spec 55296 c) as [L3|L3]; destruct (N.ltb_spec c 57344) as [L4|L4]; cbn [andb] in H; try discriminate; try lia.
  all: destruct (N.ltb_spec c 65536) as [L5|L5]; try lia.
  2: destruct (N.ltb_spec c 1114112) as [L6|L6]; [|discriminate].
  all: apply ok_inj in H; subst b; cbn [app decode]; unfold continues.
  all: try (replace (224 + c / 4096 <? 128) with false by (symmetry; apply N.ltb_ge; lia);
            replace (224 + c / 4096 <? 194) with false by (symmetry; apply N.ltb_ge; lia);
            replace (224 + c / 4096 <? 224) with false by (symmetry; apply N.ltb_ge; lia);
            replace (224 + c / 4096 <? 240) with true by (symmetry; apply N.ltb_lt; lia)).
  all: try (replace (240 + c / 262144 <? 128) with false by (symmetry; apply N.ltb_ge; lia);
            replace (240 + c / 262144 <? 194) with false by (symmetry; apply N.ltb_ge; lia);
            replace (240 + c / 262144 <? 224) with false by (symmetry; apply N.ltb_ge; lia);
            replace (240 + c / 262144 <? 240) with false by (symmetry; apply N.ltb_ge; lia)).
  all: try (replace (128 <=? 128 + (c / 4096) mod 64) with true by (symmetry; apply N.leb_le; lia);
            replace (128 + (c / 4096) mod 64 <? 192) with true by (symmetry; apply N.ltb_lt; lia)).
  all: replace (128 <=? 128 + (c / 64) mod 64) with true by (symmetry; apply N.leb_le; lia);
       replace (128 + (c / 64) mod 64 <? 192) with true by (symmetry; apply N.ltb_lt; lia);
       replace (128 <=? 128 + c mod 64) with true by (symmetry; apply N.leb_le; lia);
       replace (128 + c mod 64 <? 192) with true by (symmetry; apply N.ltb_lt; lia); cbn [andb negb].
  all: cbv zeta.
  2: replace ((240 + c / 262144 - 240) * 262144 + (128 + (c / 4096) mod 64 - 128) * 4096 + (128 + (c / 64) mod 64 - 128) * 64 + (128 + c mod 64 - 128)) with c by lia.
  1,3: replace ((224 + c / 4096 - 224) * 4096 + (128 + (c / 64) mod 64 - 128) * 64 + (128 + c mod 64 - 128)) with c by lia.
  all: tests; auto; lia.
Qed.

Lemma decode_encode_app s b r : encode s = Ok b -> decode (b ++ r) = rmap (app s) (decode r).
Proof.
  revert b. induction s as [|c s IH]; intros b H.
  - injection H as <-. cbn. destruct (decode r); reflexivity.
  - rewrite encode_cons in H. destruct (encode_char c) as [b1|] eqn:E1; [|discriminate]. cbn in H.
    destruct (encode s) as [b2|] eqn:E2; [|discriminate]. injection H as <-. rewrite <- app_assoc, (decode_char _ _ _ E1), (IH _ eq_refl).
    destruct (decode r); reflexivity.
Qed.

Lemma decode_encode s b : encode s = Ok b -> decode b = Ok s.
Proof. intros H. rewrite <- (app_nil_r b), (decode_encode_app _ _ _ H). cbn. rewrite app_nil_r. reflexivity. Qed.

Lemma encode_decode_len n : forall b s, (length b <= n)%nat -> decode b = Ok s -> encode s = Ok b.
Proof.
  induction n as [|n IH]; intros b s L H.
  - destruct b; [|cbn in L; lia]. injection H as <-. reflexivity.
  - destruct b as [|b0 r0]; [injection H as <-; reflexivity|]. cbn [decode] in H. cbn [length] in L.
    destruct (N.ltb_spec b0 128) as [L0|L0].
    { destruct (decode r0) as [s0|] eqn:E; [|discriminate]. apply ok_inj in H. subst s. rewrite encode_cons, (IH r0 s0 ltac:(lia) E).
      unfold encode_char. destruct (N.ltb_spec b0 128); [reflexivity|lia]. }
    destruct r0 as [|b1 r1]; [discriminate|]. cbn [length] in L. unfold continues in H.
    destruct (N.leb_spec 128 b1) as [C1|C1]; [|discriminate]. destruct (N.ltb_spec b1 192) as [C2|C2]; [|discriminate]. cbn [andb negb] in H.
    destruct (N.ltb_spec b0 194) as [L1|L1]; [discriminate|].
    destruct (N.ltb_spec b0 224) as [L2|L2].
    { destruct (decode r1) as [s0|] eqn:E; [|discriminate]. apply ok_inj in H. subst s. rewrite encode_cons, (IH r1 s0 ltac:(lia) E).
      unfold encode_char. remember ((b0 - 192) * 64 + (b1 - 128)) as c eqn:Ec.
      destruct (N.ltb_spec c 128); [lia|]. destruct (N.ltb_spec c 2048); [|lia]. replace (192 + c / 64) with b0 by lia. replace (128 + c mod 64) with b1 by lia. reflexivity. }
    destruct r1 as [|b2 r2]; [discriminate|]. cbn [length] in L.
    destruct (N.leb_spec 128 b2) as [C3|C3]; [|discriminate]. destruct (N.ltb_spec b2 192) as [C4|C4]; [|discriminate]. cbn [andb negb] in H.
    destruct (N.ltb_spec b0 240) as [L3|L3].
    { cbv zeta in H. remember ((b0 - 224) * 4096 + (b1 - 128) * 64 + (b2 - 128)) as c eqn:Ec.
      destruct ((c <? 2048) || ((55296 <=? c) && (c <? 57344))) eqn:B; [discriminate|]. apply orb_false_iff in B as [B1 B2].
      destruct (decode r2) as [s0|] eqn:E; [|discriminate]. apply ok_inj in H. subst s. rewrite encode_cons, (IH r2 s0 ltac:(lia) E).
      unfold encode_char. rewrite B1, B2. apply N.ltb_ge in B1.
      destruct (N.ltb_spec c 128); [lia|]. destruct (N.ltb_spec c 65536); [|lia]. replace (224 + c / 4096) with b0 by lia. replace (128 + (c / 64) mod 64) with b1 by lia. replace (128 + c mod 64) with b2 by lia. reflexivity. }
    destruct r2 as [|b3 r3]; [discriminate|]. cbn [length] in L.
    destruct (N.leb_spec 128 b3) as [C5|C5]; [|discriminate]. destruct (N.ltb_spec b3 192) as [C6|C6]; [|discriminate]. cbn [andb negb] in H.
    cbv zeta in H. remember ((b0 - 240) * 262144 + (b1 - 128) * 4096 + (b2 - 128) * 64 + (b3 - 128)) as c eqn:Ec.
    destruct ((c <? 65536) || (1114112 <=? c)) eqn:B; [discriminate|]. apply orb_false_iff in B as [B1 B2].
    apply N.ltb_ge in B1. apply N.leb_gt in B2.
    destruct (decode r3) as [s0|] eqn:E; [|discriminate]. apply ok_inj in H. subst s. rewrite encode_cons, (IH r3 s0 ltac:(lia) E).
    unfold encode_char.
    destruct (N.ltb_spec c 128); [lia|]. destruct (N.ltb_spec c 2048); [lia|]. destruct (N.leb_spec 55296 c); [|lia].
    destruct (N.ltb_spec c 57344); [lia|]. destruct (N.ltb_spec c 65536); [lia|]. destruct (N.ltb_spec c 1114112); [|lia].
    replace (240 + c / 262144) with b0 by lia. replace (128 + (c / 4096) mod 64) with b1 by lia. replace (128 + (c / 64) mod 64) with b2 by lia. replace (128 + c mod 64) with b3 by lia. reflexivity.
Qed.

Lemma encode_decode b s : decode b = Ok s -> encode s = Ok b.
Proof. apply (encode_decode_len (length b)). lia. Qed.

Lemma decode_scalar b s : decode b = Ok s -> Forall scalar s.
Proof. intros H. apply encode_scalar. exists b. apply encode_decode. exact H. Qed.

Lemma decode_bom b : decode (bom ++ b) = rmap (cons bom_char) (decode b).
Proof. apply decode_char. reflexivity. Qed.
