(* The losses are means over the words of the batch. *)
From Coq Require Import String Ascii ZArith NArith QArith Bool List Lia Setoid.
From Verif Require Import Base BaseFacts Model_Layers Model_Loss Spec_Layers Spec_Loss Proofs_Layers Proofs_Loss.
Import ListNotations.
Open Scope nat_scope.

Lemma dense_numerator raw lens :
  (qtotal (concat (map2 (map2 Qmult) raw (sequence_mask lens))) == masked_sum (fun x => x) raw lens)%Q.
Proof.
  unfold masked_sum. rewrite qtotal_concat. generalize (sequence_mask lens). induction raw as [|r raw IH]; intros [|m ms]; try reflexivity.
  cbn [map2 map]. rewrite !qtotal_cons, IH. reflexivity.
Qed.

Lemma deep_numerator raw lens :
  (qtotal (concat (map2 (fun r m => concat (map2 (fun x q => map (fun y => y * q)%Q x) r m)) raw (sequence_mask lens)))
   == masked_sum qtotal raw lens)%Q.
Proof.
  unfold masked_sum. rewrite qtotal_concat. generalize (sequence_mask lens). induction raw as [|r raw IH]; intros [|m ms]; try reflexivity.
  cbn [map2 map]. rewrite !qtotal_cons, IH. apply Qplus_comp; [|reflexivity]. rewrite qtotal_concat. clear.
  revert m. induction r as [|x r IH]; intros [|q m]; try reflexivity. cbn [map2 map]. rewrite !qtotal_cons, IH, qtotal_scale. reflexivity.
Qed.

Lemma part_loss {L} (d : L) (ce : L -> nat -> Q) logits k j (gold : list (list (list nat))) : rectangular gold logits ->
  (dense_part_loss ce logits (map (map (fun l => nth j l 0%nat)) (padded_gold k gold)) (map (@length _) gold)
   == mean_over_words (fun i t labels => ce (at_word d logits i t) (nth j labels 0%nat)) gold)%Q.
Proof.
  intros H. unfold dense_part_loss, mean_over_words, padded_gold. rewrite dense_numerator, norm_eq.
  rewrite (fed_words d ce (fun l => nth j l 0%nat) (fun x => x) _ _ gold logits H). reflexivity.
Qed.

Lemma over_words_ext {X} (f g : nat -> nat -> X -> Q) b : (forall i t x, In (i, t, x) (words_of 0 b) -> (f i t x == g i t x)%Q) ->
  (over_words f b == over_words g b)%Q.
Proof. intros H. apply qtotal_ext. intros [[i t] x] Hw. exact (H i t x Hw). Qed.

(* a weighted sum of means is the mean of the weighted sums *)
Lemma weighted_means {X} (g : nat * Q -> nat -> nat -> X -> Q) (jws : list (nat * Q)) b :
  (qtotal (map (fun jw => mean_over_words (g jw) b * snd jw)%Q jws)
   == mean_over_words (fun i t x => qtotal (map (fun jw => snd jw * g jw i t x)%Q jws)) b)%Q.
Proof.
  unfold mean_over_words. set (n := inject_Z (zlen (concat b))).
  transitivity (qtotal (map (fun jw => qtotal (map (fun w => snd jw * g jw (fst (fst w)) (snd (fst w)) (snd w) / n)%Q (words_of 0 b))) jws)).
  - apply qtotal_ext. intros jw _. unfold over_words. fold (qtotal (map (fun w => g jw (fst (fst w)) (snd (fst w)) (snd w)) (words_of 0 b))).
    transitivity (qtotal (map (fun w => g jw (fst (fst w)) (snd (fst w)) (snd w)) (words_of 0 b)) * (snd jw / n))%Q.
    + unfold Qdiv. ring.
    + rewrite <- qtotal_scale, map_map. apply qtotal_ext. intros w _. unfold Qdiv. ring.
  - rewrite qtotal_swap. unfold over_words, Qdiv.
    fold (qtotal (map (fun w => qtotal (map (fun jw => snd jw * g jw (fst (fst w)) (snd (fst w)) (snd w))%Q jws)) (words_of 0 b))).
    rewrite <- qtotal_scale, map_map. apply qtotal_ext. intros w _. rewrite <- qtotal_scale, map_map. reflexivity.
Qed.

Lemma weight_ok weights n q :
  (dict_get weights n = Some q \/ (dict_get weights n = None /\ dict_get weights (of_string "default") = Some q)) <-> loss_weight weights n = Ok q.
Proof.
  unfold loss_weight. destruct (dict_get weights n) as [x|].
  - split; [intros [E|[E _]]; congruence|]. intros E. left. congruence.
  - split.
    + intros [E|[_ E]]; [discriminate|]. now rewrite E.
    + intros E. right. split; [reflexivity|]. destruct (dict_get weights (of_string "default")); [|discriminate]. cbn in E. congruence.
Qed.

Lemma weights_sum weights (loss : nat -> Q) : forall names ws j, weighted weights names ws ->
  exists l, mapM (fun nl => do w <- loss_weight weights (fst nl); Ok (snd nl * w)%Q)
              (map (fun jn : nat * str => (snd jn, loss (fst jn))) (combine (seq j (length names)) names)) = Ok l /\
    l = map (fun jw : nat * Q => loss (fst jw) * snd jw)%Q (combine (seq j (length ws)) ws).
Proof.
  intros names ws j H. revert j. induction H as [|n q names ws Hn _ IH]; intros j; [exists []; auto|].
  destruct (IH (S j)) as (l & E & El). exists ((loss j * q)%Q :: l). cbn [length seq combine map mapM fst snd].
  rewrite (proj1 (weight_ok weights n q) Hn). cbn [bind]. rewrite E. cbn [bind]. split; [reflexivity|]. now rewrite El.
Qed.

Lemma dense_mean {L} (d : L) stack_dict ce weights names logits gold ws :
  length logits = length names -> Forall (rectangular gold) logits -> weighted weights names ws ->
  exists x, dense_loss stack_dict ce (Some weights) names logits gold = Ok x /\
    (x == mean_over_words (fun i t labels =>
            fold_right Qplus 0 (map (fun jw => snd jw * ce (at_word d (nth (fst jw) logits []) i t) (nth (fst jw) labels 0%nat))
              (combine (seq 0 (length ws)) ws))) gold)%Q.
Proof.
  intros Hl Hr Hw. unfold dense_loss, sum_losses.
  destruct (weights_sum weights (fun j => dense_part_loss ce (nth j logits []) (map (map (fun l => nth j l 0%nat)) (padded_gold (length names) gold))
    (map (@length _) gold)) names ws 0 Hw) as (l & E & El).
  cbv zeta. rewrite E. cbn [bind]. exists (qtotal l). split; [reflexivity|]. subst l.
  assert (length ws = length names) as Lw by (clear -Hw; induction Hw; cbn [length]; auto).
  transitivity (qtotal (map (fun jw : nat * Q =>
     mean_over_words (fun i t labels => ce (at_word d (nth (fst jw) logits []) i t) (nth (fst jw) labels 0%nat)) gold * snd jw)%Q
     (combine (seq 0 (length ws)) ws))).
  - apply qtotal_ext. intros [j q] Hj. apply in_combine_l, in_seq in Hj. cbn [fst snd]. rewrite part_loss; [reflexivity|].
    apply Forall_nth; [exact Hr|]. lia.
  - apply (weighted_means (fun jw i t labels => ce (at_word d (nth (fst jw) logits []) i t) (nth (fst jw) labels 0%nat))).
Qed.

(* without weights every part counts once, if tf.stack accepts the dictionary *)
Lemma dense_unweighted {L} (d : L) ce names logits gold :
  length logits = length names -> Forall (rectangular gold) logits ->
  exists x, dense_loss (Ok tt) ce None names logits gold = Ok x /\
    (x == mean_over_words (fun i t labels =>
            fold_right Qplus 0 (map (fun j => ce (at_word d (nth j logits []) i t) (nth j labels 0%nat)) (seq 0 (length names)))) gold)%Q.
Proof.
  intros Hl Hr. unfold dense_loss, sum_losses. cbv zeta. cbn [bind]. eexists. split; [reflexivity|].
  set (loss := fun j => dense_part_loss ce (nth j logits []) (map (map (fun l => nth j l 0%nat)) (padded_gold (length names) gold))
    (map (@length _) gold)).
  assert (forall ns j, map snd (map (fun jn : nat * str => (snd jn, loss (fst jn))) (combine (seq j (length ns)) ns)) = map loss (seq j (length ns))) as K.
  { induction ns as [|n ns IH]; intros j; [reflexivity|]. cbn [length seq combine map snd fst]. now rewrite IH. }
  fold loss. change (map (fun jn : nat * str => (snd jn, dense_part_loss ce (nth (fst jn) logits [])
    (map (map (fun l => nth (fst jn) l 0%nat)) (padded_gold (length names) gold)) (map (@length _) gold))) (combine (seq 0 (length names)) names))
    with (map (fun jn : nat * str => (snd jn, loss (fst jn))) (combine (seq 0 (length names)) names)).
  rewrite (K names 0%nat).
  set (g := fun (jw : nat * Q) i t (labels : list nat) => ce (at_word d (nth (fst jw) logits []) i t) (nth (fst jw) labels 0%nat)).
  set (jws := map (fun j => (j, 1%Q)) (seq 0 (length names))).
  transitivity (qtotal (map (fun jw : nat * Q => mean_over_words (g jw) gold * snd jw)%Q jws)).
  - unfold jws. rewrite map_map. apply qtotal_ext. intros j Hj. apply in_seq in Hj. cbn [fst snd]. unfold loss. rewrite part_loss with (d := d).
    + unfold g. cbn [fst]. ring.
    + apply Forall_nth; [exact Hr|]. lia.
  - rewrite (weighted_means g jws gold). unfold mean_over_words, over_words, Qdiv. apply Qmult_comp; [|reflexivity].
    apply (qtotal_ext (fun w : nat * nat * list nat => _) (fun w => _)). intros w _. unfold jws. rewrite map_map.
    apply (qtotal_ext (fun j : nat => _) (fun j => _)). intros j _. unfold g. cbn [fst snd]. ring.
Qed.

Lemma dense_missing {L} stack_dict (ce : L -> nat -> Q) weights names logits gold e :
  dense_loss stack_dict ce (Some weights) names logits gold = Err e <->
  e = EKey /\ dict_get weights (of_string "default") = None /\ exists n, In n names /\ dict_get weights n = None.
Proof.
  unfold dense_loss, sum_losses. cbv zeta.
  assert (forall (ls : list (str * Q)),
    mapM (fun nl => do w <- loss_weight weights (fst nl); Ok (snd nl * w)%Q) ls = Err e <->
    e = EKey /\ dict_get weights (of_string "default") = None /\ exists n, In n (map fst ls) /\ dict_get weights n = None) as K.
  { induction ls as [|[n x] ls IH]; cbn [mapM map fst snd].
    - split; [discriminate|]. intros (_ & _ & n & [] & _).
    - unfold loss_weight at 1. destruct (dict_get weights n) as [q|] eqn:En; cbn [bind].
      + assert (forall r : result (list Q), (do l' <- r; Ok ((x * q)%Q :: l')) = Err e <-> r = Err e) as B.
        { intros [r|e']; cbn [bind]; split; congruence. }
        rewrite B, IH. split; intros (He & Hd & m & Hm & Hn); (split; [exact He|split; [exact Hd|exists m]]).
        * split; [now right|exact Hn].
        * destruct Hm as [<-|Hm]; [congruence|]. auto.
      + destruct (dict_get weights (of_string "default")) as [q|] eqn:Ed; cbn [of_option bind].
        * assert (forall r : result (list Q), (do l' <- r; Ok ((x * q)%Q :: l')) = Err e <-> r = Err e) as B.
          { intros [r|e']; cbn [bind]; split; congruence. }
          rewrite B, IH. split; intros (_ & Hd & _); discriminate.
        * split; [intros E; injection E as <-; split; [reflexivity|split; [reflexivity|exists n; split; [now left|exact En]]]|].
          intros (-> & _). reflexivity. }
  set (ls := map _ (combine _ names)).
  assert (map fst ls = names) as En.
  { unfold ls. rewrite map_map. cbn [fst]. clear. generalize 0 as j. induction names as [|n names IH]; intros j; [reflexivity|].
    cbn [length seq combine map snd]. now rewrite IH. }
  specialize (K ls). rewrite En in K. rewrite <- K. destruct (mapM _ ls) as [l|e']; cbn [bind]; split; congruence.
Qed.

Lemma map_pad_id {X} m (z : X) b : map (pad_to m z) b = map (map (fun x => x)) (map (pad_to m z) b).
Proof. rewrite map_map. apply map_ext. intros a. symmetry. apply map_id. Qed.

Lemma combo_mean {L} (d : list L) (ce : L -> nat -> Q) weight n logits (gold : list (list (list nat))) : rectangular gold logits ->
  (combo_loss ce weight n logits gold
   == weight * mean_over_words (fun i t labels => fold_right Qplus 0 (map2 ce (at_word d logits i t) labels) / inject_Z (Z.of_nat n)) gold)%Q.
Proof.
  intros H. unfold combo_loss, padded_gold. cbv zeta. rewrite deep_numerator, norm_eq, map_pad_id.
  rewrite (fed_words d (map2 ce) (fun x => x) qtotal _ _ gold logits H). unfold mean_over_words, qnat.
  set (N := inject_Z (zlen (concat gold))). set (k := inject_Z (Z.of_nat n)).
  assert (over_words (fun i t labels => fold_right Qplus 0 (map2 ce (at_word d logits i t) labels) / k)%Q gold
    == over_words (fun i t labels => qtotal (map2 ce (at_word d logits i t) labels)) gold * (/ k))%Q as ->.
  { unfold over_words at 2. fold (qtotal (map (fun w => qtotal (map2 ce (at_word d logits (fst (fst w)) (snd (fst w))) (snd w))) (words_of 0 gold))).
    rewrite <- qtotal_scale, map_map. apply qtotal_ext. intros w _. reflexivity. }
  unfold Qdiv. rewrite Qinv_mult_distr. ring.
Qed.

Lemma binary_mean {L} (d : list L) (sce : L -> bool -> Q) rules logits (gold : list (list (list nat))) : rectangular gold logits ->
  (binary_loss sce rules logits gold
   == mean_over_words (fun i t labels => fold_right Qplus 0 (map2 sce (at_word d logits i t) (map (fun r => Nat.eqb r (nth 0%nat labels 0%nat)) (seq 0%nat rules)))) gold)%Q.
Proof.
  intros H. unfold binary_loss, padded_gold. cbv zeta. rewrite deep_numerator, norm_eq.
  rewrite (fed_words d (map2 sce) (fun l => map (Nat.eqb (nth 0 l 0)) (seq 0 rules)) qtotal _ _ gold logits H). unfold mean_over_words.
  apply Qdiv_comp; [|reflexivity]. apply over_words_ext. intros i t x _. unfold qtotal.
  assert (map (Nat.eqb (nth 0 x 0)) (seq 0 rules) = map (fun r => r =? nth 0 x 0) (seq 0 rules)) as ->; [|reflexivity].
  apply map_ext. intros r. apply Nat.eqb_sym.
Qed.
