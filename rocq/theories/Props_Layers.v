(* Properties C90-C94: what the layers of a network compute. *)
From Coq Require Import String Ascii ZArith NArith QArith Bool Lia List.
From Verif Require Import Base BaseFacts Model_Datamodel Spec_Datamodel Model_Vocab Model_Lemma Spec_Vocab Spec_Lemma Model_Layers Model_Loss
  Spec_Layers Spec_Loss Props_Datamodel Props_UDEval Props_Lemma Proofs_Layers Proofs_Layers2 Proofs_Loss Proofs_Loss2 Proofs_Choice.
Import ListNotations.
Open Scope nat_scope.

(* ---- material for the concrete cases ---- *)

(* a positive increasing function in place of the exponential *)
Definition ex_exp (x : Q) : Q := if Qle_bool 0 x then Qred (1 + x) else Qred (1 / (1 - x)).
Definition ex_arith : arith := rationals ex_exp.
Example ex_ordered : ordered ex_arith.
Proof.
  split; cbn.
  - intros x y. destruct (Qlt_le_dec x y) as [H|H]; [left; apply Qle_bool_iff, Qlt_le_weak, H|right; now apply Qle_bool_iff].
  - intros x y z. rewrite !Qle_bool_iff. apply Qle_trans.
Qed.

(* a word is given by the ids of its subwords, 0 is the padding; the embedding of an id is the id *)
Definition ex_row (i : Z) : list (num ex_arith) := [inject_Z i].
(* logits 4x and 3 *)
Definition ex_layer_head (v : list (num ex_arith)) : list (num ex_arith) := [Qred (4 * nth 0 v 0%Q); inject_Z 3].
Definition ex_kernel : kernel ex_arith := @mkKernel ex_arith [[[1%Q]]; [[(1#2)%Q]]; [[1%Q]]] 1 1.
Definition ex_cell : cell ex_arith :=
  @mkCell ex_arith Q 0%Q (fun (st : Q) (v : list Q) => let x := Qred (st + nth 0 v 0%Q + (1#4)) in (x, [Qred ((1#2) * x)])).
Definition ex_lstm : lstm ex_arith := mkLstm ex_cell ex_cell 1.
Definition n_chars : str := of_string "characters".
Definition n_words : str := of_string "word_embedding".

Definition ex_dense (name : str) : task ex_arith (list Z) := DenseTask name [ex_layer_head] None.
Definition ex_subword_net (a : aggregator ex_arith) : net ex_arith (list Z) :=
  mkNet [(n_chars, SubwordLevel (fun w => w) ex_row 1 a (fun v => v))] WE_charCNN [ex_dense n_word_features].
Definition ex_combo_net : net ex_arith (list Z) :=
  mkNet [(n_words, WordLevel (fun w => nth 0 w 0%Z) ex_row (fun v => v))] WE_charCNN
    [ComboTask n_words (fun w => w) (fun i => ex_row (i + 1)) 1 2 (fun v => v) [] (fun e _ => ex_layer_head e)].
Definition ex_word_net (e : encoder ex_arith) (name : str) : net ex_arith (list Z) :=
  mkNet [(n_words, WordLevel (fun w => nth 0 w 0%Z) ex_row (fun v => v))] e [ex_dense name].

(* ------------------------------------------------------------------ *)
(* C90  A sentence gets the same labels in a batch as alone. *)

(* Not so: the vectors of words depend on the length of the longest word of the batch with every one of the four aggregators, though the
   embedding of the padding is zero; lemma_combo depends on it if that embedding is not zero; with Dilated_CNN the words
   at the end of a sentence depend on the length of the longest sentence. *)
Theorem C90_batch_refuted :
  depends_on_batch (ex_subword_net Average) /\ depends_on_batch (ex_subword_net SelfAttention) /\
  depends_on_batch (ex_subword_net (SubwordCNN [ex_kernel])) /\ depends_on_batch (ex_subword_net (SubwordRNN [ex_lstm] (map relu))) /\
  depends_on_batch ex_combo_net /\ depends_on_batch (ex_word_net (Dilated_CNN [ex_kernel; ex_kernel] None) n_dilated).
Proof.
  split; [|split; [|split; [|split; [|split]]]];
    (exists [[[1%Z]]; [[1%Z; 1%Z]; [1%Z]]], 0; do 3 eexists; split; [reflexivity|split; [vm_compute; reflexivity|split; [reflexivity|vm_compute; discriminate]]]).
Qed.
Print Assumptions C90_batch_refuted.

(* It does without Dilated_CNN if the longest words of the batch are in the sentence (for lemma_combo: or the embedding of the padding is
   zero); so always, if there are only features of whole words. *)
Theorem C90_alone_partial : forall (A : arith) (W : Type) (n : net A W) b i s outs,
  ~ is_dilated n -> nth_error b i = Some s ->
  (forall name ids_of row d a gate, In (name, SubwordLevel ids_of row d a gate) (n_features n) -> has_longest ids_of b s) ->
  (forall name ids_of row d len reduce ks finish, In (ComboTask name ids_of row d len reduce ks finish) (n_tasks n) ->
     has_longest ids_of b s \/ row 0%Z = repeat zero d) ->
  predict n b = Ok outs ->
  exists o, nth_error outs i = Some o /\ predict n [s] = Ok [map (firstn (length s)) o].
Proof.
  intros A W n b i s outs Hd Hi Hf Ht E. pose proof (nth_error_In _ _ Hi) as Hs. apply (predict_alone n b i s outs Hi); [|
    intros ks sk K; apply Hd; exists ks, sk; exact K|exact E]. split.
  - apply Forall_forall. intros [name [id_of row gate|ids_of row d a gate]] Hin; cbn [snd same_width]; [exact Logic.I|].
    apply equally_long_width, has_longest_width; [exact Hs|]. exact (Hf _ _ _ _ _ _ Hin).
  - apply Forall_forall. intros [name heads rules|name ids_of row d len reduce ks finish] Hin; cbn [task_ok]; [exact Logic.I|].
    destruct (Ht _ _ _ _ _ _ _ _ Hin) as [H|H]; [left|now right]. apply equally_long_width, has_longest_width; [exact Hs|exact H].
Qed.
Print Assumptions C90_alone_partial.

Example C90_case :
  let n := ex_word_net (BiLSTM [ex_lstm; ex_lstm] (Some SkipConcat)) n_bilstm_words in
  predict n [[[1%Z]; [0%Z]]; [[0%Z]; [1%Z]; [1%Z]]] = Ok [[[[0]; [0]; [1]]]; [[[1]; [0]; [0]]]] /\
  predict n [[[1%Z]; [0%Z]]] = Ok [[[[0]; [0]]]] /\
  predict (ex_subword_net Average) [[[1%Z]; [1%Z; 1%Z]]; [[2%Z]; [1%Z]; [1%Z; 1%Z]]] = Ok [[[[1]; [0]; [1]]]; [[[0]; [1]; [0]]]].
Proof. vm_compute. auto. Qed.

(* ------------------------------------------------------------------ *)
(* C91  With WE_charCNN the labels of a word depend on that word only, with Dilated_CNN on the words in the window of its convolutions,
   if the window ends inside of the sentence. With subword features (and with lemma_combo, unless its padding row is zero) they also
   depend on the length of the longest word of the batch, see C90: so that has to be the same. Everything else in the sentence and in the
   batch may differ. *)
Theorem C91_window : forall (A : arith) (W : Type) (n : net A W) b b' i i' s s' t back forth outs outs',
  nth_error b i = Some s -> nth_error b' i' = Some s' ->
  (forall name ids_of row d a gate, In (name, SubwordLevel ids_of row d a gate) (n_features n) -> equally_long ids_of b b') ->
  (forall name ids_of row d len reduce ks finish, In (ComboTask name ids_of row d len reduce ks finish) (n_tasks n) ->
     equally_long ids_of b b' \/ row 0%Z = repeat zero d) ->
  window (n_encoder n) back forth -> t + forth < length s ->
  (forall p, t <= p + back -> p <= t + forth -> nth_error s p = nth_error s' p) ->
  predict n b = Ok outs -> predict n b' = Ok outs' ->
  exists o o', nth_error outs i = Some o /\ nth_error outs' i' = Some o' /\ Forall2 (fun x x' => nth_error x t = nth_error x' t) o o'.
Proof.
  intros A W n b b' i i' s s' t back forth outs outs' Hi Hi' Hf Ht. apply predict_window; [exact Hi|exact Hi'|]. split.
  - apply Forall_forall. intros [name [id_of row gate|ids_of row d a gate]] Hin; cbn [snd same_width]; [exact Logic.I|].
    apply equally_long_width. exact (Hf _ _ _ _ _ _ Hin).
  - apply Forall_forall. intros [name heads rules|name ids_of row d len reduce ks finish] Hin; cbn [task_ok]; [exact Logic.I|].
    destruct (Ht _ _ _ _ _ _ _ _ Hin) as [H|H]; [left|now right]. now apply equally_long_width.
Qed.
Print Assumptions C91_window.

(* two convolutions of three words, the second with dilation 2: three words before and three after *)
Definition ex_wide : encoder ex_arith := Dilated_CNN [ex_kernel; @mkKernel ex_arith (taps ex_kernel) 1 2] None.
Definition ex_ones (l : list Z) : list (list Z) := map (fun i => [i]) l.
Example C91_case :
  window ex_wide 3 3 /\
  predict (ex_word_net ex_wide n_dilated) [ex_ones [0; 0; 0; 0; 0; 0; 0; 0; 9]%Z] = Ok [[[[1]; [1]; [1]; [1]; [1]; [0]; [0]; [0]; [0]]]] /\
  predict (ex_word_net ex_wide n_dilated) [ex_ones [9; 0; 0; 0; 0; 0; 0; 0; 0]%Z] = Ok [[[[0]; [0]; [0]; [0]; [1]; [1]; [1]; [1]; [1]]]] /\
  looks_back [@mkKernel ex_arith [[]; []; []; []] 1 1] = 1 /\ looks_ahead [@mkKernel ex_arith [[]; []; []; []] 1 1] = 2.
Proof. split; [constructor|]. vm_compute. auto. Qed.

(* ------------------------------------------------------------------ *)
(* C92  The loss of a batch is the mean over its words: the padding of shorter sentences does not count, a sentence counts by its length.
   `logits` and `ce` are arbitrary, so is what they give for the padding. *)
Theorem C92_dense : forall (L : Type) (d : L) stack_dict ce weights names logits gold ws,
  length logits = length names -> Forall (rectangular gold) logits -> weighted weights names ws -> concat gold <> [] ->
  exists x, dense_loss stack_dict ce (Some weights) names logits gold = Ok x /\
    (x == mean_over_words (fun i t labels =>
            fold_right Qplus 0 (map (fun jw => snd jw * ce (at_word d (nth (fst jw) logits []) i t) (nth (fst jw) labels 0%nat))
              (combine (seq 0 (length ws)) ws))) gold)%Q.
Proof. intros L d sd ce weights names logits gold ws H1 H2 H3 _. exact (dense_mean d sd ce weights names logits gold ws H1 H2 H3). Qed.
Print Assumptions C92_dense.

(* without loss_weights every part counts once, provided tf.stack accepts a dictionary; if not, building the network raises what it raises *)
Theorem C92_unweighted : forall (L : Type) (d : L) stack_dict ce names logits gold,
  length logits = length names -> Forall (rectangular gold) logits -> concat gold <> [] ->
  (forall e, stack_dict = Err e -> dense_loss stack_dict ce None names logits gold = Err e) /\
  (stack_dict = Ok tt -> exists x, dense_loss stack_dict ce None names logits gold = Ok x /\
    (x == mean_over_words (fun i t labels =>
            fold_right Qplus 0 (map (fun j => ce (at_word d (nth j logits []) i t) (nth j labels 0%nat)) (seq 0 (length names)))) gold)%Q).
Proof.
  intros L d sd ce names logits gold H1 H2 _. split; [intros e ->; reflexivity|]. intros ->. exact (dense_unweighted d ce names logits gold H1 H2).
Qed.
Print Assumptions C92_unweighted.

(* a part without a weight, and no default *)
Theorem C92_missing_weight : forall (L : Type) stack_dict (ce : L -> nat -> Q) weights names logits gold e,
  dense_loss stack_dict ce (Some weights) names logits gold = Err e <->
  e = EKey /\ dict_get weights (of_string "default") = None /\ exists n, In n names /\ dict_get weights n = None.
Proof. intros L. exact dense_missing. Qed.
Print Assumptions C92_missing_weight.

(* lemma_combo: the mean over words of the mean over max_word_length characters, which include the padding of the lemma *)
Theorem C92_combo : forall (L : Type) (d : list L) (ce : L -> nat -> Q) weight n logits (gold : list (list (list nat))),
  rectangular gold logits -> concat gold <> [] -> n <> 0 ->
  (combo_loss ce weight n logits gold
   == weight * mean_over_words (fun i t labels => fold_right Qplus 0 (map2 ce (at_word d logits i t) labels) / inject_Z (Z.of_nat n)) gold)%Q.
Proof. intros L d ce weight n logits gold H _ _. exact (combo_mean d ce weight n logits gold H). Qed.
Print Assumptions C92_combo.

(* lemma_suffix_binary: the mean over words of the sum over all rules *)
Theorem C92_binary : forall (L : Type) (d : list L) (sce : L -> bool -> Q) rules logits (gold : list (list (list nat))),
  rectangular gold logits -> concat gold <> [] ->
  (binary_loss sce rules logits gold
   == mean_over_words (fun i t labels =>
        fold_right Qplus 0 (map2 sce (at_word d logits i t) (map (fun r => Nat.eqb r (nth 0%nat labels 0%nat)) (seq 0%nat rules)))) gold)%Q.
Proof. intros L d sce rules logits gold H _. exact (binary_mean d sce rules logits gold H). Qed.
Print Assumptions C92_binary.

(* sentences of two words and of one, two parts with weights 2 and 1; the logits at the padding are 1000 *)
Definition ex_ce (x : Q) (label : nat) : Q := (x * qnat (S label))%Q.
Example C92_case :
  let gold := [[[0; 1]; [2; 0]]; [[1; 1]]] in
  let logits := [[[1; 2]; [3; 1000]]; [[4; 5]; [6; 1000]]]%Q in
  let weights := [(of_string "POS", 2%Q); (of_string "default", 1%Q)] in
  Forall (rectangular gold) logits /\ weighted weights [of_string "POS"; of_string "LEMMA"] [2%Q; 1%Q] /\
  (exists x, dense_loss (Err EType) ex_ce (Some weights) [of_string "POS"; of_string "LEMMA"] logits gold = Ok x /\
     (x == ((2 * 1 * 1 + 4 * 2) + (2 * 2 * 3 + 5 * 1) + (2 * 3 * 2 + 6 * 2)) / 3)%Q) /\
  (combo_loss ex_ce (1#2) 2 [[[4; 1]; [2; 3]]; [[5; 6]; [1000; 1000]]] gold
    == (1#2) * (((4 * 1 + 1 * 2) / 2 + (2 * 3 + 3 * 1) / 2 + (5 * 2 + 6 * 2) / 2) / 3))%Q /\
  (binary_loss (fun x (b : bool) => if b then x else 0) 3 [[[4; 1; 2]; [2; 3; 5]]; [[5; 6; 7]; [1000; 1000; 1000]]] gold == (4 + 5 + 6) / 3)%Q.
Proof.
  cbv zeta. split; [|split; [|split; [|split]]].
  - repeat apply Forall_cons; try apply Forall_nil; (split; [reflexivity|]); intros s Hs x Hx;
      repeat (destruct Hs as [<-|Hs]; [repeat (destruct Hx as [<-|Hx]; [vm_compute; lia|]); destruct Hx|]); destruct Hs.
  - constructor; [left; reflexivity|]. constructor; [right; split; reflexivity|constructor].
  - eexists. split; [vm_compute; reflexivity|]. vm_compute. reflexivity.
  - vm_compute. reflexivity.
  - vm_compute. reflexivity.
Qed.

Example C92_unweighted_case :
  let gold := [[[0; 1]; [2; 0]]; [[1; 1]]] in
  let logits := [[[1; 2]; [3; 1000]]; [[4; 5]; [6; 1000]]]%Q in
  exists x, dense_loss (Ok tt) ex_ce None [of_string "POS"; of_string "LEMMA"] logits gold = Ok x /\
    (x == ((1 * 1 + 4 * 2) + (2 * 3 + 5 * 1) + (3 * 2 + 6 * 2)) / 3)%Q.
Proof. cbv zeta. eexists. split; [vm_compute; reflexivity|]. vm_compute. reflexivity. Qed.

(* ------------------------------------------------------------------ *)
(* C93  A suffix tagger chooses the best of the rules that apply to the word, and the lemma is what that rule makes of the word. *)
Theorem C93_network : forall (A : arith) (W : Type) (n : net A W) b outs i s t w o ti name heads k allowed ls labels, ordered A ->
  predict n b = Ok outs -> nth_error b i = Some s -> nth_error s t = Some w -> nth_error outs i = Some o ->
  nth_error (n_tasks n) ti = Some (DenseTask name heads (Some (k, allowed))) -> nth_error o ti = Some ls -> nth_error ls t = Some labels ->
  (forall h v, In h heads -> length (h v) = length (allowed w) /\ forall x, In x (h v) -> leb x lowest = false) -> In true (allowed w) ->
  exists v, Forall2 (fun h l => best_allowed (allowed w) (h v) l) heads labels.
Proof. intros A W. exact network_choice. Qed.
Print Assumptions C93_network.

(* if no rule applies, the most frequent one (number 0) is chosen *)
Theorem C93_lemma : forall (A : arith) lower threshold ds rules x m (v : list (num A)), ordered A ->
  build_rules lower threshold ds = Ok rules -> token_wf (dt_tok x) -> mask_extractor lower rules x = Ok m ->
  length v = length (snd rules) -> (forall y, In y v -> leb y lowest = false) ->
  exists r t, nth_error (snd rules) (argmax (masked m v)) = Some r /\
    interpret_rule lower (snd rules) x (Z.of_nat (argmax (masked m v))) = Ok (mkDT (dt_doc x) t) /\ same_but_lemma (dt_tok x) t /\
    (In true m -> best_allowed m v (argmax (masked m v)) /\
       exists p, lower (dt_text x) = p ++ word_suffix r /\ tlemma t = Some (p ++ lemma_suffix r)) /\
    (~ In true m -> argmax (masked m v) = 0).
Proof. exact lemma_choice. Qed.
Print Assumptions C93_lemma.

Definition ex_allowed (w : list Z) : list bool := map (Z.eqb 1) w.
Example C93_case :
  let h := fun _ : list (num ex_arith) => map inject_Z [5; 2; 3; 3]%Z : list (num ex_arith) in
  predict (mkNet [(n_words, WordLevel (fun _ => 1%Z) ex_row (fun v => v))] WE_charCNN [DenseTask n_words [h] (Some (4, ex_allowed))])
    [[[0; 1; 1; 1]%Z; [1; 1; 1; 1]%Z; [0; 0; 0; 0]%Z]] = Ok [[[[2]; [0]; [0]]]] /\
  best_allowed (A := ex_arith) (ex_allowed [0; 1; 1; 1]%Z) (h []) 2 /\
  mapM (fun x => do m <- mask_extractor ascii_lower ex_suffix_rules x;
                 Ok (argmax (A := ex_arith) (masked (A := ex_arith) m [inject_Z 2; inject_Z 7]))) (dataset_tokens [ex_lemma_doc]) = Ok [0; 1; 0].
Proof.
  cbv zeta. split; [vm_compute; reflexivity|]. split; [|vm_compute; reflexivity]. split; [reflexivity|]. exists (inject_Z 3). split; [reflexivity|].
  intros [|[|[|[|j]]]] y Hm Hy; try discriminate Hm; try (injection Hy as <-; vm_compute; split; [reflexivity|try lia; reflexivity]).
  destruct j; discriminate.
Qed.

(* ------------------------------------------------------------------ *)
(* C94  In training, the gold rule of a word is among those the network may choose. *)

(* Not so: a rule that occurs too seldom is replaced by the most frequent one, which need not apply to the word; its logit is then the lowest
   number whatever the network computes. *)
Theorem C94_gold_refuted : exists threshold rules x i m, constructed ex_lemma_doc /\
  build_rules ascii_lower threshold [ex_lemma_doc] = Ok rules /\ In x (dataset_tokens [ex_lemma_doc]) /\
  rule_label ascii_lower (fst rules) x = Ok (Z.of_nat i) /\ mask_extractor ascii_lower rules x = Ok m /\ nth_error m i = Some false /\
  forall (A : arith) (v : list (num A)), length v = length (snd rules) -> nth_error (masked m v) i = Some lowest.
Proof.
  exists 1%Z. eexists. exists (mkDT (of_string "Dogs saw cats") (ex_lem 5 8 "see")), 0. eexists.
  split; [exact ex_lemma_doc_constructed|]. split; [vm_compute; reflexivity|]. split; [vm_compute; auto|].
  split; [vm_compute; reflexivity|]. split; [vm_compute; reflexivity|]. split; [reflexivity|].
  intros A [|x v] H; [discriminate|]. reflexivity.
Qed.
Print Assumptions C94_gold_refuted.

Theorem C94_gold_partial : forall lower threshold ds rules x r,
  build_rules lower threshold ds = Ok rules -> token_wf (dt_tok x) -> teaches lower x r ->
  exists i m, rule_label lower (fst rules) x = Ok (Z.of_nat i) /\ mask_extractor lower rules x = Ok m /\
    (In r (snd rules) -> nth_error m i = Some true) /\ (~ In r (snd rules) -> i = 0).
Proof. exact gold_label. Qed.
Print Assumptions C94_gold_partial.

Example C94_case :
  mapM (fun x => do i <- rule_label ascii_lower (fst ex_suffix_rules) x; do m <- mask_extractor ascii_lower ex_suffix_rules x;
                 Ok (i, nth_error m (Z.to_nat i))) (dataset_tokens [ex_lemma_doc])
  = Ok [(0%Z, Some true); (1%Z, Some true); (0%Z, Some true)].
Proof. vm_compute. reflexivity. Qed.
