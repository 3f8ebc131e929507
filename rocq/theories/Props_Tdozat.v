(* Properties C84-C87: the tdozat wrapper. *)
From Coq Require Import String Ascii ZArith NArith Bool Lia Permutation Sorted List.
From Verif Require Import Base BaseFacts Model_Datamodel Spec_Datamodel Props_Datamodel Model_Conllu Model_Processors Spec_Processors Model_Tdozat Spec_Tdozat
  Proofs_Tdozat Proofs_Tdozat2 Proofs_Tdozat3 Proofs_Tdozat4.
Import ListNotations.
Open Scope Z_scope.

(* ---------------- C84 ---------------- *)

(* The dataset gets, for every document, the lines of its sentences and an empty list.  The n-th list that is not empty is the
   n-th sentence of all documents; counted with the empty lists, the sentences of the k-th document come k places later. *)
Theorem C84_dataset :
  forall ds, Forall built ds ->
    exists yielded, Forall2 (fun d y => itersents d = Ok y) ds yielded /\
      length (filter not_nil (concat yielded)) = length (concat (map dsents ds)) /\
      length (concat yielded) = (length (concat (map dsents ds)) + length ds)%nat /\
      forall n k d s, sentence_number ds n k d s -> exists lines,
        nth_error (filter not_nil (concat yielded)) n = Some lines /\ nth_error (concat yielded) (n + k) = Some lines /\ lines_of d s lines.
Proof. exact dataset_ok. Qed.
Print Assumptions C84_dataset.

(* Whatever the order of the batches, every token gets what the network said about its sentence and its position; the text, the
   words and the sentences stay.  The only exceptions come from columns that cannot be read. *)
Theorem C84_predictions :
  forall argsort net extra st ds yielded bs total,
    sorting argsort -> current st <> None -> predictions st = empty_store -> Forall built ds ->
    Forall2 (fun d y => itersents d = Ok y) ds yielded -> net yielded = (bs, None) ->
    regular bs -> numbers bs total -> (length (concat (map dsents ds)) <= total)%nat -> every_token ds (answered bs extra) ->
    (every_token ds (readable bs) /\ exists ds', process_documents argsort net extra st (ds, None) = (st, Ok ds') /\ length ds' = length ds /\
       forall n k d s, sentence_number ds n k d s -> exists d', nth_error ds' k = Some d' /\ built d' /\ dtext d' = dtext d /\ dsents d' = dsents d /\
         length (dtokens d') = length (dtokens d) /\
         forall i t0, nth_error (tokens_of (dtokens d) s) i = Some t0 ->
           exists t, nth_error (tokens_of (dtokens d') s) i = Some t /\ predicted bs extra n (S i) (sstart s) t0 t) \/
    (~ every_token ds (readable bs) /\ exists e p', (e = EIndex \/ e = EValue) /\ indices p' = concat (map fst bs) /\
       process_documents argsort net extra st (ds, None) = (mkState (current st) (open st) (created st) p', Err e)).
Proof. exact predictions_aligned. Qed.
Print Assumptions C84_predictions.

(* a stable argsort *)
Definition ex_argsort (l : list Z) : list nat := isort (fun i j => nth i l 0 <=? nth j l 0) (seq 0 (length l)).
Lemma ex_sorting : sorting ex_argsort.
Proof.
  intros l. unfold ex_argsort. split; [symmetry; apply isort_perm|].
  assert (O : leb_ok (fun i j => nth i l 0 <=? nth j l 0)).
  { split.
    - intros x y. destruct (Z.leb_spec (nth x l 0) (nth y l 0)); [left; auto|right; apply Z.leb_le; lia].
    - intros x y z H1 H2. apply Z.leb_le in H1, H2. apply Z.leb_le. lia. }
  pose proof (isort_sorted _ O (seq 0 (length l))) as H. induction H as [|x m H IH F]; constructor; auto.
  eapply Forall_impl; [|exact F]. intros y Y. apply Z.leb_le. exact Y.
Qed.

(* a network that numbers the lists that are not empty, or all lists, and takes the sentences with odd numbers first *)
Definition ex_row (g : nat -> list str -> pyval) (lines : list (list str)) : list pyval :=
  PNone :: map (fun '(i, line) => g i line) (combine (seq 1 (length lines)) lines).
Definition ex_batch (nls : list (nat * list (list str))) : batch :=
  (map (fun nl => Z.of_nat (fst nl)) nls,
   [(of_string "id", map (fun nl => ex_row (fun i line => PStr (nth 0 line [])) (snd nl)) nls);
    (of_string "lemma", map (fun nl => ex_row (fun i line => PStr (nth 1 line [])) (snd nl)) nls);
    (of_string "ufeats", map (fun nl => ex_row (fun i line => PStr (if (i =? 1)%nat then of_string "_" else of_string "A=b|C=d=e")) (snd nl)) nls);
    (of_string "dephead", map (fun nl => ex_row (fun i line => PStr (print_Z (Z.of_nat i - 1))) (snd nl)) nls);
    (of_string "vector", map (fun nl => ex_row (fun i line => PInt (Z.of_nat (fst nl))) (snd nl)) nls)]).
Definition ex_batches (sents : list (list (list str))) : gen batch :=
  let nls := combine (seq 0 (length sents)) sents in
  ([ex_batch (filter (fun nl => Nat.odd (fst nl)) nls); ex_batch (filter (fun nl => Nat.even (fst nl)) nls)], None).
Definition ex_net (yielded : list (list (list (list str)))) : gen batch := ex_batches (filter not_nil (concat yielded)).
Definition ex_net_all (yielded : list (list (list (list str)))) : gen batch := ex_batches (concat yielded).

Definition ex_docs : list document := [ex_doc; ex_doc].
Definition ex_extra : list str := [of_string "vector"].
Definition ex_yielded : list (list (list (list str))) := match mapM itersents ex_docs with Ok y => y | Err _ => [] end.
Definition ex_bs : list batch := fst (ex_net ex_yielded).
Definition ex_state : state := fst (enter_session None None initial).

Lemma ex_regular : regular ex_bs.
Proof.
  assert (K : forall b, In b ex_bs -> dict_keys (snd b) = map of_string ["id"; "lemma"; "ufeats"; "dephead"; "vector"]%string).
  { vm_compute. intros b [<-|[<-|[]]]; reflexivity. }
  split; [|split].
  - intros b b' f I I' J. rewrite (K b' I'). rewrite (K b I) in J. exact J.
  - intros b f rs I G. apply dict_get_In in G. vm_compute in I. destruct I as [<-|[<-|[]]]; cbn [snd In] in G;
      (repeat (destruct G as [G|G]; [injection G as <- <-; reflexivity|])); destruct G.
  - intros b I. rewrite (K b I). repeat constructor; vm_compute; intuition discriminate.
Qed.
Lemma ex_numbers : numbers ex_bs 4.
Proof.
  unfold numbers. vm_compute. change [1; 3; 0; 2] with ([1; 3] ++ [0; 2]). change [0; 1; 2; 3] with ([0] ++ [1] ++ [2] ++ [3]).
  eapply perm_trans; [apply Permutation_app_comm|]. cbn. constructor. apply perm_swap.
Qed.

Lemma ex_cell f n r j v : nth_error (concat (map fst ex_bs)) r = Some (Z.of_nat n) ->
  get_cell (fold_left cache ex_bs empty_store) f (Z.of_nat r) (Z.of_nat j) = Ok v -> cell ex_bs f n j v.
Proof. intros E H. apply (get_cell_iff ex_bs ex_regular (numbers_distinct ex_bs 4 ex_numbers) f n r j v E). exact H. Qed.

(* the position of sentence n among the rows *)
Definition ex_position (n : nat) : nat := nth n [2; 0; 3; 1]%nat 0%nat.

Lemma ex_tokens_each (P : nat -> nat -> Prop) :
  (forall j, In j [1; 2; 3; 4]%nat -> P 0%nat j /\ P 2%nat j) -> (forall j, In j [1; 2]%nat -> P 1%nat j /\ P 3%nat j) -> every_token ex_docs P.
Proof.
  intros H1 H2 n k d s j (m & E1 & E2 & ->) Hj.
  assert (L0 : length (tokens_of (dtokens ex_doc) (mkSent 0 4)) = 4%nat) by reflexivity.
  assert (L1 : length (tokens_of (dtokens ex_doc) (mkSent 4 6)) = 2%nat) by reflexivity.
  destruct k as [|[|k]]; [| |destruct k; discriminate]; injection E1 as <-; (destruct m as [|[|m]]; [| |destruct m; discriminate]); injection E2 as <-;
    cbn [firstn map concat length app Nat.add ex_docs].
  - apply H1. rewrite L0 in Hj. cbn. lia.
  - apply H2. rewrite L1 in Hj. cbn. lia.
  - apply H1. rewrite L0 in Hj. cbn. lia.
  - apply H2. rewrite L1 in Hj. cbn. lia.
Qed.

Lemma ex_absent f : In f ["form"; "upos"; "xpos"; "deprel"; "semrel"; "misc"]%string -> ~ provided ex_bs (of_string f).
Proof.
  intros I (b & J & K). assert (X : dict_keys (snd b) = map of_string ["id"; "lemma"; "ufeats"; "dephead"; "vector"]%string) by (vm_compute in J; destruct J as [<-|[<-|[]]]; reflexivity).
  rewrite X in K. cbn [In] in I. repeat (destruct I as [<-|I]; [vm_compute in K; intuition discriminate|]). destruct I.
Qed.

Ltac ex_get n := eapply (ex_cell _ _ (ex_position n)); [reflexivity|vm_compute; reflexivity].
Ltac ex_answered n := split; [eexists; ex_get n|split; [
  intros f I P; cbn [In] in I;
  repeat (destruct I as [<-|I]; [first [exfalso; eapply ex_absent; [|exact P]; cbn; tauto|eexists; ex_get n]|]); destruct I
  |intros f [<-|[]]; eexists; ex_get n]].
Lemma ex_answered_all : every_token ex_docs (answered ex_bs ex_extra).
Proof.
  apply ex_tokens_each; intros j I; cbn [In] in I.
  - repeat (destruct I as [<-|I]; [split; [ex_answered 0%nat|ex_answered 2%nat]|]). destruct I.
  - repeat (destruct I as [<-|I]; [split; [ex_answered 1%nat|ex_answered 3%nat]|]). destruct I.
Qed.

(* Two documents with two sentences each, the odd sentences first. *)
Example C84_case :
  Forall built ex_docs /\ Forall2 (fun d y => itersents d = Ok y) ex_docs ex_yielded /\ map (@length _) ex_yielded = [3; 3]%nat /\
  sorting ex_argsort /\ ex_net ex_yielded = (ex_bs, None) /\ regular ex_bs /\ numbers ex_bs 4 /\
  (length (concat (map dsents ex_docs)) <= 4)%nat /\ every_token ex_docs (answered ex_bs ex_extra) /\ every_token ex_docs (readable ex_bs) /\
  concat (map fst ex_bs) = [1; 3; 0; 2] /\
  exists ds', process_documents ex_argsort ex_net ex_extra ex_state (ex_docs, None) = (ex_state, Ok ds') /\
    map (fun d => map tlemma (dtokens d)) ds' = repeat (map (fun s => Some (of_string s)) ["I"; "do"; "n't"; "."; "We"; "go"]%string) 2 /\
    map (fun d => map (fun t => dict_get (textras t) (of_string "vector")) (dtokens d)) ds' =
      map (map (fun z => Some (PInt z))) [[0; 0; 0; 0; 1; 1]; [2; 2; 2; 2; 3; 3]] /\
    map (fun d => map thdoc (dtokens d)) ds' = repeat (map Some [-1; 0; 1; 2; -1; 4]) 2 /\
    map (fun d => map tdeprel (dtokens d)) ds' = repeat (repeat None 6) 2 /\
    map (fun d => map (fun t => feature_of t (of_string "C")) (dtokens d)) ds' =
      repeat [None; Some (of_string "d"); Some (of_string "d"); Some (of_string "d"); None; Some (of_string "d")] 2.
Proof.
  assert (B : Forall built ex_docs) by (repeat constructor; exact ex_constructed).
  assert (Y : Forall2 (fun d y => itersents d = Ok y) ex_docs ex_yielded) by (repeat constructor).
  assert (X : exists ds', process_documents ex_argsort ex_net ex_extra ex_state (ex_docs, None) = (ex_state, Ok ds') /\
    map (fun d => map tlemma (dtokens d)) ds' = repeat (map (fun s => Some (of_string s)) ["I"; "do"; "n't"; "."; "We"; "go"]%string) 2 /\
    map (fun d => map (fun t => dict_get (textras t) (of_string "vector")) (dtokens d)) ds' =
      map (map (fun z => Some (PInt z))) [[0; 0; 0; 0; 1; 1]; [2; 2; 2; 2; 3; 3]] /\
    map (fun d => map thdoc (dtokens d)) ds' = repeat (map Some [-1; 0; 1; 2; -1; 4]) 2 /\
    map (fun d => map tdeprel (dtokens d)) ds' = repeat (repeat None 6) 2 /\
    map (fun d => map (fun t => feature_of t (of_string "C")) (dtokens d)) ds' =
      repeat [None; Some (of_string "d"); Some (of_string "d"); Some (of_string "d"); None; Some (of_string "d")] 2).
  { eexists. split; [vm_compute; reflexivity|]. repeat split; vm_compute; reflexivity. }
  assert (R : every_token ex_docs (readable ex_bs)).
  { destruct (C84_predictions ex_argsort ex_net ex_extra ex_state ex_docs ex_yielded ex_bs 4 ex_sorting ltac:(discriminate) eq_refl B Y eq_refl
      ex_regular ex_numbers ltac:(vm_compute; lia) ex_answered_all) as [(R & _)|(_ & e & p' & _ & _ & E)]; [exact R|].
    destruct X as (ds' & X & _). rewrite X in E. discriminate. }
  split; [exact B|]. split; [exact Y|]. split; [reflexivity|]. split; [exact ex_sorting|]. split; [reflexivity|]. split; [exact ex_regular|].
  split; [exact ex_numbers|]. split; [vm_compute; lia|]. split; [exact ex_answered_all|]. split; [exact R|]. split; [reflexivity|]. exact X.
Qed.

(* If the empty lists were numbered too, a call with two documents would fail: the first sentence of the second document
   would be read from the row of an empty list. *)
Example C84_numbering_matters :
  let bs := fst (ex_net_all ex_yielded) in
  numbers bs 6 /\
  snd (process_documents ex_argsort ex_net_all ex_extra ex_state (ex_docs, None)) = Err EIndex /\
  (exists d', snd (process_documents ex_argsort ex_net_all ex_extra ex_state ([ex_doc], None)) = Ok [d']).
Proof.
  split; [|split; [vm_compute; reflexivity|eexists; vm_compute; reflexivity]].
  unfold numbers. vm_compute. change [1; 3; 5; 0; 2; 4] with ([1; 3; 5] ++ [0; 2; 4]). eapply perm_trans; [apply Permutation_app_comm|]. cbn. constructor.
  change [2; 4; 1; 3; 5] with ([2; 4] ++ 1 :: [3; 5]). eapply perm_trans; [symmetry; apply Permutation_middle|]. constructor. cbn. constructor.
  apply perm_swap.
Qed.

(* ---------------- C85 ---------------- *)

(* Not true: a call that raised leaves its predictions behind, and later calls - in the same context or in a new one - give
   tokens the predictions of other sentences, however equal numbers are sorted. *)
Definition bad_features : str := of_string "x".
Definition ex_net_failing (yielded : list (list (list (list str)))) : gen batch :=
  let sents := filter not_nil (concat yielded) in
  let form lines := nth 1 (nth 0 lines []) [] in
  ([([0; 1], [(of_string "id", map (fun _ => [PNone; PStr (of_string "1")]) sents);
             (of_string "lemma", map (fun lines => [PNone; PStr (form lines)]) sents);
             (of_string "ufeats", map (fun lines => [PNone; PStr (if str_eqb (form lines) (of_string "c") then bad_features else of_string "_")]) sents)])], None).
Definition ex_two (text : string) : document :=
  mkDoc (of_string text) [mkToken 0 1 None None None 0 None None None []; mkToken 2 3 None None None 0 None None None []] [mkSent 0 1; mkSent 1 2].
Theorem C85_after_failure_refuted :
  exists net d1 d2 d2', built d1 /\ built d2 /\ forall argsort, sorting argsort ->
    let st := fst (enter_session None None initial) in
    process_documents argsort net [] st ([d2], None) = (st, Ok [d2']) /\
    exists st1, process_documents argsort net [] st ([d1], None) = (st1, Err EIndex) /\
    forall later, In later [st1; fst (enter_session None None (fst (exit_session st1)))] ->
      exists st' d, process_documents argsort net [] later ([d2], None) = (st', Ok [d]) /\ map tlemma (dtokens d) <> map tlemma (dtokens d2').
Proof.
  exists ex_net_failing, (ex_two "b c"), (ex_two "d e").
  eexists. split; [|split].
  - exists (of_string "b c"), (dtokens (ex_two "b c")), (Some [mkSent 0 1; mkSent 1 2]), true.
    split; [repeat constructor; unfold token_wf; simpl; auto; lia|]. split; [repeat constructor; unfold sent_wf; simpl; lia|]. vm_compute. reflexivity.
  - exists (of_string "d e"), (dtokens (ex_two "d e")), (Some [mkSent 0 1; mkSent 1 2]), true.
    split; [repeat constructor; unfold token_wf; simpl; auto; lia|]. split; [repeat constructor; unfold sent_wf; simpl; lia|]. vm_compute. reflexivity.
  - intros argsort S. pose proof (sorted_pair argsort S) as P2. pose proof (sorted_twice argsort S) as P4.
    assert (O1 : forall st ds, predictions st = empty_store -> process_documents argsort ex_net_failing [] st (ds, None) = process_documents (fun _ => [0; 1]%nat) ex_net_failing [] st (ds, None)).
    { intros st ds E. apply process_order. intros ys bs _ H. injection H as <-. rewrite E. exact P2. }
    split; [rewrite O1 by reflexivity; vm_compute; reflexivity|].
    eexists. split; [rewrite O1 by reflexivity; vm_compute; reflexivity|].
    assert (O2 : forall st ds, indices (predictions st) = [0; 1] -> process_documents argsort ex_net_failing [] st (ds, None) =
                   process_documents (fun _ => argsort [0; 1; 0; 1]) ex_net_failing [] st (ds, None)).
    { intros st ds E. apply process_order. intros ys bs _ H. injection H as <-. cbn [fold_left cache indices fst]. rewrite E. reflexivity. }
    intros later [<-|[<-|[]]]; rewrite O2 by reflexivity; cbn [In] in P4;
      (destruct P4 as [<-|[<-|[<-|[<-|[]]]]]; eexists _, _; (split; [vm_compute; reflexivity|vm_compute; intros X; discriminate X])).
Qed.
Print Assumptions C85_after_failure_refuted.

(* What is true: a call that returns leaves the wrapper without predictions, whatever it was before, and a call whose documents
   raise leaves it as it was. *)
Theorem C85_calls_partial :
  forall argsort net extra st documents,
    let '(st', r) := process_documents argsort net extra st documents in
    current st' = current st /\ open st' = open st /\ created st' = created st /\
    (forall ds, r = Ok ds -> predictions st' = empty_store) /\
    (predictions st = empty_store -> forall ds, r = Ok ds -> st' = st) /\
    (forall ds e, documents = (ds, Some e) -> st' = st /\ exists e', r = Err e' /\ (current st <> None -> e' = e)).
Proof. exact calls_keep_state. Qed.
Print Assumptions C85_calls_partial.

(* if the network fails, the numbers of the sentences predicted before stay in front of those of the next call *)
Theorem C85_leftover : forall argsort net extra st ds yielded bs e, current st <> None -> mapM itersents ds = Ok yielded ->
  net yielded = (bs, Some e) ->
  exists st', process_documents argsort net extra st (ds, None) = (st', Err e) /\
    indices (predictions st') = indices (predictions st) ++ concat (map fst bs).
Proof.
  intros argsort net extra st ds yielded bs e Hc Hy Hn. unfold process_documents. destruct (current st) as [n|] eqn:En; [|congruence].
  unfold parse_documents. rewrite Hy, Hn. eexists. split; [reflexivity|]. cbn [predictions]. clear.
  generalize (predictions st) as p. induction bs as [|b bs IH]; intros p; cbn [fold_left map concat]; [now rewrite app_nil_r|].
  rewrite IH. cbn [cache indices]. now rewrite app_assoc.
Qed.
Print Assumptions C85_leftover.

Example C85_case :
  exists ds', process_documents ex_argsort ex_net ex_extra ex_state (ex_docs, None) = (ex_state, Ok ds') /\
    process_documents ex_argsort ex_net ex_extra ex_state (ds', None) = (ex_state, Ok ds') /\
    process_documents ex_argsort ex_net ex_extra ex_state ([ex_doc], Some EUser) = (ex_state, Err EUser).
Proof. eexists. split; [vm_compute; reflexivity|]. split; vm_compute; reflexivity. Qed.

(* ---------------- C86 ---------------- *)

(* Not true: outside of a context process raises AttributeError and not RuntimeError; a context whose variables cannot be restored
   leaves a session open, and so does a context inside of itself, whose second exit raises. *)
Theorem C86_sessions_refuted :
  (forall argsort net extra documents, process_documents argsort net extra initial documents = (initial, Err EAttr)) /\
  (forall e, let '(st, r) := enter_session None (Some e) initial in r = Some e /\ open st = [0]%nat /\ current st = Some 0%nat) /\
  (let st := fst (enter_session None None (fst (enter_session None None initial))) in
   let '(st1, r1) := exit_session st in let '(st2, r2) := exit_session st1 in r1 = None /\ r2 = Some EAttr /\ open st2 = [0]%nat).
Proof. split; [reflexivity|]. split; [intros e; split; [|split]; reflexivity|]. split; [reflexivity|]. split; reflexivity. Qed.
Print Assumptions C86_sessions_refuted.

(* What is true: a context that was entered uses a session of its own, however the calls inside of it end, and closes it. *)
Theorem C86_context_partial :
  forall argsort net extra st calls, sessions_ok st ->
    let st1 := fst (enter_session None None st) in
    let st2 := fold_left (fun s docs => fst (process_documents argsort net extra s docs)) calls st1 in
    current st1 = Some (created st) /\ ~ In (created st) (open st) /\
    exit_session st2 = (mkState None (open st) (S (created st)) (predictions st2), None) /\
    sessions_ok (fst (exit_session st2)).
Proof. exact with_block. Qed.
Print Assumptions C86_context_partial.

Example C86_case :
  sessions_ok initial /\ sessions_ok (mkState None [3; 5]%nat 7 empty_store) /\
  exit_session (fold_left (fun s docs => fst (process_documents ex_argsort ex_net ex_extra s docs)) [(ex_docs, None); ([], Some EUser)]
    (fst (enter_session None None (mkState None [3; 5]%nat 7 empty_store)))) = (mkState None [3; 5]%nat 8 empty_store, None).
Proof. split; [intros k []|]. split; [intros k [<-|[<-|[]]]; cbn; lia|]. vm_compute. reflexivity. Qed.

(* ---------------- C87 ---------------- *)

(* Every extra field is the output at the end of its path; ValueError exactly when some path leads nowhere. *)
Theorem C87_extra_fields :
  forall o fields, NoDup (map fst fields) ->
    (exists d, find_outputs o fields = Ok d /\
       (forall k x, dict_get d k = Some x <-> exists path, In (k, path) fields /\ leads o path x)) \/
    (find_outputs o fields = Err EValue /\ exists k path, In (k, path) fields /\ ~ exists x, leads o path x).
Proof. exact find_outputs_spec. Qed.
Print Assumptions C87_extra_fields.

(* The fields of a flag, unless extra_fields says something else about the name. *)
Theorem C87_flags :
  forall recur upos_hidden xpos_hidden e k, (match e with Some e => NoDup (map fst e) | None => True end) ->
    let asked := match e with Some e => dict_get e k | None => None end in
    dict_get (parser_fields recur e) k = (match asked with
      | Some path => Some path
      | None => if recur && str_eqb k (of_string "parser_recur_layer") then Some [of_string "deptree"; of_string "recur_layer"] else None end) /\
    dict_get (tagger_fields recur upos_hidden xpos_hidden e) k = (match asked with
      | Some path => Some path
      | None => if recur && str_eqb k (of_string "tagger_recur_layer") then Some [of_string "upos"; of_string "recur_layer"]
                else if upos_hidden && str_eqb k (of_string "upos_hidden") then Some [of_string "upos"; of_string "hidden_layer"]
                else if xpos_hidden && str_eqb k (of_string "xpos_hidden") then Some [of_string "xpos"; of_string "hidden_layer"]
                else None end).
Proof. exact flag_fields. Qed.
Print Assumptions C87_flags.

Definition ex_outputs : outputs :=
  Group [(of_string "upos", Group [(of_string "recur_layer", Tensor 1); (of_string "hidden_layer", Tensor 2)]); (of_string "loss", Tensor 3)].
Example C87_case :
  let fields := tagger_fields true true false (Some [(of_string "upos_hidden", [of_string "loss"])]) in
  NoDup (map fst fields) /\
  find_outputs ex_outputs fields = Ok [(of_string "tagger_recur_layer", Tensor 1); (of_string "upos_hidden", Tensor 3)] /\
  find_outputs ex_outputs (tagger_fields true true true None) = Err EValue /\
  find_outputs ex_outputs (parser_fields false (Some [(of_string "x", [])])) = Ok [(of_string "x", ex_outputs)].
Proof. split; [vm_compute; repeat constructor; cbn; intuition discriminate|]. split; [reflexivity|]. split; reflexivity. Qed.
