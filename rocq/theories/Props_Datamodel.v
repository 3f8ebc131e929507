(* Final theorems about documents, tokens and Pos: C01 .. C17. *)
From Coq Require Import String ZArith NArith Bool Lia Permutation List.
From Verif Require Import Base BaseFacts Model_Datamodel Spec_Datamodel
  Proofs_Datamodel Proofs_Syntax Proofs_Datamodel2 Proofs_Datamodel3 Proofs_Datamodel4.
Import ListNotations.
Open Scope Z_scope.

(* ------------------------------------------------------------------ *)
(* A document used in the examples: "I don't. We go" with don't = do + n't,
   two sentences, mixed head notations, tokens passed out of order. *)

Definition ex_text : str := of_string "I don't. We go".
Definition ex_tok (a b sub : Z) (r : option str) (hd hs : option Z) : token :=
  mkToken a b (Some (mkPos (Some (of_string "X")) None [(of_string "A", of_string "b")])) None None sub r hd hs [].
Definition ex_t0 := ex_tok 0 1 0 None (Some 1) None.
Definition ex_t1 := ex_tok 2 7 0 (Some (of_string "do")) None (Some (-1)).
Definition ex_t2 := ex_tok 2 7 1 (Some (of_string "n't")) (Some 1) (Some 1).
Definition ex_t3 := ex_tok 7 8 0 None None (Some 1).
Definition ex_t4 := ex_tok 9 11 0 None (Some 5) None.
Definition ex_t5 := ex_tok 12 14 0 None (Some (-1)) None.
Definition ex_tokens := [ex_t4; ex_t2; ex_t0; ex_t5; ex_t1; ex_t3].
Definition ex_sents := [mkSent 4 6; mkSent 0 4].
Definition ex_doc : document :=
  match new_document ex_text ex_tokens (Some ex_sents) true with Ok d => d | Err _ => mkDoc [] [] [] end.

Lemma ex_wf : Forall token_wf ex_tokens /\ sents_wf (Some ex_sents).
Proof.
  split; simpl; repeat constructor; unfold token_wf, sent_wf; simpl; try lia; try discriminate; auto.
Qed.
Example ex_doc_built : new_document ex_text ex_tokens (Some ex_sents) true = Ok ex_doc.
Proof. vm_compute. reflexivity. Qed.
Example ex_doc_built_false : new_document ex_text ex_tokens (Some ex_sents) false = Ok ex_doc.
Proof. vm_compute. reflexivity. Qed.

(* documents that exist *)
Definition constructed (d : document) : Prop :=
  exists text ts o v, Forall token_wf ts /\ sents_wf o /\ new_document text ts o v = Ok d.

Example ex_constructed : constructed ex_doc.
Proof. exists ex_text, ex_tokens, (Some ex_sents), true. destruct ex_wf. auto using ex_doc_built. Qed.

Lemma constructed_inv d : constructed d -> doc_inv d.
Proof. intros (text & ts & o & v & W & Wo & H). eapply new_document_inv; eauto. Qed.

(* ------------------------------------------------------------------ *)

Theorem C01_tokens_never_overlap : forall text ts o v d,
  Forall token_wf ts -> sents_wf o -> new_document text ts o v = Ok d ->
  dtext d = text /\ in_text_order (dtokens d) /\
  exists ts', Permutation ts ts' /\ Forall2 same_but_heads ts' (dtokens d).
Proof. exact tokens_never_overlap. Qed.
Print Assumptions C01_tokens_never_overlap.

Example C01_case : Permutation ex_tokens [ex_t0; ex_t1; ex_t2; ex_t3; ex_t4; ex_t5] /\
  map (fun t => (tstart t, tend t, tsub t)) (dtokens ex_doc) =
  [(0,1,0); (2,7,0); (2,7,1); (7,8,0); (9,11,0); (12,14,0)].
Proof.
  split; [|vm_compute; reflexivity].
  change [ex_t0; ex_t1; ex_t2; ex_t3; ex_t4; ex_t5] with (sort_tokens ex_tokens). apply sort_tokens_perm.
Qed.

(* ------------------------------------------------------------------ *)

Theorem C02_sentences_tile : forall text ts o v d,
  Forall token_wf ts -> sents_wf o -> ts <> [] -> new_document text ts o v = Ok d ->
  tiles 0 (zlen ts) (dsents d) /\ zlen (dtokens d) = zlen ts /\
  concat (map (tokens_of (dtokens d)) (dsents d)) = dtokens d /\
  Permutation (match o with None => [mkSent 0 (zlen ts)] | Some ss => ss end) (dsents d).
Proof. exact sentences_tile. Qed.
Print Assumptions C02_sentences_tile.

Theorem C02_tilings_accepted : forall text ts ss,
  Forall token_wf ts -> Forall sent_wf ss -> ts <> [] ->
  ((exists d, new_document text ts (Some ss) false = Ok d) <->
   exists ts' ss', Permutation ts ts' /\ Permutation ss ss' /\
     in_text_order ts' /\ numbered ts' /\ tiles 0 (zlen ts) ss' /\
     forall s, In s ss' -> Forall (heads_agree (sstart s)) (tokens_of ts' s)).
Proof. exact accepts_iff. Qed.
Print Assumptions C02_tilings_accepted.

Example C02_case : dsents ex_doc = [mkSent 0 4; mkSent 4 6] /\ tiles 0 6 (dsents ex_doc).
Proof. split; [vm_compute; reflexivity|]. repeat constructor; simpl; auto; lia. Qed.
Example C02_gap_rejected : exists e, new_document ex_text ex_tokens (Some [mkSent 0 3; mkSent 4 6]) false = Err e.
Proof. eexists. vm_compute. reflexivity. Qed.

(* ------------------------------------------------------------------ *)

Theorem C03_input_order_irrelevant : forall text ts ts' o o' v d,
  Forall token_wf ts -> sents_wf o -> Permutation ts ts' -> same_sents o o' ->
  (new_document text ts o v = Ok d <-> new_document text ts' o' v = Ok d).
Proof. exact order_irrelevant. Qed.
Print Assumptions C03_input_order_irrelevant.

Example C03_case :
  new_document ex_text (rev ex_tokens) (Some (rev ex_sents)) true = Ok ex_doc /\ rev ex_tokens <> ex_tokens.
Proof. split; [vm_compute; reflexivity|]. discriminate. Qed.

(* ------------------------------------------------------------------ *)

Theorem C04_notations_interchangeable : forall text ts ts' ss v,
  Forall token_wf ts -> Forall sent_wf ss -> in_text_order ts ->
  Forall2 same_but_heads ts ts' ->
  (forall s, In s ss -> Forall2 (fun t t' => exists m,
       head_means (sstart s) (send s - sstart s) (thdoc t) (thsent t) m /\
       head_means (sstart s) (send s - sstart s) (thdoc t') (thsent t') m)
     (tokens_of ts s) (tokens_of ts' s)) ->
  new_document text ts (Some ss) v = new_document text ts' (Some ss) v.
Proof. exact notations_equal. Qed.
Print Assumptions C04_notations_interchangeable.

Theorem C04_both_views_present : forall d s t,
  constructed d -> In s (dsents d) -> In t (tokens_of (dtokens d) s) ->
  (thdoc t = None /\ thsent t = None) \/
  exists dh sh, thdoc t = Some dh /\ thsent t = Some sh /\
    ((dh = -1 /\ sh = -1) \/ dh = sh + sstart s).
Proof. intros d s t C. exact (both_views_present d s t (constructed_inv d C)). Qed.
Print Assumptions C04_both_views_present.

(* a pair of different non-root indices is rejected *)
Theorem C04_contradiction_rejected_partial : forall text ts ss v s i t dh sh d,
  Forall token_wf ts -> Forall sent_wf ss -> in_text_order ts ->
  In s ss -> nth_error ts i = Some t -> sstart s <= Z.of_nat i < send s ->
  thdoc t = Some dh -> thsent t = Some sh -> dh <> sh + sstart s -> dh <> -1 -> sh <> -1 ->
  new_document text ts (Some ss) v <> Ok d.
Proof. exact contradiction_rejected. Qed.
Print Assumptions C04_contradiction_rejected_partial.

(* but "root" together with an ordinary index is accepted as a root *)
Theorem C04_contradiction_rejected_refuted : exists text ts ss s i t dh sh d,
  Forall token_wf ts /\ Forall sent_wf ss /\ in_text_order ts /\
  In s ss /\ nth_error ts i = Some t /\ sstart s <= Z.of_nat i < send s /\
  thdoc t = Some dh /\ thsent t = Some sh /\ dh <> sh + sstart s /\ 0 <= dh < zlen ts /\ sh = -1 /\
  new_document text ts (Some ss) true = Ok d.
Proof.
  exists ex_text, [ex_tok 0 1 0 None (Some 1) (Some (-1)); ex_tok 2 7 0 None (Some 0) None], [mkSent 0 2],
    (mkSent 0 2), 0%nat, (ex_tok 0 1 0 None (Some 1) (Some (-1))), 1, (-1).
  eexists.
  assert (W : Forall token_wf [ex_tok 0 1 0 None (Some 1) (Some (-1)); ex_tok 2 7 0 None (Some 0) None]).
  { repeat constructor; unfold token_wf; simpl; auto; lia. }
  split; [exact W|]. split; [repeat constructor; unfold sent_wf; simpl; lia|].
  split; [repeat constructor; unfold before; simpl; lia|]. simpl.
  repeat (split; [solve [auto | reflexivity | lia | unfold zlen; simpl; lia]|]).
  vm_compute. reflexivity.
Qed.
Print Assumptions C04_contradiction_rejected_refuted.

Definition ex_tokens_sorted := [ex_t0; ex_t1; ex_t2; ex_t3; ex_t4; ex_t5].
Definition ex_tokens_sent := [ex_tok 0 1 0 None None (Some 1); ex_t1;
  ex_tok 2 7 1 (Some (of_string "n't")) None (Some 1);
  ex_t3; ex_tok 9 11 0 None None (Some 1); ex_tok 12 14 0 None None (Some (-1))].
Example C04_case : forall s, In s ex_sents -> Forall2 (fun t t' => exists m,
       head_means (sstart s) (send s - sstart s) (thdoc t) (thsent t) m /\
       head_means (sstart s) (send s - sstart s) (thdoc t') (thsent t') m)
     (tokens_of ex_tokens_sorted s) (tokens_of ex_tokens_sent s).
Proof.
  intros s [<-|[<-|[]]]; unfold tokens_of; simpl; repeat constructor.
  - exists (Some 1). split; [apply (hm_doc 4 2 1); lia|apply hm_sent; lia].
  - exists (Some (-1)). split; constructor.
  - exists (Some 1). split; [apply (hm_doc 0 4 1); lia|apply hm_sent; lia].
  - exists (Some (-1)). split; constructor.
  - exists (Some 1). split; [apply (hm_both 0 4 1); lia|apply hm_sent; lia].
  - exists (Some 1). split; apply hm_sent; lia.
Qed.
Example C04_case_result :
  new_document ex_text ex_tokens_sent (Some ex_sents) true = Ok ex_doc.
Proof. vm_compute. reflexivity. Qed.

(* ------------------------------------------------------------------ *)

Theorem C05_accepts_exactly_trees : forall text ts o d,
  Forall token_wf ts -> sents_wf o ->
  (new_document text ts o true = Ok d <->
   new_document text ts o false = Ok d /\
   forall s, In s (dsents d) -> well_parsed (tokens_of (dtokens d) s)).
Proof. exact accepts_exactly_trees. Qed.
Print Assumptions C05_accepts_exactly_trees.

(* the check always ends, in acceptance or in ValueError *)
Theorem C05_check_terminates : forall text ts o d,
  Forall token_wf ts -> sents_wf o -> new_document text ts o false = Ok d ->
  new_document text ts o true = Ok d \/ new_document text ts o true = Err EValue.
Proof. exact check_terminates. Qed.
Print Assumptions C05_check_terminates.

Example C05_accepts : well_parsed (tokens_of (dtokens ex_doc) (mkSent 0 4)).
Proof.
  destruct ex_wf as [W Ws]. apply (proj1 (C05_accepts_exactly_trees _ _ _ ex_doc W Ws) ex_doc_built). vm_compute. auto.
Qed.
(* a cycle 0 -> 1 -> 0 beside a root *)
Example C05_rejects_cycle : exists d,
  new_document ex_text [ex_tok 0 1 0 None None (Some 1); ex_tok 1 2 0 None None (Some 0); ex_tok 2 3 0 None None (Some (-1))] None false = Ok d /\
  new_document ex_text [ex_tok 0 1 0 None None (Some 1); ex_tok 1 2 0 None None (Some 0); ex_tok 2 3 0 None None (Some (-1))] None true = Err EValue.
Proof. eexists. split; vm_compute; reflexivity. Qed.

(* ------------------------------------------------------------------ *)

(* Full statement: with validate_syntax every document head that is not -1 and lies outside
   the token's sentence makes construction fail.  False for the index just before the sentence. *)
Theorem C06_head_outside_refuted : exists text ts ss s i t h d,
  Forall token_wf ts /\ Forall sent_wf ss /\ in_text_order ts /\
  In s ss /\ nth_error ts i = Some t /\ sstart s <= Z.of_nat i < send s /\
  thdoc t = Some h /\ thsent t = None /\ 0 <= h < zlen ts /\ ~ (sstart s <= h < send s) /\
  new_document text ts (Some ss) true = Ok d.
Proof.
  exists ex_text, [ex_tok 0 1 0 None None (Some (-1)); ex_tok 2 7 0 None (Some 0) None], [mkSent 0 1; mkSent 1 2],
    (mkSent 1 2), 1%nat, (ex_tok 2 7 0 None (Some 0) None), 0.
  eexists.
  split; [repeat constructor; unfold token_wf; simpl; auto; lia|].
  split; [repeat constructor; unfold sent_wf; simpl; lia|].
  split; [repeat constructor; unfold before; simpl; lia|]. simpl.
  repeat (split; [solve [auto | reflexivity | lia | unfold zlen; simpl; lia]|]).
  vm_compute. reflexivity.
Qed.
Print Assumptions C06_head_outside_refuted.

Theorem C06_head_outside_partial : forall text ts ss s i t h d,
  Forall token_wf ts -> Forall sent_wf ss -> in_text_order ts ->
  In s ss -> nth_error ts i = Some t -> sstart s <= Z.of_nat i < send s ->
  thdoc t = Some h -> thsent t = None -> h <> -1 ->
  ~ (sstart s <= h < send s) -> h <> sstart s - 1 ->
  new_document text ts (Some ss) true <> Ok d.
Proof. exact head_outside_rejected. Qed.
Print Assumptions C06_head_outside_partial.

Example C06_case :
  new_document ex_text [ex_tok 0 1 0 None (Some 1) None; ex_tok 2 7 0 None (Some (-1)) None] (Some [mkSent 0 1; mkSent 1 2]) true = Err EValue.
Proof. vm_compute. reflexivity. Qed.

(* ------------------------------------------------------------------ *)

(* Full statement: both rebuilds return d, for every constructed d. *)
Theorem C07_rebuild_refuted : exists text ts o d d',
  Forall token_wf ts /\ sents_wf o /\ new_document text ts o true = Ok d /\
  new_document (dtext d) (dtokens d) (Some (dsents d)) true = Ok d' /\ doc_eqb d' d = false.
Proof.
  exists ex_text, [ex_tok 0 1 0 None None (Some (-1)); ex_tok 2 7 0 None (Some 0) None], (Some [mkSent 0 1; mkSent 1 2]).
  do 2 eexists.
  split; [repeat constructor; unfold token_wf; simpl; auto; lia|].
  split; [simpl; repeat constructor; unfold sent_wf; simpl; lia|].
  split; [vm_compute; reflexivity|]. split; vm_compute; reflexivity.
Qed.
Print Assumptions C07_rebuild_refuted.

(* Rebuilding returns d itself exactly when no token has -1 in one view only. *)
Theorem C07_rebuild_partial : forall text ts o v d,
  Forall token_wf ts -> sents_wf o -> new_document text ts o v = Ok d ->
  ((new_document (dtext d) (dtokens d) (Some (dsents d)) v = Ok d <->
    forall t, In t (dtokens d) -> minus1_agree t) /\
   (from_document d (dtokens d) = Ok d <-> forall t, In t (dtokens d) -> minus1_agree t)).
Proof. exact rebuild. Qed.
Print Assumptions C07_rebuild_partial.

(* in particular when every head was given inside its sentence, as root, or not at all *)
Theorem C07_rebuild_normal_heads : forall text ts ss v d,
  Forall token_wf ts -> Forall sent_wf ss -> in_text_order ts ->
  (forall s, In s ss -> Forall (fun t => exists m, head_means (sstart s) (send s - sstart s) (thdoc t) (thsent t) m) (tokens_of ts s)) ->
  new_document text ts (Some ss) v = Ok d ->
  new_document (dtext d) (dtokens d) (Some (dsents d)) v = Ok d /\ from_document d (dtokens d) = Ok d.
Proof. exact rebuild_normal. Qed.
Print Assumptions C07_rebuild_normal_heads.

Example C07_case : new_document (dtext ex_doc) (dtokens ex_doc) (Some (dsents ex_doc)) true = Ok ex_doc.
Proof. vm_compute. reflexivity. Qed.

(* ------------------------------------------------------------------ *)

Theorem C08_setters_frame : forall t p lemma deprel hd hs e u,
  token_wf t -> dict_ok u ->
  (exists t', with_morphology t p lemma = Ok t' /\ token_wf t' /\
     t' = mkToken (tstart t) (tend t) p lemma (tdeprel t) (tsub t) (trepl t) (thdoc t) (thsent t) (textras t)) /\
  (exists t', with_syntax t deprel hd hs = Ok t' /\ token_wf t' /\
     t' = mkToken (tstart t) (tend t) (tpos t) (tlemma t) deprel (tsub t) (trepl t) hd hs (textras t)) /\
  (exists t', with_extras t (Some e) = Ok t' /\ token_wf t' /\
     t' = mkToken (tstart t) (tend t) (tpos t) (tlemma t) (tdeprel t) (tsub t) (trepl t) (thdoc t) (thsent t) e) /\
  (exists t' e', update_extras t (Some u) = Ok t' /\ token_wf t' /\
     t' = mkToken (tstart t) (tend t) (tpos t) (tlemma t) (tdeprel t) (tsub t) (trepl t) (thdoc t) (thsent t) e' /\
     forall k, dict_get e' k = match dict_get u k with Some v => Some v | None => dict_get (textras t) k end) /\
  update_extras t None = Ok t.
Proof. exact setters_frame. Qed.
Print Assumptions C08_setters_frame.

Theorem C08_setters_commute : forall t p lemma deprel hd hs u,
  token_wf t ->
  (do a <- with_morphology t p lemma; with_syntax a deprel hd hs) = (do a <- with_syntax t deprel hd hs; with_morphology a p lemma) /\
  (do a <- with_morphology t p lemma; update_extras a u) = (do a <- update_extras t u; with_morphology a p lemma) /\
  (do a <- with_syntax t deprel hd hs; update_extras a u) = (do a <- update_extras t u; with_syntax a deprel hd hs) /\
  is_ok (do a <- with_morphology t p lemma; with_syntax a deprel hd hs) = true.
Proof. exact setters_commute. Qed.
Print Assumptions C08_setters_commute.

Example C08_case : exists t', update_extras ex_t1 (Some [(of_string "k", PInt 3)]) = Ok t' /\ dict_get (textras t') (of_string "k") = Some (PInt 3) /\ trepl t' = Some (of_string "do").
Proof. eexists. repeat split; vm_compute; reflexivity. Qed.

(* ------------------------------------------------------------------ *)

Theorem C09_from_document_refuted : exists d d',
  constructed d /\ from_document d [] = Ok d' /\ length (dtokens d') <> length (dtokens d) /\ dsents d' <> dsents d.
Proof.
  exists ex_doc. eexists. split; [exact ex_constructed|].
  split; [vm_compute; reflexivity|]. split; vm_compute; discriminate.
Qed.
Print Assumptions C09_from_document_refuted.

Theorem C09_from_document_partial : forall d ts d',
  constructed d -> Forall token_wf ts -> ts <> [] -> from_document d ts = Ok d' ->
  dtext d' = dtext d /\ dsents d' = dsents d /\ Forall2 same_span (dtokens d) (dtokens d').
Proof. intros d ts d' C. exact (from_document_ok d ts d' (constructed_inv d C)). Qed.
Print Assumptions C09_from_document_partial.

Definition ex_clear (t : token) : token :=
  mkToken (tstart t) (tend t) None None None (tsub t) (trepl t) None None [].
Example C09_case : exists d', from_document ex_doc (rev (map ex_clear (dtokens ex_doc))) = Ok d' /\ length (dtokens d') = 6%nat.
Proof. eexists. split; vm_compute; reflexivity. Qed.
Example C09_moved_rejected : from_document ex_doc (map (fun t => mkToken (tstart t + 1) (tend t + 1) None None None (tsub t) (trepl t) None None []) (dtokens ex_doc)) = Err EValue.
Proof. vm_compute. reflexivity. Qed.

(* ------------------------------------------------------------------ *)

Theorem C10_token_index : forall d i,
  (- zlen (dtokens d) <= i < zlen (dtokens d) ->
   exists v t, doc_get_token d i = Ok v /\ doc_get_token d (i mod zlen (dtokens d)) = Ok v /\
     nth_error (dtokens d) (Z.to_nat (i mod zlen (dtokens d))) = Some t /\
     nv_token v = t /\ nv_index v = i mod zlen (dtokens d)) /\
  (i < - zlen (dtokens d) \/ zlen (dtokens d) <= i -> doc_get_token d i = Err EIndex).
Proof. exact token_index. Qed.
Print Assumptions C10_token_index.

Theorem C10_token_walk : forall d, dtokens d <> [] ->
  (exists v l, doc_get_token d 0 = Ok v /\ visits nav_next v l /\ map nv_token l = dtokens d) /\
  (forall i v, 0 <= i < zlen (dtokens d) -> doc_get_token d i = Ok v ->
     (nav_is_first v = true <-> i = 0) /\ (nav_is_last v = true <-> i = zlen (dtokens d) - 1) /\
     (i = zlen (dtokens d) - 1 -> nav_next v = Ok None) /\ (i = 0 -> nav_previous v = Ok None) /\
     (i < zlen (dtokens d) - 1 -> exists w, nav_next v = Ok (Some w) /\ doc_get_token d (i + 1) = Ok w /\ nav_previous w = Ok (Some v)) /\
     (0 < i -> exists w, nav_previous v = Ok (Some w) /\ doc_get_token d (i - 1) = Ok w /\ nav_next w = Ok (Some v))).
Proof. exact token_walk. Qed.
Print Assumptions C10_token_walk.

Theorem C10_sentence_index : forall d i, constructed d ->
  (- zlen (dsents d) <= i < zlen (dsents d) ->
   exists v, get_sentence d i = Ok v /\ get_sentence d (i mod zlen (dsents d)) = Ok v /\
     ns_index v = i mod zlen (dsents d)) /\
  (i < - zlen (dsents d) \/ zlen (dsents d) <= i -> get_sentence d i = Err EIndex).
Proof. intros d i C. exact (sentence_index d i (constructed_inv d C)). Qed.
Print Assumptions C10_sentence_index.

Theorem C10_sentence_walk : forall d, constructed d -> dtokens d <> [] ->
  (exists v l, get_sentence d 0 = Ok v /\ visits ns_next v l /\
     map ns_tokens l = map (tokens_of (dtokens d)) (dsents d)) /\
  (forall i v, 0 <= i < zlen (dsents d) -> get_sentence d i = Ok v ->
     (ns_is_first v = true <-> i = 0) /\ (ns_is_last v = true <-> i = zlen (dsents d) - 1) /\
     (i = zlen (dsents d) - 1 -> ns_next v = Ok None) /\ (i = 0 -> ns_previous v = Ok None) /\
     (i < zlen (dsents d) - 1 -> exists w, ns_next v = Ok (Some w) /\ get_sentence d (i + 1) = Ok w /\ ns_previous w = Ok (Some v)) /\
     (0 < i -> exists w, ns_previous v = Ok (Some w) /\ get_sentence d (i - 1) = Ok w /\ ns_next w = Ok (Some v))).
Proof. intros d C. exact (sentence_walk d (constructed_inv d C)). Qed.
Print Assumptions C10_sentence_walk.

Example C10_case : exists v, doc_get_token ex_doc (-2) = Ok v /\ nv_index v = 4 /\ doc_get_token ex_doc 6 = Err EIndex /\ doc_get_token ex_doc (-7) = Err EIndex.
Proof. eexists. repeat split; vm_compute; reflexivity. Qed.

(* ------------------------------------------------------------------ *)

Theorem C11_head_reaches_root : forall text ts o d k s j t,
  Forall token_wf ts -> sents_wf o -> new_document text ts o true = Ok d ->
  nth_error (dsents d) k = Some s -> nth_error (tokens_of (dtokens d) s) j = Some t ->
  (thdoc t <> None \/ thsent t <> None) ->
  exists v c sv v' c',
    doc_get_token d (sstart s + Z.of_nat j) = Ok v /\ nv_token v = t /\ head_chain v c /\
    (length c < Z.to_nat (send s - sstart s))%nat /\
    Forall (fun u => sstart s <= nv_index u < send s) c /\
    get_sentence d (Z.of_nat k) = Ok sv /\ ns_get_token sv (Z.of_nat j) = Ok v' /\ nv_token v' = t /\
    head_chain v' c' /\ map nv_token c' = map nv_token c.
Proof. exact head_reaches_root. Qed.
Print Assumptions C11_head_reaches_root.

Example C11_case : exists v w, doc_get_token ex_doc 4 = Ok v /\ nav_head v = Ok (Some w) /\ nv_index w = 5 /\ nav_head w = Ok None.
Proof. do 2 eexists. repeat split; vm_compute; reflexivity. Qed.

(* ------------------------------------------------------------------ *)

Theorem C12_sentence_views : forall d k s, constructed d -> nth_error (dsents d) k = Some s ->
  exists v f l, get_sentence d (Z.of_nat k) = Ok v /\ ns_tokens v = tokens_of (dtokens d) s /\
    nth_error (dtokens d) (Z.to_nat (sstart s)) = Some f /\
    nth_error (dtokens d) (Z.to_nat (send s) - 1) = Some l /\
    ns_text v = Ok (py_slice (dtext d) (tstart f) (tend l)) /\
    forall j, 0 <= j < send s - sstart s ->
      exists u w, ns_get_token v j = Ok u /\ doc_get_token d (sstart s + j) = Ok w /\
        nv_token u = nv_token w /\ nv_text u = nv_text w /\
        nth_error (dtokens d) (Z.to_nat (sstart s + j)) = Some (nv_token u) /\ nv_text u = dtext d.
Proof. intros d k s C. exact (sentence_views d k s (constructed_inv d C)). Qed.
Print Assumptions C12_sentence_views.

Example C12_case : exists v, get_sentence ex_doc 1 = Ok v /\ ns_text v = Ok (of_string "We go") /\ length (ns_tokens v) = 2%nat.
Proof. eexists. repeat split; vm_compute; reflexivity. Qed.

(* ------------------------------------------------------------------ *)

(* Full statement: every group of words sharing a span with a replacement is numbered 0,1,..,k-1.
   The first token of the document escapes the check. *)
Theorem C13_numbering_refuted : exists d t,
  constructed d /\ In t (dtokens d) /\ multiword t /\
  map tsub (filter (span_eqb t) (dtokens d)) <> map Z.of_nat (seq 0 (length (filter (span_eqb t) (dtokens d)))).
Proof.
  exists (mkDoc ex_text [ex_tok 0 1 7 (Some (of_string "w")) None None] [mkSent 0 1]), (ex_tok 0 1 7 (Some (of_string "w")) None None).
  split.
  { exists ex_text, [ex_tok 0 1 7 (Some (of_string "w")) None None], None, false.
    split; [repeat constructor; simpl; auto; try lia; discriminate|]. split; [simpl; auto|]. vm_compute. reflexivity. }
  split; [simpl; auto|]. split; [discriminate|]. vm_compute. discriminate.
Qed.
Print Assumptions C13_numbering_refuted.

Theorem C13_numbering_partial : forall d t, constructed d ->
  (forall f, nth_error (dtokens d) 0 = Some f -> tsub f = 0 \/ ~ same_span t f) ->
  In t (dtokens d) -> multiword t ->
  map tsub (filter (span_eqb t) (dtokens d)) = map Z.of_nat (seq 0 (length (filter (span_eqb t) (dtokens d)))).
Proof. intros d t C. exact (numbering d t (constructed_inv d C)). Qed.
Print Assumptions C13_numbering_partial.

Example C13_case : map tsub (filter (span_eqb ex_t2) (dtokens ex_doc)) = [0; 1].
Proof. vm_compute. reflexivity. Qed.

(* ------------------------------------------------------------------ *)

(* Full statement: == holds iff all fields, including both head indices, are equal. *)
Theorem C14_token_equality_refuted : exists a b,
  token_full_wf a /\ token_full_wf b /\ token_eqb a b = true /\ thsent a <> thsent b.
Proof.
  exists (ex_tok 0 1 0 None None (Some 1)), (ex_tok 0 1 0 None None (Some 2)).
  assert (W : forall h, token_full_wf (ex_tok 0 1 0 None None h)).
  { intros h. split; [split; simpl; auto; lia|]. split.
    - intros p E. inversion E. repeat constructor. simpl; tauto.
    - constructor; constructor. }
  repeat split; try apply W. discriminate.
Qed.
Print Assumptions C14_token_equality_refuted.

Theorem C14_token_equality_partial : forall a b,
  token_full_wf a -> token_full_wf b ->
  (token_eqb a b = true <-> same_except_sentence_head a b).
Proof. exact token_eqb_iff. Qed.
Print Assumptions C14_token_equality_partial.

Theorem C14_token_equality_equivalence :
  (forall a, token_full_wf a -> token_eqb a a = true) /\
  (forall a b, token_full_wf a -> token_full_wf b -> token_eqb a b = true -> token_eqb b a = true) /\
  (forall a b c, token_full_wf a -> token_full_wf b -> token_full_wf c ->
     token_eqb a b = true -> token_eqb b c = true -> token_eqb a c = true).
Proof. exact (conj token_eqb_refl (conj token_eqb_sym token_eqb_trans)). Qed.
Print Assumptions C14_token_equality_equivalence.

Example C14_case :
  let t e := mkToken 0 1 (Some (mkPos (Some (of_string "N")) None [])) None None 0 None (Some 3) None e in
  token_eqb (t [(of_string "a", PInt 1); (of_string "b", PList [PNone])]) (t [(of_string "b", PList [PNone]); (of_string "a", PBool true)]) = true /\
  token_eqb (t [(of_string "a", PInt 1)]) (t [(of_string "a", PInt 2)]) = false.
Proof. split; vm_compute; reflexivity. Qed.

(* ------------------------------------------------------------------ *)

(* __hash__ hashes the tuple (upos, xpos, sorted features); [h] is any hash of such tuples *)
Theorem C15_equality_hash_order : forall p q, pos_wf p -> pos_wf q ->
  (pos_eqb p q = true <-> pos_same p q) /\
  (pos_eqb p q = true -> forall h : (option str * option str * list (str * str)) -> Z, h (tuple_view p) = h (tuple_view q)) /\
  (pos_eqb p q = true -> pos_ltb p q = Ok false /\ pos_gtb p q = Ok false /\ pos_leb p q = Ok true /\ pos_geb p q = Ok true).
Proof. exact equality_hash_order. Qed.
Print Assumptions C15_equality_hash_order.

Theorem C15_trichotomy : forall p q, pos_wf p -> pos_wf q -> same_shape p q ->
  (pos_ltb p q = Ok true /\ pos_eqb p q = false /\ pos_gtb p q = Ok false /\ pos_gtb q p = Ok true) \/
  (pos_ltb p q = Ok false /\ pos_eqb p q = true /\ pos_gtb p q = Ok false /\ pos_gtb q p = Ok false) \/
  (pos_ltb p q = Ok false /\ pos_eqb p q = false /\ pos_gtb p q = Ok true /\ pos_ltb q p = Ok true).
Proof. exact trichotomy. Qed.
Print Assumptions C15_trichotomy.

Theorem C15_transitive : forall p q r, pos_ltb p q = Ok true -> pos_ltb q r = Ok true -> pos_ltb p r = Ok true.
Proof. exact pos_ltb_trans. Qed.
Print Assumptions C15_transitive.

Definition ex_p (u x : option string) (fs : list (string * string)) : pos :=
  mkPos (option_map of_string u) (option_map of_string x) (map (fun kv => (of_string (fst kv), of_string (snd kv))) fs).
Example C15_case :
  pos_eqb (ex_p (Some "N") (Some "NN") [("A","1");("B","2")])%string (ex_p (Some "N") (Some "NN") [("B","2");("A","1")])%string = true /\
  pos_ltb (ex_p (Some "N") (Some "NN") [("A","1")])%string (ex_p (Some "N") (Some "NN") [("A","2")])%string = Ok true.
Proof. split; vm_compute; reflexivity. Qed.

(* Full statement: p < q never raises. *)
Theorem C16_order_total_refuted : exists p q, pos_wf p /\ pos_wf q /\ pos_ltb p q = Err EType.
Proof.
  exists (ex_p (Some "N") None [])%string, (ex_p (Some "N") (Some "NN") [])%string.
  repeat split; try constructor.
Qed.
Print Assumptions C16_order_total_refuted.

(* exactly when it raises, and that it raises nothing but TypeError *)
Theorem C16_order_total_partial : forall p q,
  (pos_ltb p q = Err EType \/ exists b, pos_ltb p q = Ok b) /\
  ((exists b, pos_ltb p q = Ok b) <->
   (upos p = None <-> upos q = None) /\ (upos p = upos q -> (xpos p = None <-> xpos q = None))).
Proof. exact order_total. Qed.
Print Assumptions C16_order_total_partial.

(* ------------------------------------------------------------------ *)

(* Full statement: str(d) returns for every constructed document. *)
Theorem C17_str_refuted : exists d sp, constructed d /\ doc_str sp d = Err EIndex.
Proof.
  exists (mkDoc ex_text [] []), (fun _ => []). split; [|vm_compute; reflexivity].
  exists ex_text, [], None, false. repeat split; auto.
Qed.
Print Assumptions C17_str_refuted.

(* [sp] is the text python prints for a Pos *)
Theorem C17_str_partial : forall sp d, constructed d -> dtokens d <> [] ->
  exists ps, doc_str_pieces sp d = Ok ps /\ doc_str sp d = Ok (concat (map piece_str ps)) /\
    ((forall i j a b, i <> j -> nth_error (dtokens d) i = Some a -> nth_error (dtokens d) j = Some b -> ~ same_span a b) ->
     copied ps = dtext d).
Proof. intros sp d C. exact (doc_str_works sp d (constructed_inv d C)). Qed.
Print Assumptions C17_str_partial.

Example C17_case :
  doc_str (fun _ => of_string "P") (mkDoc (of_string "ab c") [mkToken 0 2 None (Some (of_string "x")) None 0 None None None []; mkToken 3 4 (Some (mkPos None None [])) None None 0 None None None []] [mkSent 0 1; mkSent 1 2])
  = Ok (of_string "[[ab|'lemma':'x']] [[c|'pos':P]]").
Proof. vm_compute. reflexivity. Qed.
