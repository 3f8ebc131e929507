(* Property C122: which sentences the evaluation script can load within python's recursion limit. *)
From Coq Require Import String Ascii ZArith NArith QArith Bool Lia List.
From Verif Require Import Base BaseFacts Model_Datamodel Model_Conllu Spec_Datamodel Spec_Conllu Model_UDEval Spec_UDEval
  Props_Datamodel Props_Conllu Props_UDEval Proofs_UDEval6.
From Verif Require Import Model_Recursion Spec_Recursion Proofs_Recursion Proofs_Recursion2 Proofs_Recursion3.
Import ListNotations.
Open Scope Z_scope.

(* Whatever the limit is, a file with one well-formed sentence, one word longer than the limit, cannot be loaded. *)
Theorem C122_deep_refuted : forall limit, exists text u,
  load_conllu text = Ok u /\ length (u_words u) = S limit /\ load_conllu_in limit text = Err ERuntime.
Proof. exact deep_file. Qed.
Print Assumptions C122_deep_refuted.

(* Missing, against the full statement: sentences that climb too far.  The theorem is exact. *)
Theorem C122_exact_partial : forall limit text gss hss,
  ud_lines (file_lines text) gss -> Forall2 tree_heads gss hss ->
  (Forall (fits limit) hss -> exists u, load_conllu text = Ok u /\ load_conllu_in limit text = Ok u) /\
  (~ Forall (fits limit) hss -> load_conllu_in limit text = Err ERuntime).
Proof.
  intros limit text gss hss UL T. destruct (load_in_exact limit text gss hss UL T) as [E1 E2]. split; auto.
  intro F. destruct (E1 F) as [E (u & Eu)]. exists u. split; congruence.
Qed.
Print Assumptions C122_exact_partial.

(* what is loaded does not depend on the limit *)
Theorem C122_same_partial : forall limit text u, load_conllu_in limit text = Ok u -> load_conllu text = Ok u.
Proof. exact load_in_sound. Qed.
Print Assumptions C122_same_partial.

(* Sentences that fit: those in which no word has more words above it, itself included, than the limit; hence those
   with at most as many words as the limit; and those of any length in which every head stands before its word. *)
Theorem C122_shallow_partial : forall limit hs,
  ((forall i path, way hs i path -> (length path <= limit)%nat) -> fits limit hs) /\
  ((length hs <= limit)%nat -> fits limit hs) /\
  ((forall j h, nth_error hs j = Some h -> h <= Z.of_nat j) -> (2 <= limit)%nat -> fits limit hs).
Proof.
  intros limit hs. split; [apply way_depth_fits|]. split; [apply short_fits|].
  intros B L i l C. pose proof (backward_fits hs B i l C). lia.
Qed.
Print Assumptions C122_shallow_partial.

(* what the writer writes without syntax can be loaded with two calls, however long the sentences are *)
Theorem C122_written_partial : forall limit cols ds gsss,
  Forall constructed ds -> Forall (fun d => tags_writable cols (dtokens d)) ds ->
  Forall2 sentence_groups ds gsss -> Forall no_pending gsss -> Forall loadable ds ->
  (chosen cols 6 = false \/ Forall (fun d => Forall (fun t => thsent t = None) (dtokens d)) ds) -> (2 <= limit)%nat ->
  exists out u, write_str cols ds = Ok out /\ load_conllu_in limit out = Ok u.
Proof.
  intros limit cols ds gsss C T G P L U L2. apply (written_shallow cols ds gsss limit); auto.
  eapply Forall_impl; [|exact C]. exact constructed_inv.
Qed.
Print Assumptions C122_written_partial.

(* four words: with heads to the right the first word needs four calls, with heads to the left no word needs more
   than two; a cycle of three words is only found with four calls *)
Definition ex_right : str :=
  ex_word "1" "a" "2" "_" ++ ex_word "2" "b" "3" "_" ++ ex_word "3" "c" "4" "_" ++ ex_word "4" "d" "0" "_" ++ ex_blank.
Definition ex_left : str :=
  ex_word "1" "a" "0" "_" ++ ex_word "2" "b" "1" "_" ++ ex_word "3" "c" "2" "_" ++ ex_word "4" "d" "3" "_" ++ ex_blank.
Definition ex_cycle : str :=
  ex_word "1" "a" "2" "_" ++ ex_word "2" "b" "3" "_" ++ ex_word "3" "c" "1" "_" ++ ex_word "4" "d" "0" "_" ++ ex_blank.

Example C122_case :
  load_conllu_in 4 ex_right = load_conllu ex_right /\
  map w_parent (u_words (ex_ud ex_right)) = [PaWord 1; PaWord 2; PaWord 3; PaNone] /\
  load_conllu_in 3 ex_right = Err ERuntime /\
  load_conllu_in 2 ex_left = load_conllu ex_left /\
  map w_parent (u_words (ex_ud ex_left)) = [PaNone; PaWord 0; PaWord 1; PaWord 2] /\
  load_conllu_in 1 ex_left = Err ERuntime /\
  load_conllu_in 4 ex_cycle = Err EUD /\ load_conllu_in 3 ex_cycle = Err ERuntime.
Proof. repeat split; vm_compute; reflexivity. Qed.

(* the heads of ex_right and of the second sentence of ex_input: what fits *)
Example C122_fits_case : ~ fits 3 [2; 3; 4; 0] /\ fits 4 [2; 3; 4; 0] /\ fits 2 [2; 0].
Proof.
  split; [|split].
  - intro F. specialize (F 0%nat [0; 1; 2]%nat). cbn in F.
    assert (C : climb [2; 3; 4; 0] 0 [0; 1; 2]%nat); [|specialize (F C); lia].
    exists [3]%nat. split.
    + repeat (eapply way_up; [reflexivity|lia|]; cbn). constructor. reflexivity.
    + intros j I0. split; [|intros i' p L; lia]. destruct I0 as [<-|[<-|[<-|[]]]]; discriminate.
  - apply short_fits. cbn. lia.
  - apply short_fits. cbn. lia.
Qed.

(* what is loaded with two calls for a document without syntax: C25_case_loadable writes it with a chain of heads *)
Example C122_written_case : exists out, write_str [5] [ex_document] = Ok out /\ load_conllu_in 2 out = load_conllu out /\
  length (u_words (ex_ud out)) = 6%nat.
Proof. eexists. split; [vm_compute; reflexivity|]. split; vm_compute; reflexivity. Qed.
