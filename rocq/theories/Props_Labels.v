(* Properties C74 and C75: the numbers of labels. *)
From Coq Require Import String Ascii ZArith NArith Bool Lia Permutation Sorted List.
From Verif Require Import Base BaseFacts Model_Datamodel Spec_Datamodel Model_Vocab Model_Features Model_Lemma Spec_Vocab Spec_Lemma Spec_Features Spec_Labels
  Props_Datamodel Props_UDEval Props_Features Proofs_Labels3.
Import ListNotations.
Open Scope Z_scope.

(* ---- material for the concrete cases ---- *)

Definition ex_adj : pos := ex_p (Some "ADJ"%string) (Some "JJ"%string) [].
Definition ex_feat_toks2 : list token := [ex_word 0 3 ex_adj "old"; ex_word 4 8 ex_noun' "cow"; ex_word 9 13 ex_noun "hen"].
Definition ex_feat_doc2 : document := Eval vm_compute in
  match new_document (of_string "Old cows hens") ex_feat_toks2 None true with Ok d => d | Err _ => mkDoc [] [] [] end.
Definition ex_two : list document := [ex_feat_doc; ex_feat_doc2].
Definition ex_two' : list document := [ex_feat_doc2; ex_feat_doc].

Example ex_feat_doc2_built : new_document (of_string "Old cows hens") ex_feat_toks2 None true = Ok ex_feat_doc2.
Proof. vm_compute. reflexivity. Qed.
Example ex_two_wf : Forall opt_pos_wf (dataset_poses ex_two) /\ Permutation ex_two ex_two'.
Proof. split; [repeat constructor; simpl; intuition discriminate|apply perm_swap]. Qed.

(* ---------------- C74 ---------------- *)

(* After the most frequent label come the others in strictly ascending order. *)
Theorem C74_rules_sorted : forall lower threshold ds rule2id id2rule, build_rules lower threshold ds = Ok (rule2id, id2rule) ->
  exists mc rest, id2rule = mc :: rest /\ StronglySorted rule_before rest.
Proof. exact rules_sorted. Qed.
Print Assumptions C74_rules_sorted.

Theorem C74_lemmas_sorted : forall ds lemma2id id2lemma, build_lemmas ds = Ok (lemma2id, id2lemma) ->
  exists mc rest, id2lemma = mc :: rest /\ StronglySorted (opt_before str_before) rest.
Proof. exact lemmas_sorted. Qed.
Print Assumptions C74_lemmas_sorted.

Theorem C74_parts_sorted : forall st ds b, Forall opt_pos_wf (dataset_poses ds) -> build_pos_labels st ds = Ok b ->
  Forall (fun l => exists mc rest, l = mc :: rest /\ StronglySorted part_before rest) (pl_id2parts b).
Proof. exact parts_sorted. Qed.
Print Assumptions C74_parts_sorted.

Theorem C74_symbols_sorted : forall threshold occ, StronglySorted str_before (symbols threshold occ).
Proof. exact symbols_sorted. Qed.
Print Assumptions C74_symbols_sorted.

(* The order of documents and of tokens changes nothing, if one label is the most frequent. *)
Theorem C74_documents : forall ds ds', Permutation ds ds' -> Permutation (dataset_tokens ds) (dataset_tokens ds').
Proof. exact dataset_tokens_perm. Qed.
Print Assumptions C74_documents.

Theorem C74_rules_reordered : forall lower threshold ds ds' labels, Permutation (dataset_tokens ds) (dataset_tokens ds') ->
  Forall2 (teaches lower) (dataset_tokens ds) labels -> clear_winner rule_eqb labels ->
  build_rules lower threshold ds' = build_rules lower threshold ds.
Proof. exact rules_reordered. Qed.
Print Assumptions C74_rules_reordered.

Theorem C74_lemmas_reordered : forall ds ds', Permutation (dataset_tokens ds) (dataset_tokens ds') ->
  clear_winner lemma_eqb (map (fun x => tlemma (dt_tok x)) (dataset_tokens ds)) -> build_lemmas ds' = build_lemmas ds.
Proof. exact lemmas_reordered. Qed.
Print Assumptions C74_lemmas_reordered.

Theorem C74_parts_reordered : forall st ds ds' b, Forall opt_pos_wf (dataset_poses ds) ->
  Permutation (dataset_tokens ds) (dataset_tokens ds') -> build_pos_labels st ds = Ok b ->
  (forall i, (i < length (pl_id2parts b))%nat -> clear_winner part_eqb (part_values (pl_splitter b) i (dataset_poses ds))) ->
  exists b', build_pos_labels st ds' = Ok b' /\ pl_splitter b' = pl_splitter b /\ pl_lens b' = pl_lens b /\
    Forall2 (Forall2 (fun v w => part_eqb v w = true)) (pl_id2parts b) (pl_id2parts b').
Proof. exact parts_reordered. Qed.
Print Assumptions C74_parts_reordered.

Theorem C74_symbols_reordered : forall threshold occ occ', Permutation occ occ' -> symbols threshold occ = symbols threshold occ'.
Proof. exact symbols_reordered. Qed.
Print Assumptions C74_symbols_reordered.

Ltac winner k := exists k; split; [vm_compute; tauto|];
  let q := fresh "q" in let H := fresh "H" in let N := fresh "N" in
  intros q H N; vm_compute in H; repeat (destruct H as [<-|H]; [vm_compute in N |- *; congruence|]); destruct H.

Example C74_case :
  Permutation (dataset_tokens ex_two) (dataset_tokens ex_two') /\
  (exists labels, mapM (suffix_transformation ascii_lower) (dataset_tokens ex_two) = Ok labels /\
     labels = map (fun wl => mkRule (of_string (fst wl)) (of_string (snd wl)) false)
                [("s", ""); ("aw", "ee"); ("s", ""); ("", ""); ("s", ""); ("s", "")]%string /\
     clear_winner rule_eqb labels) /\
  (do r <- build_rules ascii_lower 0 ex_two; Ok (map (fun r => (word_suffix r, lemma_suffix r)) (snd r))) =
    Ok (map (fun wl => (of_string (fst wl), of_string (snd wl))) [("s", ""); ("", ""); ("aw", "ee")]%string) /\
  build_rules ascii_lower 0 ex_two' = build_rules ascii_lower 0 ex_two /\
  (exists b, build_pos_labels pos_UXF ex_two = Ok b /\
     map (@length part) (pl_id2parts b) = [3; 3; 3]%nat /\
     nth_error (pl_id2parts b) 0 = Some (map (fun u => PaStr (Some (of_string u))) ["NOUN"; "ADJ"; "VERB"]%string) /\
     forall i, (i < length (pl_id2parts b))%nat -> clear_winner part_eqb (part_values (pl_splitter b) i (dataset_poses ex_two))) /\
  symbols 2 (map of_string ["b"; "a"; "c"; "a"; "b"; "d"]%string) = map of_string ["a"; "b"]%string.
Proof.
  split; [apply C74_documents, perm_swap|]. split; [|split; [|split; [|split]]].
  - eexists. split; [vm_compute; reflexivity|]. split; [reflexivity|]. winner (mkRule (of_string "s") [] false).
  - vm_compute. reflexivity.
  - vm_compute. reflexivity.
  - eexists. split; [vm_compute; reflexivity|]. split; [reflexivity|]. split; [reflexivity|].
    intros [|[|[|i]]] L; [winner (PaStr (upos ex_noun))|winner (PaStr (xpos ex_noun))|winner (PaFeats (sorted_items (feats ex_noun)))|cbn in L; lia].
  - vm_compute. reflexivity.
Qed.

(* With a tie the order of the documents decides which label is 0. *)
Theorem C74_tie_matters : exists ds ds', Permutation ds ds' /\ is_ok (build_lemmas ds) = true /\ build_lemmas ds <> build_lemmas ds'.
Proof. exists ex_two, ex_two'. split; [apply perm_swap|]. split; [reflexivity|]. vm_compute. discriminate. Qed.
Print Assumptions C74_tie_matters.

(* ---------------- C75 ---------------- *)

(* Label 0 of every part is the value most tokens have, the first seen of those. *)
Theorem C75_part_zero : forall st ds b i l, Forall opt_pos_wf (dataset_poses ds) -> build_pos_labels st ds = Ok b ->
  nth_error (pl_id2parts b) i = Some l ->
  exists mc rest before after, l = mc :: rest /\ part_values (pl_splitter b) i (dataset_poses ds) = before ++ mc :: after /\
    (forall v, In v before -> occurrences part_eqb v (before ++ mc :: after) < occurrences part_eqb mc (before ++ mc :: after)) /\
    (forall v, In v (before ++ mc :: after) -> occurrences part_eqb v (before ++ mc :: after) <= occurrences part_eqb mc (before ++ mc :: after)).
Proof. exact parts_frequent. Qed.
Print Assumptions C75_part_zero.

Example C75_case :
  exists b, build_pos_labels pos_gran ex_two = Ok b /\
     map (fun l => hd_error l) (pl_id2parts b) =
       map (fun u => Some (PaStr (Some (of_string u)))) ["NOUN"; "NN"; "Nom"; "Plur"]%string ++ [Some (PaStr None)].
Proof. eexists. split; vm_compute; reflexivity. Qed.
