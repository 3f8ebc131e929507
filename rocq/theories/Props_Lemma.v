(* Properties C35-C41: lemma rules and label vocabularies. *)
From Coq Require Import String Ascii ZArith NArith Bool Lia List.
From Verif Require Import Base BaseFacts Model_Datamodel Spec_Datamodel Model_Vocab Model_Lemma Spec_Vocab Spec_Lemma
  Props_Datamodel Props_UDEval Proofs_Vocab Proofs_Lemma Proofs_Lemma2.
Import ListNotations.
Open Scope Z_scope.

(* ---- material for the concrete cases ---- *)

Definition ex_rule (w l : string) : rule := get_rule (of_string w) (of_string l).
Definition ex_rules : list entry :=
  [(ex_rule "dogs" "dog", 0); (ex_rule "cities" "city", 1); (ex_rule "go" "went", 2); (ex_rule "oxen" "ox", 3);
   (ex_rule "s" "be", 4); (ex_rule "cats" "cat", 0)].
Definition ex_offered (w : string) : list Z := map snd (get_applicable_rules (build_trie ex_rules) (of_string w)).

(* "Dogs saw cats" with lemmas *)
Definition ex_lem (a b : Z) (l : string) : token := mkToken a b None (Some (of_string l)) None 0 None None None [].
Definition ex_lemma_doc : document :=
  match new_document (of_string "Dogs saw cats") [ex_lem 0 4 "dog"; ex_lem 5 8 "see"; ex_lem 9 13 "cat"] None true with
  | Ok d => d | Err _ => mkDoc [] [] [] end.
Definition ex_suffix_rules := Eval vm_compute in
  match build_rules ascii_lower 0 [ex_lemma_doc] with Ok r => r | Err _ => ([], []) end.

Example ex_lemma_doc_constructed : constructed ex_lemma_doc.
Proof.
  exists (of_string "Dogs saw cats"), [ex_lem 0 4 "dog"; ex_lem 5 8 "see"; ex_lem 9 13 "cat"], None, true.
  split; [|split; [exact I|vm_compute; reflexivity]].
  repeat (apply Forall_cons; [unfold token_wf; simpl; repeat split; try lia; try discriminate; auto|]). constructor.
Qed.
Example ex_suffix_rules_built : build_rules ascii_lower 0 [ex_lemma_doc] = Ok ex_suffix_rules.
Proof. vm_compute. reflexivity. Qed.

(* ------------------------------------------------------------------ *)

Theorem C35_rule_reproduces : forall w l, let r := get_rule w l in
  is_applicable r w = true /\ transform r w = Ok l /\ learned_rule w l r.
Proof. exact rule_reproduces. Qed.
Print Assumptions C35_rule_reproduces.

(* a rule applied to any word exchanges its ending, and it raises for every other word *)
Theorem C35_transform : forall r w,
  (forall l, transform r w = Ok l <-> exists p, w = p ++ word_suffix r /\ l = p ++ lemma_suffix r) /\
  (~ ends_with w (word_suffix r) -> transform r w = Err EValue).
Proof. intros r w. split; [exact (transform_iff r w)|exact (transform_raises r w)]. Qed.
Print Assumptions C35_transform.

Example C35_case : ex_rule "cities" "city" = mkRule (of_string "ies") (of_string "y") false /\
  ex_rule "go" "went" = mkRule (of_string "go") (of_string "went") true /\
  transform (ex_rule "cities" "city") (of_string "ladies") = Ok (of_string "lady") /\
  transform (ex_rule "cities" "city") (of_string "dogs") = Err EValue.
Proof. vm_compute. auto. Qed.

(* ------------------------------------------------------------------ *)

Theorem C36_trie_exact : forall rules w d, longest_known rules w d ->
  get_applicable_rules (build_trie rules) w =
  flat_map (fun k => entries_for false (last_chars k w) rules) (seq 0 (length w)) ++ entries_for true (last_chars d w) rules.
Proof. exact trie_exact. Qed.
Print Assumptions C36_trie_exact.

Theorem C36_longest_known_exists : forall rules w, exists d, longest_known rules w d.
Proof. exact longest_known_exists. Qed.
Print Assumptions C36_longest_known_exists.

Example C36_case : longest_known ex_rules (of_string "bus") 1 /\ ex_offered "bus" = [0; 0; 4] /\
  ex_offered "cities" = [0; 0; 1] /\ ex_offered "go" = [2] /\ ex_offered "xyz" = [].
Proof.
  split; [|vm_compute; auto]. split; [simpl; lia|]. split.
  - right. exists (ex_rule "dogs" "dog", 0). split; [simpl; auto|]. exists []. reflexivity.
  - intros d Hd. simpl in Hd. assert (d = 2 \/ d = 3)%nat as [-> | ->] by lia; intros [X|(e & He & p & Hp)];
      try discriminate; simpl in He; intuition subst; vm_compute in Hp;
      apply (f_equal (@rev char)) in Hp; rewrite rev_app_distr in Hp; discriminate Hp.
Qed.

(* ------------------------------------------------------------------ *)

Theorem C37_offered_applicable : forall rules w e, In e (get_applicable_rules (build_trie rules) w) ->
  In e rules /\ is_applicable (fst e) w = true /\ exists l, transform (fst e) w = Ok l.
Proof. exact trie_sound. Qed.
Print Assumptions C37_offered_applicable.

(* Full statement: every rule of the list that is applicable to the word is offered. *)
Theorem C37_complete_refuted : exists rules w e,
  In e rules /\ exception (fst e) = false /\ is_applicable (fst e) w = true /\
  ~ In e (get_applicable_rules (build_trie rules) w).
Proof.
  (* the rule of dogs/dog, and the word "s" *)
  exists [(ex_rule "dogs" "dog", 0)], (of_string "s"), (ex_rule "dogs" "dog", 0).
  split; [left; auto|]. split; [reflexivity|]. split; [reflexivity|]. vm_compute. tauto.
Qed.
Print Assumptions C37_complete_refuted.

Theorem C37_complete_exception_refuted : exists rules w e,
  In e rules /\ exception (fst e) = true /\ is_applicable (fst e) w = true /\
  ~ In e (get_applicable_rules (build_trie rules) w).
Proof.
  (* the exception go/went is not offered for "ego" when a longer suffix of "ego" is known *)
  exists [(ex_rule "go" "went", 0); (mkRule (of_string "ego") (of_string "x") true, 1)], (of_string "ego"), (ex_rule "go" "went", 0).
  split; [left; auto|]. split; [reflexivity|]. split; [reflexivity|]. vm_compute. intros [X|[]]. discriminate.
Qed.
Print Assumptions C37_complete_exception_refuted.

(* What holds: the offered rules are these.  Missing, against the full statement: regular rules whose suffix is the
   whole word, and exceptions that are not the longest known suffix. *)
Theorem C37_offered_partial : forall rules w e, In e (get_applicable_rules (build_trie rules) w) <->
  In e rules /\ ends_with w (word_suffix (fst e)) /\
  (if exception (fst e)
   then forall e' s, In e' rules -> ends_with (word_suffix (fst e')) s -> ends_with w s ->
          (length s <= length (word_suffix (fst e)))%nat
   else word_suffix (fst e) <> w).
Proof. exact offered_iff. Qed.
Print Assumptions C37_offered_partial.

Example C37_case : ex_offered "s" = [4] /\ ex_offered "boxes" = [0; 0] /\ ex_offered "oxen" = [3].
Proof. vm_compute. auto. Qed.

(* ------------------------------------------------------------------ *)

(* Full statement: a rule learned as an exception is offered only for the word it was learned from. *)
Theorem C38_exception_whole_word_refuted : exists word lemma w,
  let e := (get_rule word lemma, 0) in
  exception (fst e) = true /\ In e (get_applicable_rules (build_trie [e]) w) /\ w <> word.
Proof.
  exists (of_string "go"), (of_string "went"), (of_string "forgo").
  split; [reflexivity|]. split; [vm_compute; auto|discriminate].
Qed.
Print Assumptions C38_exception_whole_word_refuted.

(* What holds: for words from which a rule of the list was learned as an exception, the exceptions offered are those
   of the word itself.  Missing, against the full statement: words that are not known as a whole. *)
Theorem C38_exception_whole_word_partial : forall rules w e e',
  In e' rules -> ends_with (word_suffix (fst e')) w ->
  In e (get_applicable_rules (build_trie rules) w) -> exception (fst e) = true -> word_suffix (fst e) = w.
Proof. exact exception_known_word. Qed.
Print Assumptions C38_exception_whole_word_partial.

(* and always: an exception is a rule learned from a whole word *)
Theorem C38_exception_origin_partial : forall word lemma,
  exception (get_rule word lemma) = true -> word_suffix (get_rule word lemma) = word /\ lemma_suffix (get_rule word lemma) = lemma.
Proof. exact exception_origin. Qed.
Print Assumptions C38_exception_origin_partial.

Example C38_case : ex_offered "go" = [2] /\ ex_offered "forgo" = [2] /\ ex_offered "xo" = [].
Proof. vm_compute. auto. Qed.

(* ------------------------------------------------------------------ *)

Theorem C39_gold_selectable : forall lower threshold ds rules x r l, build_rules lower threshold ds = Ok rules ->
  token_wf (dt_tok x) -> tlemma (dt_tok x) = Some l -> teaches lower x r -> In r (snd rules) ->
  exists i m t, rule_label lower (fst rules) x = Ok (Z.of_nat i) /\ nth_error (snd rules) i = Some r /\
    mask_extractor lower rules x = Ok m /\ nth_error m i = Some true /\
    interpret_rule lower (snd rules) x (Z.of_nat i) = Ok (mkDT (dt_doc x) t) /\
    same_but_lemma (dt_tok x) t /\ tlemma t = Some (lower l).
Proof. exact gold_selectable. Qed.
Print Assumptions C39_gold_selectable.

(* which rules are in the vocabulary *)
Theorem C39_vocabulary : forall lower threshold ds rules, build_rules lower threshold ds = Ok rules ->
  exists labels mc, Forall2 (teaches lower) (dataset_tokens ds) labels /\ NoDup (snd rules) /\
    nth_error (snd rules) 0 = Some mc /\ In mc labels /\
    (forall r, occurrences rule_eqb r labels <= occurrences rule_eqb mc labels) /\
    (forall r, In r (snd rules) <->
       r = mc \/ (In r labels /\ (0 < threshold -> threshold < occurrences rule_eqb r labels))).
Proof. exact build_rules_vocabulary. Qed.
Print Assumptions C39_vocabulary.

Theorem C39_builds : forall lower threshold ds, dataset_tokens ds <> [] ->
  (forall x, In x (dataset_tokens ds) -> tlemma (dt_tok x) <> None) ->
  exists rules, build_rules lower threshold ds = Ok rules.
Proof. exact build_rules_succeeds. Qed.
Print Assumptions C39_builds.

(* the mask of any token, also one that was not seen in training *)
Theorem C39_mask : forall lower threshold ds rules x, build_rules lower threshold ds = Ok rules ->
  exists m, mask_extractor lower rules x = Ok m /\ length m = length (snd rules) /\
    (forall j, nth_error m j = Some true -> exists r, nth_error (snd rules) j = Some r /\
       ends_with (lower (dt_text x)) (word_suffix r)) /\
    (forall j r, nth_error (snd rules) j = Some r -> exception r = false ->
       ends_with (lower (dt_text x)) (word_suffix r) -> word_suffix r <> lower (dt_text x) ->
       nth_error m j = Some true).
Proof. exact mask_meaning. Qed.
Print Assumptions C39_mask.

Example C39_case :
  snd ex_suffix_rules = [ex_rule "dogs" "dog"; ex_rule "saw" "see"] /\
  mapM (rule_label ascii_lower (fst ex_suffix_rules)) (dataset_tokens [ex_lemma_doc]) = Ok [0; 1; 0] /\
  mapM (mask_extractor ascii_lower ex_suffix_rules) (dataset_tokens [ex_lemma_doc]) = Ok [[true; false]; [false; true]; [true; false]] /\
  (do ys <- mapM (fun x => interpret_rule ascii_lower (snd ex_suffix_rules) x 0) (dataset_tokens [ex_lemma_doc]);
   Ok (map (fun y => tlemma (dt_tok y)) ys))
  = Ok [Some (of_string "dog"); Some (of_string "saw"); Some (of_string "cat")].
Proof. vm_compute. auto. Qed.

Example C39_fails : build_rules ascii_lower 0 [] = Err EIndex /\ build_rules ascii_lower 0 [ex_doc] = Err EAttr.
Proof. vm_compute. auto. Qed.

(* ------------------------------------------------------------------ *)

Theorem C40_interpret_total : forall lower id2rule x i r,
  token_wf (dt_tok x) -> 0 <= i -> nth_error id2rule (Z.to_nat i) = Some r ->
  exists t, interpret_rule lower id2rule x i = Ok (mkDT (dt_doc x) t) /\ same_but_lemma (dt_tok x) t /\
    ((exists p, lower (dt_text x) = p ++ word_suffix r /\ tlemma t = Some (p ++ lemma_suffix r)) \/
     (~ ends_with (lower (dt_text x)) (word_suffix r) /\ tlemma t = Some (lower (dt_text x)))).
Proof. exact interpret_rule_ok. Qed.
Print Assumptions C40_interpret_total.

Example C40_case :
  let x := mkDT (of_string "Cities") (ex_lem 0 6 "x") in
  let lemma i := match interpret_rule ascii_lower (map fst ex_rules) x i with Ok y => tlemma (dt_tok y) | Err _ => None end in
  lemma 1 = Some (of_string "city") /\ lemma 2 = Some (of_string "cities") /\
  interpret_rule ascii_lower (map fst ex_rules) x 6 = Err EIndex.
Proof. vm_compute. auto. Qed.

(* ------------------------------------------------------------------ *)

Theorem C41_label_list : forall K (eqb : K -> K -> bool) cmp counts threshold l,
  equivalence eqb -> all_distinct eqb (map fst counts) -> id2obj eqb cmp counts threshold = Ok l ->
  all_distinct eqb l /\
  (exists mc rest, l = mc :: rest /\ first_most_common counts mc) /\
  (forall k, In k l <-> frequent counts threshold k \/ first_most_common counts k).
Proof. intros K eqb cmp counts threshold l E. exact (id2obj_spec eqb E cmp counts threshold l). Qed.
Print Assumptions C41_label_list.

Theorem C41_inverse : forall K (eqb : K -> K -> bool) l, equivalence eqb -> all_distinct eqb l ->
  forall k i, gget eqb (obj2id eqb l) k = Some i <->
    0 <= i /\ exists k', nth_error l (Z.to_nat i) = Some k' /\ eqb k k' = true.
Proof. intros K eqb l E. exact (obj2id_spec eqb E l). Qed.
Print Assumptions C41_inverse.

(* the count tables of the labels of a training set *)
Theorem C41_counts : forall K (eqb : K -> K -> bool) labels, equivalence eqb ->
  all_distinct eqb (map fst (count_list eqb labels)) /\
  (forall k n, In (k, n) (count_list eqb labels) -> In k labels /\ n = occurrences eqb k labels /\ 0 < n) /\
  (forall k, In k labels -> exists k', eqb k k' = true /\ In (k', occurrences eqb k labels) (count_list eqb labels)).
Proof. exact count_list_spec. Qed.
Print Assumptions C41_counts.

(* sorting labels of a totally ordered type succeeds on every non-empty table *)
Theorem C41_total : forall K (eqb : K -> K -> bool) (cmp : K -> K -> comparison) counts threshold,
  counts <> [] -> exists l, id2obj eqb (fun a b => Ok (cmp a b)) counts threshold = Ok l.
Proof. exact @id2obj_total. Qed.
Print Assumptions C41_total.

Example C41_case :
  let cmp a b := Ok (Z.compare a b) in
  let counts := count_list Z.eqb [7; 3; 9; 3; 5; 9; 3; 9] in
  counts = [(7, 1); (3, 3); (9, 3); (5, 1)] /\ id2obj Z.eqb cmp counts 0 = Ok [3; 5; 7; 9] /\
  id2obj Z.eqb cmp counts 1 = Ok [3; 9] /\ id2obj Z.eqb cmp counts 5 = Ok [3] /\
  id2obj Z.eqb cmp [] 0 = Err EIndex /\ obj2id Z.eqb [3; 5; 7; 9] = [(3, 0); (5, 1); (7, 2); (9, 3)].
Proof. vm_compute. repeat split. Qed.
