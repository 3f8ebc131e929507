(* Properties C25-C34: the evaluation script. *)
From Coq Require Import String Ascii ZArith NArith QArith Bool Lia List.
From Verif Require Import Base BaseFacts Model_Datamodel Model_Conllu Spec_Datamodel Spec_Conllu Model_UDEval Spec_UDEval
  Props_Datamodel Props_Conllu Proofs_UDEval Proofs_UDEval2 Proofs_UDEval3 Proofs_UDEval6 Proofs_UDEval7 Proofs_UDEval8 Proofs_UDEval9.
Import ListNotations.
Open Scope Z_scope.

(* ---- material for the concrete cases ---- *)

Definition ascii_lower (s : str) : str := map (fun c => if ((65 <=? c) && (c <=? 90))%N then (c + 32)%N else c) s.
Definition ex_ud (text : str) : ud := match load_conllu text with Ok u => u | Err _ => mkUD [] [] [] [] end.

(* ex_input split otherwise: "vam" is one word, "Da" and "net" are swapped as heads, and a tag differs *)
Definition ex_system : str :=
  ex_word "1" "Ya" "0" "_" ++ ex_word "2" "vam" "1" "_" ++ ex_word "3" "." "1" "_" ++ ex_blank ++
  ex_word "1" "Da" "0" "_" ++ ex_line ["2"; "net"; "l"; "V"; "_"; "A=1"; "1"; "d:x"; "_"; "_"]%string ++ ex_blank.
(* the same tokens as ex_input, other heads *)
Definition ex_heads_only : str :=
  ex_word "1" "Ya" "0" "_" ++ ex_range "2-3" "vam" "_" ++
  ex_word "2" "v" "3" "_" ++ ex_word "3" "am" "1" "_" ++ ex_word "4" "." "1" "_" ++ ex_blank ++
  ex_word "1" "Da" "2" "_" ++ ex_word "2" "net" "0" "_" ++ ex_blank.

Definition ex_score (a b : str) (m : metric) : option (Q * Q * option Q) :=
  match evaluate ascii_lower (ex_ud a) (ex_ud b) None with
  | Ok f => option_map (fun sc => (Qred (s_precision sc), Qred (s_recall sc), option_map Qred (s_aligned sc))) (f m)
  | Err _ => None
  end.

(* ------------------------------------------------------------------ *)

(* Full statement: the text written for any constructed documents whose sentences are each unparsed or trees (no
   sentence but the last ending with a multiword token, tags writable) is accepted by load_conllu. *)
Theorem C25_loads_written_refuted : exists d gss out,
  constructed d /\ sentence_groups d gss /\ no_pending gss /\ tags_writable default_columns (dtokens d) /\
  (forall s, In s (dsents d) -> unparsed (map thsent (tokens_of (dtokens d) s))) /\
  write_str default_columns [d] = Ok out /\ load_conllu out = Err EUD.
Proof.
  (* "a b" with a token for the space *)
  set (ts := [mkToken 0 1 None None None 0 None None None []; mkToken 1 2 None None None 0 None None None [];
              mkToken 2 3 None None None 0 None None None []]).
  set (d := mkDoc (of_string "a b") ts [mkSent 0 3]).
  exists d, [map GWord ts]. eexists.
  split; [|split; [|split; [|split; [|split; [|split]]]]].
  - exists (of_string "a b"), ts, None, true. split; [|split; [exact I|vm_compute; reflexivity]].
    unfold ts. repeat (apply Forall_cons; [unfold token_wf; simpl; repeat split; try lia; try discriminate; auto|]). constructor.
  - constructor; [|constructor]. change (tokens_of (dtokens d) (mkSent 0 3)) with ts. unfold ts.
    repeat (apply gt_word; [unfold multiword; cbn; congruence|]). constructor.
  - constructor.
  - left. reflexivity.
  - intros s [<-|[]]. vm_compute. repeat constructor.
  - vm_compute. reflexivity.
  - vm_compute. reflexivity.
Qed.
Print Assumptions C25_loads_written_refuted.

(* Missing, against the full statement: documents that are not loadable (Spec_UDEval), that is with a token of
   spaces only, a tab or line break in a field, or "=" or "|" in a feature. *)
Theorem C25_loads_written_partial : forall cols ds gsss,
  Forall constructed ds -> Forall (fun d => tags_writable cols (dtokens d)) ds ->
  Forall2 sentence_groups ds gsss -> Forall no_pending gsss -> Forall loadable ds ->
  exists out u, write_str cols ds = Ok out /\ load_conllu out = Ok u /\
    map (fun w => (w_columns w, w_multi w)) (u_words u) =
      concat (map (fun p => concat (map (written_words cols (dtext (fst p)) 1) (snd p))) (combine ds gsss)) /\
    map w_parent (u_words u) =
      expected_parents 0 (concat (map (fun d => map (fun s => written_heads cols 1 (tokens_of (dtokens d) s)) (dsents d)) ds)).
Proof.
  intros cols ds gsss C. apply written_loads. eapply Forall_impl; [|exact C]. exact constructed_inv.
Qed.
Print Assumptions C25_loads_written_partial.

Example C25_case_loadable : loadable ex_document.
Proof.
  constructor.
  - exact (rn_clean _ (proj2 C20_case_normal)).
  - apply Forall_forall. intros t H. each_token; vm_compute; discriminate.
  - intros s H. right. exact (proj1 (rn_heads _ (proj2 C20_case_normal) s H)).
Qed.
Example C25_case : exists out, write_str [5] [ex_document] = Ok out /\
  map w_parent (u_words (ex_ud out)) = [PaNone; PaWord 0; PaWord 1; PaWord 2; PaNone; PaWord 4].
Proof. eexists. split; vm_compute; reflexivity. Qed.

(* ------------------------------------------------------------------ *)

(* one sentence ws after the words prev *)
Theorem C26_links_trees : forall prev ws hs,
  Forall2 head_of ws hs -> Forall (fun h => 0 <= h <= zlen ws) hs -> Forall (fun w => w_parent w = PaNone) ws ->
  ((exists r, link_sentence (prev ++ ws) (zlen prev) = Ok r) <-> dependency_tree (map (fun h => Some (h - 1)) hs)) /\
  (~ dependency_tree (map (fun h => Some (h - 1)) hs) -> link_sentence (prev ++ ws) (zlen prev) = Err EUD) /\
  forall r, link_sentence (prev ++ ws) (zlen prev) = Ok r ->
    exists ws', r = prev ++ ws' /\
      Forall2 (fun w' wh => linked (zlen prev) (fst wh) (snd wh) w') ws' (combine ws hs).
Proof.
  intros prev ws hs H B N.
  assert (S0 := link_sound prev ws hs H B N). assert (C0 := link_complete prev ws hs H B N). split; [split|split].
  - intros (r & E). exact (proj1 (S0 r E)).
  - exact C0.
  - intro T. destruct (link_total prev ws hs H B N) as [(r & E)|E]; auto. destruct T. exact (proj1 (S0 r E)).
  - intros r E. exact (proj2 (S0 r E)).
Qed.
Print Assumptions C26_links_trees.

(* whole files *)
Theorem C26_accepts_trees : forall text, ud_heads_nonneg text ->
  ((exists u, load_conllu text = Ok u) <->
   exists gss, ud_lines (file_lines text) gss /\ Forall (fun gs => exists hs, tree_heads gs hs) gss).
Proof. exact load_iff. Qed.
Print Assumptions C26_accepts_trees.

Theorem C26_parents : forall text u, ud_heads_nonneg text -> load_conllu text = Ok u ->
  exists gss hss, ud_lines (file_lines text) gss /\ Forall2 tree_heads gss hss /\
    map w_parent (u_words u) = expected_parents 0 hss.
Proof. exact load_trees. Qed.
Print Assumptions C26_parents.

Example C26_case :
  map w_parent (u_words (ex_ud ex_input)) = [PaNone; PaWord 0; PaWord 1; PaWord 0; PaWord 5; PaNone] /\
  load_conllu (ex_word "1" "a" "2" "_" ++ ex_word "2" "b" "1" "_" ++ ex_word "3" "c" "0" "_" ++ ex_blank) = Err EUD /\
  load_conllu (ex_word "1" "a" "0" "_" ++ ex_word "2" "b" "0" "_" ++ ex_blank) = Err EUD.
Proof. split; [|split]; vm_compute; reflexivity. Qed.

(* ------------------------------------------------------------------ *)

Theorem C27_spans_tile : forall text u, load_conllu text = Ok u ->
  consecutive 0 (zlen (u_chars u)) (u_tokens u) /\ consecutive 0 (zlen (u_chars u)) (u_sents u) /\
  Forall (fun w => In (w_span w) (u_tokens u)) (u_words u).
Proof. exact load_tiles. Qed.
Print Assumptions C27_spans_tile.

(* every part of the loaded file is what its lines say *)
Theorem C27_faithful : forall text u, load_conllu text = Ok u ->
  exists gss, ud_lines (file_lines text) gss /\
    u_chars u = sentence_chars (concat gss) /\
    u_tokens u = expected_tokens 0 (concat gss) /\
    u_sents u = expected_sentences 0 gss /\
    map word_facts (u_words u) = expected_words 0 (concat gss).
Proof. exact load_text. Qed.
Print Assumptions C27_faithful.

Example C27_case :
  u_chars (ex_ud ex_input) = of_string "Yavam.Danet" /\
  u_tokens (ex_ud ex_input) = [mkSpan 0 2; mkSpan 2 5; mkSpan 5 6; mkSpan 6 8; mkSpan 8 11] /\
  u_sents (ex_ud ex_input) = [mkSpan 0 6; mkSpan 6 11] /\
  map w_span (u_words (ex_ud ex_input)) = [mkSpan 0 2; mkSpan 2 5; mkSpan 2 5; mkSpan 5 6; mkSpan 6 8; mkSpan 8 11].
Proof. repeat split; vm_compute; reflexivity. Qed.

(* ------------------------------------------------------------------ *)

Theorem C28_counts_common_spans : forall g s xs, increasing_starts g -> increasing_starts s -> common_spans xs g s ->
  fraction (count xs) (count s) (s_precision (spans_score g s)) /\
  fraction (count xs) (count g) (s_recall (spans_score g s)) /\
  fraction (2 * count xs) (count s + count g) (s_f1 (spans_score g s)) /\
  s_aligned (spans_score g s) = None.
Proof. exact spans_score_counts. Qed.
Print Assumptions C28_counts_common_spans.

Theorem C28_swap : forall g s,
  s_precision (spans_score g s) = s_recall (spans_score s g) /\
  s_recall (spans_score g s) = s_precision (spans_score s g) /\
  (s_f1 (spans_score g s) == s_f1 (spans_score s g))%Q.
Proof. exact spans_score_swap. Qed.
Print Assumptions C28_swap.

Example C28_case :
  let g := [mkSpan 0 2; mkSpan 2 5; mkSpan 5 9] in let s := [mkSpan 0 2; mkSpan 2 3; mkSpan 3 5; mkSpan 5 9] in
  (s_precision (spans_score g s) == 1 # 2)%Q /\ (s_recall (spans_score g s) == 2 # 3)%Q /\ (s_f1 (spans_score g s) == 4 # 7)%Q.
Proof. vm_compute. auto. Qed.

(* ------------------------------------------------------------------ *)

(* [aligned] is spelled out in Spec_UDEval; every loaded file has non-empty spans (C27) *)
Theorem C29_aligns : forall lower g s, Forall nonempty_span g -> Forall nonempty_span s ->
  exists ps, align lower g s = Ok ps /\ aligned lower g s ps.
Proof. exact align_ok. Qed.
Print Assumptions C29_aligns.

Theorem C29_matching : forall lower g s ps, Forall nonempty_span g -> Forall nonempty_span s ->
  align lower g s = Ok ps ->
  subseq (map fst ps) g /\ subseq (map snd ps) s /\ Forall (pairable lower) ps.
Proof.
  intros lower g s ps Ng Ns E. destruct (align_ok lower g s Ng Ns) as (ps' & E' & A). rewrite E in E'. injection E' as <-.
  exact (aligned_matching lower g s ps A).
Qed.
Print Assumptions C29_matching.

(* without multiword tokens exactly the words with the same span are paired *)
Theorem C29_plain : forall lower g s ps, Forall nonempty_span g -> Forall nonempty_span s ->
  align lower g s = Ok ps -> Forall (fun w => w_multi w = false) (g ++ s) ->
  increasing_starts (map w_span g) -> increasing_starts (map w_span s) ->
  forall w v, In (w, v) ps <-> In w g /\ In v s /\ w_span w = w_span v.
Proof.
  intros lower g s ps Ng Ns E M Ig Is. destruct (align_ok lower g s Ng Ns) as (ps' & E' & A). rewrite E in E'. injection E' as <-.
  exact (aligned_plain lower g s ps A M Ig Is).
Qed.
Print Assumptions C29_plain.

Example C29_case : match align ascii_lower (u_words (ex_ud ex_input)) (u_words (ex_ud ex_system)) with
  | Ok ps => map (fun p => (w_ix (fst p), w_ix (snd p))) ps = [(0, 0); (3, 2); (4, 3); (5, 4)]
  | Err _ => False end.
Proof. vm_compute. reflexivity. Qed.

(* ------------------------------------------------------------------ *)

Theorem C30_longest : forall lower g s,
  exists ps, lcs_walk lower (length g + length s) g s (compute_lcs lower g s) = Ok ps /\
    subseq (map fst ps) g /\ subseq (map snd ps) s /\
    Forall (fun p => lower (form (fst p)) = lower (form (snd p))) ps /\
    longest_common (map (fun p => lower (form (fst p))) ps)
                   (map (fun w => lower (form w)) g) (map (fun w => lower (form w)) s).
Proof. exact lcs_walk_longest. Qed.
Print Assumptions C30_longest.

Definition ex_forms (l : list string) : list word :=
  map (fun p => mkWord (Z.of_nat (fst p)) (mkSpan 0 9) [[]; of_string (snd p)] true PaNone) (combine (seq 0 (length l)) l).
Example C30_case :
  let g := ex_forms ["A"; "b"; "c"; "b"; "d"]%string in let s := ex_forms ["b"; "D"; "C"; "a"; "B"]%string in
  match lcs_walk ascii_lower (length g + length s) g s (compute_lcs ascii_lower g s) with
  | Ok ps => map (fun p => (w_ix (fst p), w_ix (snd p))) ps = [(1, 0); (2, 2); (3, 4)]
  | Err _ => False end.
Proof. vm_compute. reflexivity. Qed.

(* ------------------------------------------------------------------ *)

Theorem C31_well_formed : forall lower tg ts gold system weights f m sc,
  load_conllu tg = Ok gold -> load_conllu ts = Ok system -> weights_nonneg weights ->
  evaluate lower gold system weights = Ok f -> f m = Some sc ->
  unit_interval (s_precision sc) /\ unit_interval (s_recall sc) /\ unit_interval (s_f1 sc) /\
  (forall q, s_aligned sc = Some q -> unit_interval q) /\
  (s_f1 sc * (s_precision sc + s_recall sc) == 2 * s_precision sc * s_recall sc)%Q /\
  ((s_precision sc + s_recall sc == 0)%Q -> (s_f1 sc == 0)%Q).
Proof. exact evaluate_unit. Qed.
Print Assumptions C31_well_formed.

(* what the numbers are, for any two files with the same characters *)
Theorem C31_meaning : forall lower tg ts gold system weights,
  load_conllu tg = Ok gold -> load_conllu ts = Ok system -> u_chars gold = u_chars system ->
  exists f pairs, evaluate lower gold system weights = Ok f /\ aligned lower (u_words gold) (u_words system) pairs /\
    align lower (u_words gold) (u_words system) = Ok pairs /\
    (exists sc xs, f MTokens = Some sc /\ common_spans xs (u_tokens gold) (u_tokens system) /\
       scores sc (count xs) (count (u_tokens gold)) (count (u_tokens system)) None) /\
    (exists sc xs, f MSentences = Some sc /\ common_spans xs (u_sents gold) (u_sents system) /\
       scores sc (count xs) (count (u_sents gold)) (count (u_sents system)) None) /\
    (forall m, m <> MTokens -> m <> MSentences ->
       (f m = None <-> m = MWeightedLAS /\ weights = None) /\
       forall sc, f m = Some sc ->
         exists good, agreeing m pairs good /\
           scores sc (total (fun p => metric_weight weights m (fst p)) good)
                  (total (metric_weight weights m) (u_words gold)) (total (metric_weight weights m) (u_words system))
                  (match compared m with None => None | Some _ => Some (total (fun p => metric_weight weights m (fst p)) pairs) end)).
Proof. exact evaluate_meaning. Qed.
Print Assumptions C31_meaning.

Example C31_case :
  ex_score ex_input ex_system MWords = Some ((4 # 5)%Q, (2 # 3)%Q, None) /\
  ex_score ex_input ex_system MUPOS = Some ((3 # 5)%Q, (1 # 2)%Q, Some (3 # 4)%Q) /\
  ex_score ex_input ex_system MLAS = Some ((2 # 5)%Q, (1 # 3)%Q, Some (1 # 2)%Q) /\
  ex_score ex_input ex_system MTokens = Some (1%Q, 1%Q, None).
Proof. repeat split; vm_compute; reflexivity. Qed.

(* ------------------------------------------------------------------ *)

Theorem C32_self_perfect : forall lower text u weights, load_conllu text = Ok u ->
  exists f, evaluate lower u u weights = Ok f /\
    (forall m, f m = None <-> m = MWeightedLAS /\ weights = None) /\
    forall m sc, f m = Some sc -> ~ (metric_total weights u m == 0)%Q -> perfect sc.
Proof. exact self_perfect. Qed.
Print Assumptions C32_self_perfect.

Example C32_case :
  map (ex_score ex_input ex_input) [MTokens; MWords; MAllTags; MCLAS] =
  [Some (1%Q, 1%Q, None); Some (1%Q, 1%Q, None); Some (1%Q, 1%Q, Some 1%Q); Some (1%Q, 1%Q, Some 1%Q)].
Proof. vm_compute. reflexivity. Qed.

(* ------------------------------------------------------------------ *)

Theorem C33_plain_accuracy : forall lower tg ts gold system weights,
  load_conllu tg = Ok gold -> load_conllu ts = Ok system -> same_tokenization gold system ->
  exists f, evaluate lower gold system weights = Ok f /\
    (exists sc, f MTokens = Some sc /\ (u_tokens gold <> [] -> perfect sc)) /\
    (exists sc, f MSentences = Some sc /\ (u_sents gold <> [] -> perfect sc)) /\
    (exists sc, f MWords = Some sc /\ (u_words gold <> [] -> perfect sc)) /\
    forall m sc, compared m <> None -> f m = Some sc ->
      exists good, agreeing_positions gold system m good /\
        scores sc (total (fun p => metric_weight weights m (fst p)) good)
               (total (metric_weight weights m) (u_words gold)) (total (metric_weight weights m) (u_words system))
               (Some (total (metric_weight weights m) (u_words gold))).
Proof. exact same_scores. Qed.
Print Assumptions C33_plain_accuracy.

Example C33_case_same : same_tokenization (ex_ud ex_input) (ex_ud ex_heads_only).
Proof. vm_compute. repeat split; try reflexivity. repeat (constructor; [repeat split; reflexivity|]). constructor. Qed.
Example C33_case :
  ex_score ex_input ex_heads_only MUAS = Some ((2 # 3)%Q, (2 # 3)%Q, Some (2 # 3)%Q) /\
  ex_score ex_input ex_heads_only MUPOS = Some (1%Q, 1%Q, Some 1%Q).
Proof. split; vm_compute; reflexivity. Qed.

(* ------------------------------------------------------------------ *)

Theorem C34_refuses_other_text : forall lower tg ts gold system weights,
  load_conllu tg = Ok gold -> load_conllu ts = Ok system ->
  (evaluate lower gold system weights = Err EUD <-> u_chars gold <> u_chars system) /\
  (u_chars gold = u_chars system -> exists f, evaluate lower gold system weights = Ok f).
Proof. exact evaluate_error. Qed.
Print Assumptions C34_refuses_other_text.

Example C34_case : evaluate ascii_lower (ex_ud ex_input) (ex_ud (ex_word "1" "Ya" "0" "_" ++ ex_blank)) None = Err EUD.
Proof. vm_compute. reflexivity. Qed.
