(* Properties C42-C46, C52, C53: label and feature extractors. *)
From Coq Require Import String Ascii ZArith NArith Bool Lia List.
From Verif Require Import Base BaseFacts Model_Datamodel Spec_Datamodel Model_Vocab Model_Features Spec_Vocab Spec_Lemma Spec_Features
  Props_Datamodel Props_UDEval Proofs_Features Proofs_Features3 Proofs_Features4 Proofs_Features5 Proofs_Features6.
Import ListNotations.
Open Scope Z_scope.

(* ---- material for the concrete cases ---- *)

Definition ex_p (u x : option string) (fs : list (string * string)) : pos :=
  mkPos (option_map of_string u) (option_map of_string x) (map (fun kv => (of_string (fst kv), of_string (snd kv))) fs).
Definition ex_noun : pos := ex_p (Some "NOUN"%string) (Some "NN"%string) [("Number", "Plur"); ("Case", "Nom")]%string.
(* the same with the features in the other order *)
Definition ex_noun' : pos := ex_p (Some "NOUN"%string) (Some "NN"%string) [("Case", "Nom"); ("Number", "Plur")]%string.
Definition ex_verb : pos := ex_p (Some "VERB"%string) (Some "VB"%string) [("Tense", "Past")]%string.
Definition ex_word (a b : Z) (p : pos) (l : string) : token := mkToken a b (Some p) (Some (of_string l)) None 0 None None None [].
Definition ex_feat_toks : list token := [ex_word 0 4 ex_noun "dog"; ex_word 5 8 ex_verb "see"; ex_word 9 13 ex_noun' "cat"].
Definition ex_feat_doc : document := Eval vm_compute in
  match new_document (of_string "Dogs saw cats") ex_feat_toks None true with Ok d => d | Err _ => mkDoc [] [] [] end.
Definition ex_labels (st : strategy) : pos_labels :=
  match build_pos_labels st [ex_feat_doc] with Ok b => b | Err _ => mkPL SNo [] [] [] end.
Definition ex_tok_at (i : nat) : dtoken := nth i (dataset_tokens [ex_feat_doc]) (mkDT [] (ex_word 0 0 ex_noun "")).

Example ex_feat_doc_built : new_document (of_string "Dogs saw cats") ex_feat_toks None true = Ok ex_feat_doc.
Proof. vm_compute. reflexivity. Qed.
Example ex_feat_doc_wf : Forall opt_pos_wf (dataset_poses [ex_feat_doc]) /\ no_reserved_feature (dataset_poses [ex_feat_doc]) /\
  forall i, (i < 3)%nat -> In (ex_tok_at i) (dataset_tokens [ex_feat_doc]) /\ token_wf (dt_tok (ex_tok_at i)).
Proof.
  split; [|split].
  - repeat constructor; simpl; intuition discriminate.
  - split; intros (q & Hq & G); simpl in Hq; intuition (try discriminate);
      match goal with H : Some _ = Some _ |- _ => injection H as <- end; apply G; reflexivity.
  - intros i Hi. destruct i as [|[|[|i]]]; [| | |lia]; (split; [simpl; tauto|]); split; simpl; auto; lia.
Qed.

(* a Pos with a feature named UPOS *)
Definition ex_bad : pos := ex_p (Some "NOUN"%string) None [("UPOS", "x")]%string.
Definition ex_bad_doc : document := Eval vm_compute in
  match new_document (of_string "a") [ex_word 0 1 ex_bad "a"] None true with Ok d => d | Err _ => mkDoc [] [] [] end.

(* ------------------------------------------------------------------ *)

(* Full statement: without the hypothesis no_reserved_feature. *)
Theorem C42_split_combine_refuted : exists poses s p sp q,
  make_splitter pos_gran poses = Ok s /\ pos_wf p /\ (forall k, dict_get (feats p) k <> None -> trained_feature poses k) /\
  split_pos s (Some p) = Ok sp /\ combine_pos s (map snd sp) = Ok (Some q) /\ pos_eqb p q = false.
Proof.
  exists [Some ex_bad], (SGran [n_UPOS]), ex_bad. do 2 eexists. split; [vm_compute; reflexivity|].
  split; [repeat constructor; simpl; tauto|]. split; [|split; [|split]; vm_compute; reflexivity].
  intros k H. exists ex_bad. simpl. auto.
Qed.
Print Assumptions C42_split_combine_refuted.

Theorem C42_split_combine_partial : forall st poses s p, make_splitter st poses = Ok s -> pos_wf p ->
  (st = pos_gran -> no_reserved_feature poses /\ forall k, dict_get (feats p) k <> None -> trained_feature poses k) ->
  exists sp q, split_pos s (Some p) = Ok sp /\ combine_pos s (map snd sp) = Ok (Some q) /\ pos_same p q.
Proof. exact split_combine. Qed.
Print Assumptions C42_split_combine_partial.

Example C42_case :
  let back st := match make_splitter st [Some ex_noun; Some ex_verb] with
                 | Ok s => match split_pos s (Some ex_noun) with
                           | Ok sp => match combine_pos s (map snd sp) with Ok (Some q) => pos_eqb ex_noun q | _ => false end
                           | Err _ => false end
                 | Err _ => false end in
  map back [pos_joint; pos_XF; pos_UXF; pos_gran] = [true; true; true; true] /\
  make_splitter pos_gran [Some ex_noun; Some ex_verb] = Ok (SGran (map of_string ["Case"; "Number"; "Tense"]%string)).
Proof. vm_compute. auto. Qed.

(* ------------------------------------------------------------------ *)

(* Full statement: without the hypothesis no_reserved_feature. *)
Theorem C43_labels_round_trip_refuted : exists ds b x ids y,
  Forall opt_pos_wf (dataset_poses ds) /\ build_pos_labels pos_gran ds = Ok b /\ In x (dataset_tokens ds) /\ token_wf (dt_tok x) /\
  pos_ids b (tpos (dt_tok x)) = Ok ids /\ interpret_pos b x ids = Ok y /\
  option_eqb pos_eqb (tpos (dt_tok x)) (tpos (dt_tok y)) = false.
Proof.
  exists [ex_bad_doc]. do 4 eexists. split; [repeat constructor; simpl; tauto|]. split; [vm_compute; reflexivity|].
  split; [left; reflexivity|]. split; [split; simpl; auto; lia|]. repeat split; vm_compute; reflexivity.
Qed.
Print Assumptions C43_labels_round_trip_refuted.

Theorem C43_labels_round_trip_partial : forall st ds b x, Forall opt_pos_wf (dataset_poses ds) ->
  (st = pos_gran -> no_reserved_feature (dataset_poses ds)) ->
  build_pos_labels st ds = Ok b -> In x (dataset_tokens ds) -> token_wf (dt_tok x) ->
  exists ids t, pos_ids b (tpos (dt_tok x)) = Ok ids /\ Forall2 (fun i nl => 0 <= i < snd nl) ids (pl_lens b) /\
    interpret_pos b x ids = Ok (mkDT (dt_doc x) t) /\ same_but_pos (dt_tok x) t /\ same_pos (tpos (dt_tok x)) (tpos t).
Proof. exact pos_round_trip. Qed.
Print Assumptions C43_labels_round_trip_partial.

(* any prediction below the advertised counts is interpreted, also with features named UPOS or XPOS *)
Theorem C43_predictions : forall st ds b x ids, Forall opt_pos_wf (dataset_poses ds) -> build_pos_labels st ds = Ok b ->
  token_wf (dt_tok x) -> Forall2 (fun i nl => 0 <= i < snd nl) ids (pl_lens b) ->
  exists t, interpret_pos b x ids = Ok (mkDT (dt_doc x) t) /\ same_but_pos (dt_tok x) t /\ (st <> pos_joint -> tpos t <> None).
Proof. exact pos_predictions. Qed.
Print Assumptions C43_predictions.

Example C43_case :
  map (fun st => map snd (pl_lens (ex_labels st))) [pos_joint; pos_XF; pos_UXF; pos_gran] = [[2]; [2; 2]; [2; 2; 2]; [2; 2; 2; 2; 2]] /\
  pos_ids (ex_labels pos_gran) (Some ex_verb) = Ok [1; 1; 1; 1; 1] /\
  map (fun i => match interpret_pos (ex_labels pos_gran) (ex_tok_at i) [0; 0; 0; 0; 0] with
                | Ok y => option_eqb pos_eqb (tpos (dt_tok y)) (Some ex_noun) | Err _ => false end) [0; 1; 2]%nat = [true; true; true].
Proof. vm_compute. auto. Qed.

(* ------------------------------------------------------------------ *)

Definition ex_mixed_doc : document := Eval vm_compute in
  match new_document (of_string "a b c") [ex_word 0 1 ex_noun "a"; ex_word 2 3 ex_verb "b";
      ex_word 4 5 (ex_p (Some "VERB"%string) None []) "c"] None true with Ok d => d | Err _ => mkDoc [] [] [] end.

(* Full statement: without the hypothesis sortable. *)
Theorem C44_builds_refuted : exists ds,
  dataset_tokens ds <> [] /\ Forall opt_pos_wf (dataset_poses ds) /\ (forall p, In p (dataset_poses ds) -> p <> None) /\
  build_pos_labels pos_joint ds = Err EType /\ build_pos_labels pos_XF ds = Err EType.
Proof.
  exists [ex_mixed_doc]. split; [discriminate|]. split; [repeat constructor; simpl; intuition discriminate|].
  split; [|split; vm_compute; reflexivity]. intros p. simpl. intuition; subst; discriminate.
Qed.
Print Assumptions C44_builds_refuted.

Theorem C44_builds_partial : forall st ds, dataset_tokens ds <> [] -> Forall opt_pos_wf (dataset_poses ds) ->
  (forall p, In p (dataset_poses ds) -> p <> None) -> sortable st (dataset_poses ds) ->
  exists b, build_pos_labels st ds = Ok b.
Proof. exact build_succeeds. Qed.
Print Assumptions C44_builds_partial.

(* both conditions on the tokens are needed *)
Theorem C44_needs_tokens : forall st ds, Forall opt_pos_wf (dataset_poses ds) ->
  dataset_tokens ds = [] \/ (st <> pos_joint /\ In None (dataset_poses ds)) -> is_ok (build_pos_labels st ds) = false.
Proof. intros st ds W [H|[H1 H2]]; [exact (build_needs_tokens st ds W H)|exact (build_needs_pos st ds W H1 H2)]. Qed.
Print Assumptions C44_needs_tokens.

Example C44_case : sortable pos_joint (dataset_poses [ex_feat_doc]) /\ sortable pos_XF (dataset_poses [ex_feat_doc]) /\
  is_ok (build_pos_labels pos_UXF [ex_mixed_doc]) = true /\ is_ok (build_pos_labels pos_gran [ex_mixed_doc]) = true /\
  is_ok (build_pos_labels pos_joint [ex_feat_doc]) = true.
Proof.
  split; [|split; [|vm_compute; auto]]; intros p q Hp Hq; simpl in Hp, Hq;
    destruct Hp as [Hp|[Hp|[Hp|[]]]]; destruct Hq as [Hq|[Hq|[Hq|[]]]]; injection Hp as <-; injection Hq as <-;
    unfold comparable_pos; simpl; intuition discriminate.
Qed.

(* ------------------------------------------------------------------ *)

(* the label has max_len ids below the advertised size, and reading it gives the known symbols among the first max_len - 1 *)
Theorem C45_label : forall segment th ds segs v lemma syms m x,
  mapM (fun x => segment_lemma segment (tlemma (dt_tok x))) (dataset_tokens ds) = Ok segs ->
  build_lemma_chars segment th ds = Ok v -> segment_lemma segment lemma = Ok syms -> 0 <= m -> token_wf (dt_tok x) ->
  exists ids t, lemma_char_ids segment v m lemma = Ok ids /\ zlen ids = m /\ Forall (fun i => 0 <= i < zlen v + 4) ids /\
    interpret_chars (invert v) x ids = Ok (mkDT (dt_doc x) t) /\ same_but_lemma (dt_tok x) t /\
    tlemma t = Some (concat (filter (seen_often th (concat segs)) (firstn (Z.to_nat (m - 1)) syms))).
Proof. exact char_labels. Qed.
Print Assumptions C45_label.

(* a lemma of known characters that fits comes back; the end mark itself may be cut off *)
Theorem C45_round_trip : forall th ds segs v l m x,
  let segment := fun s => Ok (char_segment s) in
  mapM (fun x => segment_lemma segment (tlemma (dt_tok x))) (dataset_tokens ds) = Ok segs ->
  build_lemma_chars segment th ds = Ok v -> (forall c, In c l -> seen_often th (concat segs) [c] = true) ->
  zlen l + 1 <= m -> token_wf (dt_tok x) ->
  exists ids t, lemma_char_ids segment v m (Some l) = Ok ids /\ interpret_chars (invert v) x ids = Ok (mkDT (dt_doc x) t) /\
    tlemma t = Some l.
Proof. exact char_round_trip. Qed.
Print Assumptions C45_round_trip.

Theorem C45_predictions : forall segment th ds v x ids, build_lemma_chars segment th ds = Ok v -> token_wf (dt_tok x) ->
  Forall (fun i => 0 <= i < zlen v + 4) ids ->
  exists t l, interpret_chars (invert v) x ids = Ok (mkDT (dt_doc x) t) /\ same_but_lemma (dt_tok x) t /\ tlemma t = Some l.
Proof. exact char_predictions. Qed.
Print Assumptions C45_predictions.

(* the subword segmenter only removes the mark that the encoder adds in front of the token *)
Theorem C45_subword_segments : forall encode s, concat (encode s) = bpe_mark :: s -> Forall (fun w => w <> []) (encode s) ->
  exists l, bpe_segment encode s = Ok l /\ concat l = s.
Proof. exact bpe_concat. Qed.
Print Assumptions C45_subword_segments.

Definition ex_chars : dict Z :=
  match build_lemma_chars (fun s => Ok (char_segment s)) 1 [ex_feat_doc] with Ok v => v | Err _ => [] end.
Definition ex_char_ids (m : Z) (l : string) := lemma_char_ids (fun s => Ok (char_segment s)) ex_chars m (Some (of_string l)).
Definition ex_char_back (m : Z) (l : string) : option str :=
  match ex_char_ids m l with
  | Ok ids => match interpret_chars (invert ex_chars) (ex_tok_at 0) ids with Ok y => tlemma (dt_tok y) | Err _ => None end
  | Err _ => None end.
Example C45_case : zlen ex_chars = 8 /\ ex_char_ids 6 "coat" = Ok [2; 5; 9; 4; 11; 3] /\ ex_char_ids 4 "coat" = Ok [2; 5; 9; 4] /\
  ex_char_ids 8 "coax" = Ok [2; 5; 9; 4; 1; 3; 0; 0] /\
  ex_char_back 6 "coat" = Some (of_string "coat") /\ ex_char_back 5 "coat" = Some (of_string "coat") /\
  ex_char_back 4 "coat" = Some (of_string "coa") /\ ex_char_back 8 "coax" = Some (of_string "coa") /\
  bpe_segment (fun s => [[bpe_mark]; s]) (of_string "ab") = Ok [of_string "ab"].
Proof. vm_compute. repeat split. Qed.

(* ------------------------------------------------------------------ *)

(* Full statement: the label of an unseen lemma denotes no lemma, or the lemma itself. *)
Theorem C46_unseen_lemma_refuted : exists ds l2i i2l lemma x y,
  build_lemmas ds = Ok (l2i, i2l) /\ ~ In lemma (map (fun x => tlemma (dt_tok x)) (dataset_tokens ds)) /\
  interpret_lemma i2l x (lemma_label l2i lemma) = Ok y /\ tlemma (dt_tok y) <> lemma.
Proof.
  exists [ex_feat_doc]. do 2 eexists. exists (Some (of_string "fox")), (ex_tok_at 0). eexists. split; [vm_compute; reflexivity|].
  split; [simpl; intuition discriminate|]. split; [vm_compute; reflexivity|discriminate].
Qed.
Print Assumptions C46_unseen_lemma_refuted.

(* the lemmas of the training set are labelled by themselves *)
Theorem C46_seen_lemma_partial : forall ds l2i i2l x, build_lemmas ds = Ok (l2i, i2l) -> In x (dataset_tokens ds) -> token_wf (dt_tok x) ->
  let i := lemma_label l2i (tlemma (dt_tok x)) in
  0 <= i < zlen i2l /\ exists t, interpret_lemma i2l x i = Ok (mkDT (dt_doc x) t) /\ same_but_lemma (dt_tok x) t /\
    tlemma t = tlemma (dt_tok x).
Proof. exact lemma_known. Qed.
Print Assumptions C46_seen_lemma_partial.

(* every unseen lemma gets label 1, which belongs to another lemma as soon as two lemmas were seen *)
Theorem C46_unseen_lemma_label : forall ds l2i i2l lemma, build_lemmas ds = Ok (l2i, i2l) ->
  ~ In lemma (map (fun x => tlemma (dt_tok x)) (dataset_tokens ds)) ->
  lemma_label l2i lemma = 1 /\ forall l, nth_error i2l 1 = Some l -> l <> lemma.
Proof. exact lemma_unseen. Qed.
Print Assumptions C46_unseen_lemma_label.

Example C46_case : match build_lemmas [ex_feat_doc] with
  | Ok (l2i, i2l) => i2l = map (fun s => Some (of_string s)) ["dog"; "cat"; "see"]%string /\
      map (fun l => lemma_label l2i (Some (of_string l))) ["dog"; "cat"; "see"; "fox"]%string = [0; 1; 2; 1]
  | Err _ => False end.
Proof. vm_compute. auto. Qed.

(* ------------------------------------------------------------------ *)

Theorem C52_embedding_rows : forall V (to_float : str -> result V) zero first lines w2i height size rows, 2 <= first ->
  build_embeddings V to_float zero first lines = Ok (w2i, (height, size), rows) ->
  (forall w, dict_get w2i w <> None <-> exists line, In line (vector_lines lines) /\ hd_error (split_ws line) = Some w) /\
  (forall w i, dict_get w2i w = Some i -> first <= i < height) /\
  (forall w1 w2 i, dict_get w2i w1 = Some i -> dict_get w2i w2 = Some i -> w1 = w2) /\
  (lines = [] -> rows = Err EType) /\
  (lines <> [] -> exists n vs, size = Some n /\ rows = Ok ((Some 0, repeat zero (Z.to_nat n)) :: vs) /\ zlen vs = height - first /\
     (forall r vec, In (r, vec) vs -> zlen vec = n) /\
     (forall r vec, In (r, vec) vs <-> exists w i, r = Some i /\ dict_get w2i w = Some i /\ last_vector to_float lines w vec)).
Proof. exact embeddings_spec. Qed.
Print Assumptions C52_embedding_rows.

(* a file of vectors of one width is read; width 1 is excluded because its first line looks like a header *)
Theorem C52_reads : forall V (to_float : str -> result V) lines n,
  (forall line, In line lines -> exists w vec, vector_line to_float line w vec /\ zlen vec = n) -> n <> 1 ->
  exists r, read_embeddings V to_float lines = Ok r.
Proof. exact read_uniform. Qed.
Print Assumptions C52_reads.

Definition ex_file : list str := map of_string ["3 2"; "the 1 2"; "cat 3 4"; "the 5 6"]%string.
Example C52_case :
  build_embeddings Z parse_int 0 2 ex_file =
  Ok ([(of_string "the", 2); (of_string "cat", 3)], (4, Some 2), Ok [(Some 0, [0; 0]); (Some 2, [5; 6]); (Some 3, [3; 4])]) /\
  read_embeddings Z parse_int (map of_string ["the 1 2 3"; "cat 3 4"]%string) = Err EValue /\
  build_embeddings Z parse_int 0 4 [] = Ok ([], (4, None), Err EType).
Proof. vm_compute. auto. Qed.

(* ------------------------------------------------------------------ *)

Theorem C53_subword_ids : forall segment th ds segs v text ids,
  mapM (fun x => segment (dt_text x)) (dataset_tokens ds) = Ok segs -> build_subwords segment th ds = Ok v ->
  subword_ids segment v text = Ok ids ->
  exists syms mid, segment text = Ok syms /\ ids = START :: mid ++ [END] /\ Forall (fun i => 0 <= i < zlen v + 4) ids /\
    Forall2 (fun s i => if seen_often th (concat segs) s then 4 <= i else i = OOV) syms mid /\
    forall s t i, seen_often th (concat segs) s = true -> seen_often th (concat segs) t = true ->
      In (s, i) (combine syms mid) -> In (t, i) (combine syms mid) -> s = t.
Proof. exact subword_spec. Qed.
Print Assumptions C53_subword_ids.

Theorem C53_trainable_ids : forall (lower : str -> str) th ds (lc : bool) (text : str),
  let v := build_trainable th ds in let w := if lc then lower text else text in
  0 <= word_id lower v lc text < zlen v + 2 /\
  (seen_often th (text_chars ds) w = true -> 2 <= word_id lower v lc text) /\
  (seen_often th (text_chars ds) w = false -> word_id lower v lc text = OOV).
Proof. exact trainable_spec. Qed.
Print Assumptions C53_trainable_ids.

(* the vocabulary of the trainable embeddings has single characters only: every longer word is unknown *)
Theorem C53_trainable_words_unknown : forall (lower : str -> str) th ds (lc : bool) (text : str),
  length (if lc then lower text else text) <> 1%nat -> word_id lower (build_trainable th ds) lc text = OOV.
Proof. exact trainable_words_unknown. Qed.
Print Assumptions C53_trainable_words_unknown.

Example C53_case :
  let segment := fun s => Ok (char_segment s) in
  match build_subwords segment 2 [ex_feat_doc] with
  | Ok v => dict_keys v = map of_string ["a"; "s"]%string /\ subword_ids segment v (of_string "cats") = Ok [2; 1; 4; 1; 5; 3]
  | Err _ => False end /\
  word_id ascii_lower (build_trainable 1 [ex_feat_doc]) true (of_string "saw") = 1 /\
  word_id ascii_lower (build_trainable 1 [ex_feat_doc]) true (of_string "A") = 3.
Proof. vm_compute. auto. Qed.
