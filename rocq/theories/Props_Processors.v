(* Properties C63-C66: processors, their context management, the stubs and the UDPipe wrapper. *)
From Coq Require Import String Ascii ZArith NArith Bool Lia Permutation Sorted List.
From Verif Require Import Base BaseFacts Model_Datamodel Spec_Datamodel Props_Datamodel Spec_Features Model_Processors Spec_Processors
  Proofs_Processors Proofs_Processors2 Proofs_Processors3.
Import ListNotations.
Open Scope Z_scope.

(* ---------------- C63 ---------------- *)

(* A complex processor is the chain of its processors, a nested one can be dissolved. *)
Theorem C63_composition :
  forall ps qs rs it,
    (forall out, chained ps it out <-> out = process (ComplexProcessor ps) it) /\
    process (ComplexProcessor (ps ++ ComplexProcessor qs :: rs)) it = process (ComplexProcessor (ps ++ qs ++ rs)) it /\
    (forall p, process p it = process (ComplexProcessor (single_processors p)) it).
Proof. exact composition. Qed.
Print Assumptions C63_composition.

(* The k-th call of next() on the result depends on the k-th document only and stops or raises exactly when it must: a
   document comes out for a document in, with the same text, words and sentences. *)
Theorem C63_one_for_one :
  forall p it k,
    (it k = Stop -> process p it k = Stop) /\
    (forall e, it k = Raise e -> process p it k = Raise e) /\
    (forall d, it k = Item d -> process p it k <> Stop) /\
    (forall d d', it k = Item d -> built d -> models_keep_words p -> process p it k = Item d' -> built d' /\ same_layout d d') /\
    (forall d, it k = Item d -> built d -> no_models p -> exists d', process p it k = Item d') /\
    (forall it', it' k = it k -> process p it' k = process p it k).
Proof. exact one_for_one. Qed.
Print Assumptions C63_one_for_one.

Definition ex_pos : option pos := Some (mkPos (Some (of_string "NOUN")) None []).
Definition ex_stream : iter document := fun k => match k with 0%nat => Item ex_doc | 1%nat => Raise EKey | _ => Stop end.
Definition ex_processor : processor := ComplexProcessor [StubTagger ex_pos; ComplexProcessor [StubParser (Some (of_string "dep"))]].
Example C63_case :
  no_models ex_processor /\
  single_processors ex_processor = [StubTagger ex_pos; StubParser (Some (of_string "dep"))] /\
  (exists d', process ex_processor ex_stream 0%nat = Item d' /\
     map thsent (dtokens d') = map Some [-1; 0; 1; 2; -1; 0] /\ map tpos (dtokens d') = repeat ex_pos 6) /\
  process ex_processor ex_stream 1%nat = Raise EKey /\ process ex_processor ex_stream 2%nat = Stop.
Proof.
  split; [repeat constructor|]. split; [reflexivity|].
  split; [eexists; split; [vm_compute; reflexivity|split; vm_compute; reflexivity]|].
  split; vm_compute; reflexivity.
Qed.

(* ---------------- C64 ---------------- *)

(* The claim fails: when the second of two processors cannot be entered the first has been entered and is never exited. *)
Theorem C64_exited_refuted :
  exists m body n, In (Entered n) (fst (run_with m body)) /\ ~ In (Exited n) (fst (run_with m body)).
Proof.
  exists (Several [Single 1 None None; Single 2 (Some EKey) None]), None, 1%nat. vm_compute. intuition discriminate.
Qed.
Print Assumptions C64_exited_refuted.

(* What is true: everything is entered in order up to the first that cannot be entered, and then nothing is exited; if all
   are entered they are exited in the same order, each once, up to the first that raises; the exception of the body is
   raised unless an __exit__ raises.  (Missing for the full claim: the exits after a failure.) *)
Theorem C64_exited_partial :
  forall m body,
    (forall pre c post, components m = pre ++ c :: post -> Forall enters pre -> ~ enters c ->
       exists e, enter c = ([], Some e) /\ run_with m body = (map (fun x => Entered (number x)) pre, Some e)) /\
    (Forall enters (components m) ->
       (forall pre c post, components m = pre ++ c :: post -> Forall exits pre -> ~ exits c ->
          exists e, exit c = ([], Some e) /\
            run_with m body = (map (fun x => Entered (number x)) (components m) ++ map (fun x => Exited (number x)) pre, Some e)) /\
       (Forall exits (components m) ->
          run_with m body = (map (fun x => Entered (number x)) (components m) ++ map (fun x => Exited (number x)) (components m), body))).
Proof. exact managed_run. Qed.
Print Assumptions C64_exited_partial.

Definition ex_managed (e x : option exn) : managed := Several [Single 1 None None; Several [Single 2 e x; Single 3 None None]; Single 4 None None].
Example C64_case :
  run_with (ex_managed None None) (Some EValue) =
    ([Entered 1; Entered 2; Entered 3; Entered 4; Exited 1; Exited 2; Exited 3; Exited 4], Some EValue) /\
  run_with (ex_managed (Some EKey) None) (Some EValue) = ([Entered 1], Some EKey) /\
  run_with (ex_managed None (Some EKey)) (Some EValue) =
    ([Entered 1; Entered 2; Entered 3; Entered 4; Exited 1], Some EKey).
Proof. vm_compute. auto. Qed.

(* ---------------- C65 ---------------- *)

(* The stub parser: a chain in every sentence, accepted by validate_syntax, everything else as before. *)
Theorem C65_parser :
  forall deprel d, built d ->
    exists d', stub_parse deprel d = Ok d' /\ built d' /\ same_layout d d' /\
      Forall2 same_morphology (dtokens d) (dtokens d') /\
      (forall t, In t (dtokens d') -> tdeprel t = deprel) /\
      (forall s i t, In s (dsents d') -> nth_error (tokens_of (dtokens d') s) i = Some t ->
         thsent t = Some (Z.of_nat i - 1) /\ thdoc t = Some (if (i =? 0)%nat then -1 else sstart s + (Z.of_nat i - 1))) /\
      new_document (dtext d') (dtokens d') (Some (dsents d')) true = Ok d'.
Proof. exact stub_parser. Qed.
Print Assumptions C65_parser.

(* The stub tagger does not always keep the syntax: the head of a token may change. *)
Theorem C65_tagger_refuted :
  exists p d d', built d /\ stub_tag p d = Ok d' /\ ~ Forall2 same_syntax (dtokens d) (dtokens d').
Proof.
  exists ex_pos.
  eexists. eexists. split; [|split].
  - exists ex_text, [ex_tok 0 1 0 None None (Some (-1)); ex_tok 2 7 0 None (Some 0) None], (Some [mkSent 0 1; mkSent 1 2]), true.
    split; [repeat constructor; unfold token_wf; simpl; auto; lia|].
    split; [repeat constructor; unfold sent_wf; simpl; lia|]. vm_compute. reflexivity.
  - vm_compute. reflexivity.
  - intros H. inversion H as [|? ? ? ? _ H']. inversion H' as [|? ? ? ? (X & _)]. discriminate.
Qed.
Print Assumptions C65_tagger_refuted.

(* What is true: only a token one of whose head indices is -1 can change, to root; if the two indices of every token agree
   about -1 the syntax is kept. *)
Theorem C65_tagger_partial :
  forall p d, built d ->
    exists d', stub_tag p d = Ok d' /\ built d' /\ same_layout d d' /\
      Forall (fun t => tpos t = p) (dtokens d') /\
      Forall2 (fun t t' => tlemma t' = Some (text_of (dtext d) t) /\ tdeprel t' = tdeprel t /\
        (same_syntax t t' \/ (thdoc t = Some (-1) \/ thsent t = Some (-1)) /\ thdoc t' = Some (-1) /\ thsent t' = Some (-1)))
        (dtokens d) (dtokens d') /\
      ((forall t, In t (dtokens d) -> minus1_agree t) -> Forall2 same_syntax (dtokens d) (dtokens d')).
Proof. exact stub_tagger. Qed.
Print Assumptions C65_tagger_partial.

(* Training: the most frequent Pos, the first seen of those; without tokens an IndexError. *)
Theorem C65_most_frequent :
  forall ds, Forall (fun t => opt_pos_wf (tpos t)) (concat (map dtokens ds)) ->
    (concat (map dtokens ds) = [] -> most_frequent_pos ds = Err EIndex) /\
    (concat (map dtokens ds) <> [] -> exists p before after,
       most_frequent_pos ds = Ok p /\ map tpos (concat (map dtokens ds)) = before ++ p :: after /\
       (forall q, In q before -> (pos_count q ds < pos_count p ds)%nat) /\
       (forall q, opt_pos_wf q -> (pos_count q ds <= pos_count p ds)%nat)).
Proof. exact most_frequent. Qed.
Print Assumptions C65_most_frequent.

Example C65_case :
  built ex_doc /\ (forall t, In t (dtokens ex_doc) -> minus1_agree t) /\
  Forall (fun t => opt_pos_wf (tpos t)) (concat (map dtokens [ex_doc; ex_doc])) /\
  most_frequent_pos [ex_doc; ex_doc] = Ok (Some (mkPos (Some (of_string "X")) None [(of_string "A", of_string "b")])) /\
  pos_count (Some (mkPos (Some (of_string "X")) None [(of_string "A", of_string "b")])) [ex_doc; ex_doc] = 12%nat /\
  (exists d', stub_tag ex_pos ex_doc = Ok d' /\
     map tlemma (dtokens d') = map (fun s => Some (of_string s)) ["I"; "do"; "n't"; "."; "We"; "go"]%string /\
     Forall2 same_syntax (dtokens ex_doc) (dtokens d')) /\
  (exists d', stub_parse None ex_doc = Ok d' /\ map thdoc (dtokens d') = map Some [-1; 0; 1; 2; -1; 4]).
Proof.
  split; [exact ex_constructed|].
  split. { vm_compute. intros t H. repeat (destruct H as [<-|H]; [vm_compute; split; intros; congruence|]). destruct H. }
  split. { vm_compute. repeat constructor; vm_compute; intuition congruence. }
  split; [vm_compute; reflexivity|]. split; [vm_compute; reflexivity|].
  split; eexists.
  - split; [vm_compute; reflexivity|]. split; [vm_compute; reflexivity|]. vm_compute. repeat constructor.
  - split; vm_compute; reflexivity.
Qed.

(* ---------------- C66 ---------------- *)

(* A model that keeps the number of words: the document keeps its layout and says what the model wrote; otherwise the
   exception comes from the model or from a features entry without "=". *)
Theorem C66_aligned :
  forall run d, built d -> keeps_words run ->
    (exists d', ud_process run d = Ok d' /\ built d' /\ same_layout d d' /\
       forall s, In s (dsents d) -> exists ws ws',
         Forall2 (describes (dtext d)) (tokens_of (dtokens d) s) ws /\ run ws = Ok ws' /\
         Forall2 (says (sstart s)) ws' (tokens_of (dtokens d') s)) \/
    (exists e s ws, ud_process run d = Err e /\ In s (dsents d) /\
       Forall2 (describes (dtext d)) (tokens_of (dtokens d) s) ws /\
       (run ws = Err e \/
        (e = EIndex /\ exists ws', run ws = Ok ws' /\ ~ Forall (fun w => readable_features (w_feats w)) ws'))).
Proof. exact ud_aligned. Qed.
Print Assumptions C66_aligned.

(* A model that changes nothing: the morphology survives, the syntax is erased. *)
Theorem C66_identity :
  forall d, built d -> Forall survivable (dtokens d) ->
    exists d', ud_process Ok d = Ok d' /\ same_layout d d' /\
      Forall2 (fun t t' => tlemma t' = tlemma t /\ upos_of t' = upos_of t /\ xpos_of t' = xpos_of t /\
        (forall k, feature_of t' k = feature_of t k) /\
        thdoc t' = None /\ thsent t' = None /\ tdeprel t' = None) (dtokens d) (dtokens d').
Proof. exact ud_identity. Qed.
Print Assumptions C66_identity.

(* Whatever a model does, adding and removing words included: the same spans and sentences, or no token at all. *)
Theorem C66_any_model :
  forall run d d', built d -> ud_process run d = Ok d' ->
    dtext d' = dtext d /\
    ((dsents d' = dsents d /\ Forall2 same_span (dtokens d) (dtokens d')) \/ (dsents d' = [] /\ dtokens d' = [])).
Proof. exact ud_any_model. Qed.
Print Assumptions C66_any_model.

(* a model that finds noun phrases with a flat tree *)
Definition ex_run (ws : ud_sentence) : result ud_sentence :=
  Ok (map (fun iw => let '(i, w) := iw in
       mkWord (w_form w) (w_form w) (of_string "NOUN") [] (of_string "A=b|C=d=e") (if i =? 0 then 0 else 1) (of_string "dep"))
     (enumerate ws)).
Example C66_case :
  keeps_words ex_run /\ Forall survivable (dtokens ex_doc) /\
  (exists d', ud_process ex_run ex_doc = Ok d' /\
     map thdoc (dtokens d') = map Some [-1; 0; 0; 0; -1; 4] /\
     map (fun t => feature_of t (of_string "C")) (dtokens d') = repeat (Some (of_string "d")) 6) /\
  (exists d', ud_process Ok ex_doc = Ok d' /\ map tpos (dtokens d') = map tpos (dtokens ex_doc)) /\
  (exists d', ud_process (fun _ => Ok []) ex_doc = Ok d' /\ dtokens d' = []) /\
  ud_process (fun ws => Ok (tl ws)) ex_doc = Err EValue.
Proof.
  split. { intros ws ws' E. injection E as <-. rewrite map_length, enumerate_len'. auto. }
  split. { vm_compute. repeat constructor; try discriminate; intros []; discriminate. }
  split; [eexists; split; [vm_compute; reflexivity|split; vm_compute; reflexivity]|].
  split; [eexists; split; [vm_compute; reflexivity|vm_compute; reflexivity]|].
  split; [eexists; split; [vm_compute; reflexivity|vm_compute; reflexivity]|].
  vm_compute. reflexivity.
Qed.
