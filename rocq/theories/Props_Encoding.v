(* Properties C125-C128: the files behind the reader, the writer and the evaluation script. *)
From Coq Require Import String Ascii ZArith NArith Bool Lia List.
From Verif Require Import Base BaseFacts Model_Datamodel Model_Conllu Model_UDEval Spec_Datamodel Spec_Conllu Props_Datamodel
  Proofs_Datamodel Proofs_Conllu6 Proofs_Conllu10 Props_Conllu Spec_Processors Proofs_Processors
  Model_Encoding Spec_Encoding Proofs_Encoding Proofs_Encoding2 Proofs_Encoding4.
Import ListNotations.
Open Scope Z_scope.

(* ---- material for the concrete cases: a sentence of two words, the second lemma contains the character x ---- *)

Definition ex_odd_text (x : N) : str :=
  ex_line ["1"; "Dogs"; "dog"; "N"; "_"; "A=1"; "2"; "d"; "_"; "_"]%string ++
  join [chTAB] [of_string "2"; of_string "run"; [114; x; 110]%N; of_string "V"; of_string "_"; of_string "_"; of_string "0"; of_string "r"; of_string "_"; of_string "_"] ++ [chNL] ++
  ex_blank.
Definition ex_odd (x : N) : document :=
  match read_str 10 default_columns (ex_odd_text x) with Ok ([d], None) => d | _ => mkDoc [] [] [] end.
Definition ex_cr : document := Eval vm_compute in ex_odd 13.
Definition ex_lone : document := Eval vm_compute in ex_odd 55357.
Definition ex_greek : document := Eval vm_compute in ex_odd 955.

Definition ex_odd_groups (d : document) : list (list (group token)) :=
  map (fun s => regroup [] (tokens_of (dtokens d) s)) (dsents d).
Lemma ex_odd_groups_ok d : sentence_groups d (ex_odd_groups d).
Proof. unfold ex_odd_groups, sentence_groups. induction (dsents d); constructor; auto. apply regroup_grouped. Qed.

Ltac odd_normal x d :=
  apply (C20_reader_documents 10 default_columns (ex_odd_text x) [d] None);
  [ repeat (apply Forall_cons; [left; simpl; auto 10|]); constructor
  | vm_compute; reflexivity
  | left; reflexivity
  | intros gss G; rewrite (sentence_groups_fun _ _ _ G (ex_odd_groups_ok d)); constructor
  | intros t H; unfold d in H; cbn [dtokens In] in H; repeat (destruct H as [<-|H]; [vm_compute; reflexivity|]); destruct H
  | intros t c s H E; unfold d in H; cbn [dtokens In] in H;
    repeat (destruct H as [<-|H]; [vm_compute in E; injection E as <- <-; reflexivity|]); destruct H
  | intros t H; unfold d in H; cbn [dtokens In] in H; repeat (destruct H as [<-|H]; [eexists; (split; [reflexivity|lia])|]); destruct H ].

Lemma ex_cr_normal : constructed ex_cr /\ reader_normal ex_cr.
Proof. odd_normal 13%N ex_cr. Qed.
Lemma ex_lone_normal : constructed ex_lone /\ reader_normal ex_lone.
Proof. odd_normal 55357%N ex_lone. Qed.
Lemma ex_greek_normal : constructed ex_greek /\ reader_normal ex_greek.
Proof. odd_normal 955%N ex_greek. Qed.

(* ------------------------------------------------------------------ *)
(* C125  A document written to a file is read from the file as it is read from the string.
   Full statement: the theorems C20_round_trip and C20_round_trip_many with write_to_file and read_bytes in place of
   write_str and read_str. *)

(* a carriage return inside a field survives the string and breaks the file: it ends a line when the file is read *)
Theorem C125_carriage_return_refuted : exists d out d' bytes, constructed d /\ reader_normal d /\
  write_str default_columns [d] = Ok out /\ read_str 10 default_columns out = Ok ([d'], None) /\ same_document d d' /\
  write_to_file [] default_columns [d] = (bytes, None) /\ read_bytes 10 default_columns bytes = Ok ([], Some EIndex).
Proof.
  destruct (C20_round_trip default_columns ex_cr 10) as (out & d' & W & R & S);
    [repeat (apply Forall_cons; [left; simpl; auto 10|]); constructor|apply ex_cr_normal|apply ex_cr_normal|vm_compute; discriminate|].
  exists ex_cr, out, d'. eexists. split; [apply ex_cr_normal|]. split; [apply ex_cr_normal|]. split; [exact W|]. split; [exact R|]. split; [exact S|].
  split; vm_compute; reflexivity.
Qed.
Print Assumptions C125_carriage_return_refuted.

(* a lone surrogate can be written to a string but not to a file *)
Theorem C125_surrogate_refuted : exists d out d' bytes, constructed d /\ reader_normal d /\
  write_str default_columns [d] = Ok out /\ read_str 10 default_columns out = Ok ([d'], None) /\ same_document d d' /\
  write_to_file [] default_columns [d] = (bytes, Some EValue).
Proof.
  destruct (C20_round_trip default_columns ex_lone 10) as (out & d' & W & R & S);
    [repeat (apply Forall_cons; [left; simpl; auto 10|]); constructor|apply ex_lone_normal|apply ex_lone_normal|vm_compute; discriminate|].
  exists ex_lone, out, d'. eexists. split; [apply ex_lone_normal|]. split; [apply ex_lone_normal|]. split; [exact W|]. split; [exact R|]. split; [exact S|].
  vm_compute; reflexivity.
Qed.
Print Assumptions C125_surrogate_refuted.

(* What is missing from the full statement: no character of the documents is a surrogate or a carriage return. *)
Theorem C125_round_trip_partial : forall old cols d k,
  Forall (wants cols) [2; 3; 4; 5; 7] -> constructed d -> reader_normal d -> zlen (dsents d) <= k ->
  chars_of scalar d -> chars_of not_cr d ->
  exists bytes d', write_to_file old cols [d] = (bytes, None) /\ read_bytes k cols bytes = Ok ([d'], None) /\ same_document d d'.
Proof.
  intros old cols d k F C N K S R. destruct (C20_round_trip cols d k F C N K) as (out & d' & W & Rd & Sm).
  destruct (file_like_string old cols [d] out) as (bytes & W' & _ & R' & _); auto using constructed_inv.
  exists bytes, d'. rewrite R'. auto.
Qed.
Print Assumptions C125_round_trip_partial.

Theorem C125_round_trip_many_partial : forall old cols ds k,
  Forall (wants cols) [2; 3; 4; 5; 7] -> Forall constructed ds -> Forall reader_normal ds -> 0 < k ->
  Forall (chars_of scalar) ds -> Forall (chars_of not_cr) ds ->
  exists bytes ds' ds'', write_to_file old cols ds = (bytes, None) /\ read_bytes k cols bytes = Ok (ds', None) /\
    Forall2 same_document ds ds'' /\ concat (map document_views ds') = concat (map document_views ds'') /\
    concat (map dtext ds') = concat (map dtext ds).
Proof.
  intros old cols ds k F C N K S R. destruct (C20_round_trip_many cols ds k F C N K) as (out & ds' & ds'' & W & Rd & H).
  destruct (file_like_string old cols ds out) as (bytes & W' & _ & R' & _); auto.
  { eapply Forall_impl; [|exact C]. exact constructed_inv. }
  exists bytes, ds', ds''. rewrite R'. auto.
Qed.
Print Assumptions C125_round_trip_many_partial.

(* the codec: what is encoded is decoded to the same characters, only those texts can be encoded, and a file that can be
   decoded holds the encoding of its text and of no other *)
Theorem C125_codec_partial : forall s bytes,
  (encode s = Ok bytes <-> decode bytes = Ok s) /\ (Forall scalar s <-> exists b, encode s = Ok b) /\
  (~ Forall scalar s -> encode s = Err EValue).
Proof.
  intros s bytes. split; [split; [apply decode_encode|apply encode_decode]|]. split; [apply encode_scalar|apply not_scalar_err].
Qed.
Print Assumptions C125_codec_partial.

Example C125_case : exists bytes d', write_to_file [1; 2; 3]%N default_columns [ex_greek] = (bytes, None) /\
  read_bytes 10 default_columns bytes = Ok ([d'], None) /\ same_document ex_greek d'.
Proof.
  apply C125_round_trip_partial; [repeat (apply Forall_cons; [left; simpl; auto 10|]); constructor|apply ex_greek_normal|apply ex_greek_normal|vm_compute; discriminate| |].
  - assert (X : forall s, forallb (fun c => (c <? 55296)%N) s = true -> Forall scalar s).
    { intros s H. rewrite forallb_forall in H. apply Forall_forall. intros c Hc. left. apply N.ltb_lt, H, Hc. }
    constructor; [apply X; reflexivity|..]; intros t; intros; unfold ex_greek in *; cbn [dtokens In] in *;
      repeat match goal with H : _ \/ _ |- _ => destruct H as [<-|H] end; try contradiction; cbn in *;
      repeat match goal with H : Some _ = Some _ |- _ => injection H as H; subst | H : _ = Some _ |- _ => discriminate H | H : _ \/ _ |- _ => destruct H | H : (_, _) = (_, _) |- _ => injection H as <- <- end;
      cbn in *; try contradiction; try discriminate;
      repeat match goal with H : Some _ = Some _ |- _ => injection H as <- | H : _ \/ _ |- _ => destruct H | H : (_, _) = (_, _) |- _ => injection H as <- <- end;
      try contradiction; try (split; apply X; reflexivity); try (apply X; reflexivity).
  - assert (X : forall s, forallb (fun c => negb (c =? 13)%N) s = true -> Forall not_cr s).
    { intros s H. rewrite forallb_forall in H. apply Forall_forall. intros c Hc E. apply H in Hc. subst c. discriminate. }
    constructor; [apply X; reflexivity|..]; intros t; intros; unfold ex_greek in *; cbn [dtokens In] in *;
      repeat match goal with H : _ \/ _ |- _ => destruct H as [<-|H] end; try contradiction; cbn in *;
      repeat match goal with H : Some _ = Some _ |- _ => injection H as H; subst | H : _ = Some _ |- _ => discriminate H | H : _ \/ _ |- _ => destruct H | H : (_, _) = (_, _) |- _ => injection H as <- <- end;
      cbn in *; try contradiction; try discriminate;
      repeat match goal with H : Some _ = Some _ |- _ => injection H as <- | H : _ \/ _ |- _ => destruct H | H : (_, _) = (_, _) |- _ => injection H as <- <- end;
      try contradiction; try (split; apply X; reflexivity); try (apply X; reflexivity).
Qed.

(* one, two, three and four bytes; overlong forms, surrogates and numbers that are no characters are refused *)
Example C125_codec_case :
  encode [36; 955; 8364; 128169]%N = Ok [36; 206; 187; 226; 130; 172; 240; 159; 146; 169]%N /\
  decode [36; 206; 187; 226; 130; 172; 240; 159; 146; 169]%N = Ok [36; 955; 8364; 128169]%N /\
  decode [192; 128]%N = Err EValue /\ decode [224; 128; 128]%N = Err EValue /\ decode [237; 160; 189]%N = Err EValue /\
  decode [244; 144; 128; 128]%N = Err EValue /\ decode [206]%N = Err EValue /\ decode [187]%N = Err EValue /\ decode [206; 36]%N = Err EValue.
Proof. repeat split; vm_compute; reflexivity. Qed.

(* ------------------------------------------------------------------ *)
(* C126  Documents read from files can be written to a file, which then reads as the string would. *)

Theorem C126_written : forall old cols ds,
  wants cols 5 ->
  Forall (fun d => exists k cr contents ds0 e, read_bytes k cr contents = Ok (ds0, e) /\ In d ds0) ds ->
  exists bytes text, write_to_file old cols ds = (bytes, None) /\ write_str cols ds = Ok text /\ decode bytes = Ok text /\
    (forall k cr, read_bytes k cr bytes = read_str k cr text) /\ load_bytes bytes = load_conllu text.
Proof.
  intros old cols ds W F.
  assert (X : Forall (fun d => built d /\ chars_of scalar d /\ chars_of not_cr d) ds).
  { eapply Forall_impl; [|exact F]. intros d (k & cr & contents & ds0 & e & R & I). exact (read_from_file_doc _ _ _ _ _ _ R I). }
  assert (I : Forall doc_inv ds) by (eapply Forall_impl; [|exact X]; intros d [B _]; exact (built_inv d B)).
  destruct (documents_written cols ds W I) as [text E].
  destruct (file_like_string old cols ds text I) as (bytes & W' & En & R & L); auto.
  { eapply Forall_impl; [|exact X]. intros d0 H0. exact (proj1 (proj2 H0)). }
  { eapply Forall_impl; [|exact X]. intros d0 H0. exact (proj2 (proj2 H0)). }
  exists bytes, text. split; [exact W'|]. split; [exact E|]. split; [apply decode_encode, En|]. auto.
Qed.
Print Assumptions C126_written.

Definition ex_bytes : list N := Eval vm_compute in match encode (ex_odd_text 955) with Ok b => b | Err _ => [] end.
Example C126_case :
  read_bytes 10 default_columns ex_bytes = Ok ([ex_greek], None) /\
  write_to_file [] default_columns [ex_greek] = (ex_bytes, None) /\
  (exists u, load_bytes ex_bytes = Ok u /\ length (u_words u) = 2%nat) /\
  (* windows line ends and an old mac file read the same *)
  read_bytes 10 default_columns (flat_map (fun b => if (b =? 10)%N then [13; 10]%N else [b]) ex_bytes) = Ok ([ex_greek], None) /\
  read_bytes 10 default_columns (flat_map (fun b => if (b =? 10)%N then [13]%N else [b]) ex_bytes) = Ok ([ex_greek], None).
Proof. split; [vm_compute; reflexivity|]. split; [vm_compute; reflexivity|]. split; [eexists; split; vm_compute; reflexivity|]. split; vm_compute; reflexivity. Qed.

(* ------------------------------------------------------------------ *)
(* C127  A write that fails leaves the file as it was.
   Full statement: write_to_file old cols ds = (bytes, Some e) -> bytes = old. *)

(* a column selection the writer cannot serve, C23, empties the file; so does a lone surrogate, after the first line *)
Theorem C127_kept_refuted : exists old d d' p, constructed d /\ constructed d' /\ old <> [] /\
  write_to_file old [2] [d] = ([], Some EType) /\
  write_to_file old default_columns [d'] = (p, Some EValue) /\ p <> old /\ decode p = Ok (ex_line ["1"; "Dogs"; "dog"; "N"; "_"; "A=1"; "2"; "d"; "_"; "_"]%string).
Proof.
  exists [65; 66]%N, ex_greek, ex_lone. eexists. split; [apply ex_greek_normal|]. split; [apply ex_lone_normal|]. split; [discriminate|].
  split; [vm_compute; reflexivity|]. split; [vm_compute; reflexivity|]. split; [discriminate|vm_compute; reflexivity].
Qed.
Print Assumptions C127_kept_refuted.

(* What is left instead: nothing of the old contents, whole lines, all of the documents before the one that failed.  Either
   the writer fails with this exception on strings too, or a line cannot be encoded and exactly the lines before it are left. *)
Theorem C127_left_partial : forall old cols ds bytes e, write_to_file old cols ds = (bytes, Some e) ->
  write_to_file [] cols ds = (bytes, Some e) /\
  exists p, decode bytes = Ok p /\ whole_lines p /\
    (exists ds1 d ds2 text1 more, ds = ds1 ++ d :: ds2 /\ write_str cols ds1 = Ok text1 /\ p = text1 ++ more /\
       (write_str cols [d] = Err e \/ e = EValue)) /\
    (write_str cols ds = Err e \/
     e = EValue /\ forall text, write_str cols ds = Ok text ->
       exists l rest, text = p ++ (l ++ [10%N]) ++ rest /\ ~ Forall scalar l).
Proof.
  intros old cols ds bytes e H. split; [exact H|]. pose proof (file_writer old cols ds) as F. rewrite H in F.
  destruct F as (p & E & W & Q & S). exists p. split; [apply decode_encode, E|]. split; [exact W|]. split; [exact Q|].
  destruct S as [S|[-> S]]; [left; exact S|right; split; [reflexivity|]]. intros text Ht.
  destruct (S text Ht) as (l & rest & -> & [l' ->] & N). exists l', rest. split; [reflexivity|]. intros X. apply N, Forall_app. split; [exact X|].
  constructor; [left; reflexivity|constructor].
Qed.
Print Assumptions C127_left_partial.

(* and a write that does not fail leaves exactly what the string writer gives *)
Theorem C127_success_partial : forall old cols ds bytes,
  write_to_file old cols ds = (bytes, None) <-> exists text, write_str cols ds = Ok text /\ decode bytes = Ok text.
Proof.
  intros old cols ds bytes. rewrite file_written. split; intros (text & H & E); exists text; split; auto using decode_encode, encode_decode.
Qed.
Print Assumptions C127_success_partial.

Example C127_case : exists bytes, write_to_file [7]%N default_columns [ex_greek; ex_lone; ex_greek] = (bytes, Some EValue) /\
  decode bytes = Ok (ex_odd_text 955 ++ ex_line ["1"; "Dogs"; "dog"; "N"; "_"; "A=1"; "2"; "d"; "_"; "_"]%string).
Proof. eexists. split; vm_compute; reflexivity. Qed.

(* ------------------------------------------------------------------ *)
(* C128  A byte order mark at the start of a file does not matter.
   Full statement: read_bytes k cols (bom ++ contents) = read_bytes k cols contents and likewise for load_bytes. *)

(* the files of the treebanks begin with a comment *)
Theorem C128_bom_refuted : exists contents d u,
  read_bytes 10 default_columns contents = Ok ([d], None) /\ read_bytes 10 default_columns (bom ++ contents) = Ok ([], Some EIndex) /\
  load_bytes contents = Ok u /\ load_bytes (bom ++ contents) = Err EUD.
Proof.
  exists (of_string "# a comment" ++ [10]%N ++ ex_bytes), ex_greek. eexists. repeat split; vm_compute; reflexivity.
Qed.
Print Assumptions C128_bom_refuted.

(* the reader: a first line that is a comment, is empty, or has no tab for another reason stops it at once *)
Theorem C128_reader_fails_partial : forall k cols contents text l, 0 < k -> decode contents = Ok text -> first_line text l -> ~ In 9%N l ->
  read_bytes k cols (bom ++ contents) = Ok ([], Some EIndex).
Proof.
  intros k cols contents text l K D FL N. unfold read_bytes, assert. rewrite (proj2 (Z.ltb_lt 0 k) K). cbn [bind]. rewrite decode_bom, D. cbn [bind rmap].
  exact (bom_index_error k cols text l K FL N).
Qed.
Print Assumptions C128_reader_fails_partial.

(* the reader does not look at the ID of an ordinary token: if the file begins with one, or with an empty node, the mark
   does no harm.  Missing from the full statement: files that begin with a comment, an empty line, a multiword token or
   a token whose ID is "_". *)
Theorem C128_reader_partial : forall k cols contents text l c, decode contents = Ok text -> first_line text l -> first_column l c ->
  l <> [] -> startswith l (of_string "#") = false -> c <> of_string "_" -> ~ In 45%N c ->
  read_bytes k cols (bom ++ contents) = read_bytes k cols contents.
Proof.
  intros k cols contents text l c D FL FC NE H U M. unfold read_bytes. rewrite decode_bom, D. destruct (assert (0 <? k)); [|reflexivity]. cbn [bind rmap].
  exact (bom_reader k cols text l c FL FC NE H U M).
Qed.
Print Assumptions C128_reader_partial.

(* the script rejects every file that begins with the mark, an empty node in the first line aside *)
Theorem C128_script_partial : forall contents text l c, decode contents = Ok text -> first_line text l -> first_column l c ->
  (~ In 46%N c \/ ~ In 9%N l) -> load_bytes (bom ++ contents) = Err EUD.
Proof.
  intros contents text l c D FL FC H. unfold load_bytes. rewrite decode_bom, D. cbn [bind rmap]. exact (bom_script text l c FL FC H).
Qed.
Print Assumptions C128_script_partial.

Example C128_case :
  read_bytes 10 default_columns (bom ++ ex_bytes) = Ok ([ex_greek], None) /\ load_bytes (bom ++ ex_bytes) = Err EUD /\
  read_bytes 10 default_columns (bom ++ ex_range "1-2" "ab" "_" ++ ex_word "1" "a" "0" "_" ++ ex_word "2" "b" "1" "_" ++ ex_blank) = Ok ([], Some EValue) /\
  read_bytes 10 default_columns (bom ++ ex_blank) = Ok ([], Some EIndex).
Proof. repeat split; vm_compute; reflexivity. Qed.
