(* Files: round trips, what can be written, the byte order mark. *)
From Coq Require Import String Ascii ZArith NArith Bool Permutation Lia List.
From Verif Require Import Base BaseFacts Model_Datamodel Model_Conllu Spec_Datamodel Spec_Conllu Proofs_Datamodel Proofs_Conllu Proofs_Conllu2 Proofs_Conllu3 Proofs_Conllu4 Proofs_Conllu5 Proofs_Conllu6 Proofs_Conllu7 Proofs_Conllu8 Proofs_Conllu9 Proofs_Conllu10
  Model_UDEval Spec_Processors Proofs_Processors Proofs_Tester5 Proofs_Goldfile2 Model_Encoding Spec_Encoding Proofs_Encoding Proofs_Encoding2 Proofs_Encoding3.
Import ListNotations.
Open Scope Z_scope.

Lemma fixed_scalar : Forall scalar fixed_chars.
Proof. repeat constructor; left; reflexivity. Qed.
Lemma fixed_not_cr : Forall not_cr fixed_chars.
Proof. repeat constructor; intros H; discriminate. Qed.

Lemma not_cr_id s : Forall not_cr s -> universal_newlines s = s.
Proof. intros F. apply newlines_id. intros I. rewrite Forall_forall in F. exact (F _ I eq_refl). Qed.

(* a file that holds a text without carriage returns reads like the text *)
Lemma file_reads k cols text bytes : encode text = Ok bytes -> Forall not_cr text -> read_bytes k cols bytes = read_str k cols text.
Proof.
  intros E N. unfold read_bytes, assert. rewrite (decode_encode _ _ E). destruct (0 <? k) eqn:K; cbn [bind].
  - unfold read_file. now rewrite (not_cr_id _ N).
  - unfold read_str, assert. now rewrite K.
Qed.

Lemma file_loads text bytes : encode text = Ok bytes -> Forall not_cr text -> load_bytes bytes = load_conllu text.
Proof. intros E N. unfold load_bytes. rewrite (decode_encode _ _ E). cbn [bind]. unfold load_conllu_file. now rewrite (not_cr_id _ N). Qed.

(* documents without surrogates and carriage returns are written to a file as to a string *)
Lemma file_like_string old cols ds text : Forall doc_inv ds -> Forall (chars_of scalar) ds -> Forall (chars_of not_cr) ds -> write_str cols ds = Ok text ->
  exists bytes, write_to_file old cols ds = (bytes, None) /\ encode text = Ok bytes /\
    (forall k cr, read_bytes k cr bytes = read_str k cr text) /\ load_bytes bytes = load_conllu text.
Proof.
  intros I S N H. pose proof (written_chars scalar fixed_scalar cols ds text I S H) as FS. pose proof (written_chars not_cr fixed_not_cr cols ds text I N H) as FN.
  apply encode_scalar in FS as [bytes E]. exists bytes. split; [apply file_written; eauto|]. split; [exact E|]. split.
  - intros. apply file_reads; auto.
  - apply file_loads; auto.
Qed.

(* ---- documents read from files ---- *)

Lemma read_from_file_doc k cols contents ds e d : read_bytes k cols contents = Ok (ds, e) -> In d ds -> built d /\ chars_of scalar d /\ chars_of not_cr d.
Proof.
  intros R I. unfold read_bytes in R. apply bind_ok_iff in R as (u0 & _ & R). apply bind_ok_iff in R as (text & D & R). unfold read_file in R.
  split; [exact (reader_constructed _ _ _ _ _ _ R I)|]. split.
  - eapply read_chars_of; [|apply newlines_chars; [|eapply decode_scalar; exact D]|exact R|exact I]; left; reflexivity.
  - refine (read_chars_of not_cr _ _ _ _ _ _ _ _ R I); [intros H; discriminate|]. apply Forall_forall. intros x Hx ->. exact (newlines_no_cr text Hx).
Qed.

Lemma documents_written cols ds : wants cols 5 -> Forall doc_inv ds -> exists text, write_str cols ds = Ok text.
Proof.
  intros W F. induction F as [|d ds I F IH]; [exists []; reflexivity|]. destruct IH as [text IH].
  destruct (write_outcome cols d I) as [(out & H & _)|[_ H]].
  - unfold write_str in *. cbn [mapM] in H |- *. destruct (write_document (normal_columns cols) d); [|discriminate]. cbn [bind].
    destruct (mapM (write_document (normal_columns cols)) ds); [|discriminate]. eexists. reflexivity.
  - exfalso. apply H. left. apply chosen_wants. exact W.
Qed.

(* ---- the first line ---- *)

Lemma newlines_prefix p s : ~ In chCR p -> universal_newlines (p ++ s) = p ++ universal_newlines s.
Proof.
  induction p as [|c p IH]; intros H; cbn [app]; auto. cbn [universal_newlines]. destruct (N.eqb_spec c chCR) as [-> |_]; [destruct H; now left|].
  f_equal. apply IH. intros I. apply H. now right.
Qed.

Lemma file_lines_last l : ~ In chNL l -> l <> [] -> file_lines l = [l].
Proof.
  induction l as [|c l IH]; intros H N; [congruence|]. cbn [file_lines]. destruct (N.eqb_spec c chNL) as [-> |_]; [destruct H; now left|].
  destruct l as [|c2 l]; [reflexivity|]. rewrite IH; [reflexivity|intros I; apply H; now right|discriminate].
Qed.

Lemma first_raw text l : first_line text l -> exists tail rest, (tail = [] \/ tail = [chNL]) /\
  forall p, ~ In chNL p -> ~ In chCR p -> p ++ l <> [] -> file_lines (universal_newlines (p ++ text)) = ((p ++ l) ++ tail) :: rest.
Proof.
  intros (N & C & H).
  assert (X : text = l \/ exists r, universal_newlines text = l ++ chNL :: r).
  { destruct H as [H|(rest & [-> | ->])]; [now left|right|right]; rewrite newlines_prefix by exact C; cbn [universal_newlines].
    - eexists. reflexivity.
    - change (13 =? chCR)%N with true. cbv iota. destruct rest as [|c rest]; [eexists; reflexivity|]. destruct (c =? chNL)%N; eexists; reflexivity. }
  destruct X as [-> |(r & X)].
  - exists [], []. split; [now left|]. intros p Np Cp NE. rewrite app_nil_r. rewrite newlines_id.
    + apply file_lines_last; auto. intros I. apply in_app_or in I. tauto.
    + intros I. apply in_app_or in I. tauto.
  - exists [chNL], (file_lines r). split; [now right|]. intros p Np Cp NE. rewrite newlines_prefix by exact Cp. rewrite X, app_assoc.
    rewrite file_lines_snoc. rewrite file_lines_one; [reflexivity|]. intros I. apply in_app_or in I. tauto.
Qed.

Lemma drop_crlf_none s : ~ In chNL s -> ~ In chCR s -> drop_while is_crlf s = s.
Proof.
  destruct s as [|c s]; intros N C; auto. cbn [drop_while]. unfold is_crlf. destruct (N.eqb_spec c chCR) as [-> |_]; [destruct C; now left|].
  destruct (N.eqb_spec c chNL) as [-> |_]; [destruct N; now left|]. reflexivity.
Qed.

Lemma rstrip_first l tail : ~ In chNL l -> ~ In chCR l -> (tail = [] \/ tail = [chNL]) -> rstrip_crlf (l ++ tail) = l.
Proof.
  intros N C T. unfold rstrip_crlf. assert (E : drop_while is_crlf (rev (l ++ tail)) = rev l); [|rewrite E; apply rev_involutive].
  destruct T as [-> | ->]; [rewrite app_nil_r|rewrite rev_app_distr; cbn [rev app drop_while is_crlf]; change (is_crlf chNL) with true; cbv iota];
    apply drop_crlf_none; rewrite <- in_rev; auto.
Qed.

Lemma strip_first l tail : ~ In chNL l -> ~ In chCR l -> (tail = [] \/ tail = [chNL]) -> strip_crlf (l ++ tail) = l.
Proof.
  intros N C T. unfold strip_crlf. destruct l as [|c l].
  - destruct T as [-> | ->]; reflexivity.
  - assert (E : drop_while is_crlf ((c :: l) ++ tail) = (c :: l) ++ tail); [|rewrite E; exact (rstrip_first _ _ N C T)].
    cbn [app drop_while]. unfold is_crlf. destruct (N.eqb_spec c chCR) as [-> |_]; [destruct C; now left|].
    destruct (N.eqb_spec c chNL) as [-> |_]; [destruct N; now left|]. reflexivity.
Qed.

Lemma bom_clean : ~ In chNL [bom_char] /\ ~ In chCR [bom_char].
Proof. split; intros [H|[]]; discriminate. Qed.

Lemma bom_line l : ~ In chNL l -> ~ In chCR l -> ~ In chNL (bom_char :: l) /\ ~ In chCR (bom_char :: l).
Proof. intros N C. split; intros [H|H]; auto; discriminate. Qed.

Lemma split_cons c sep s : c <> sep -> exists p ps, split sep s = p :: ps /\ split sep (c :: s) = (c :: p) :: ps.
Proof.
  intros H. cbn [split]. destruct (N.eqb_spec c sep); [congruence|]. destruct (split sep s) as [|p ps] eqn:E.
  - exfalso. destruct s as [|d s]; cbn [split] in E; [discriminate|]. destruct (d =? sep)%N; [discriminate|]. destruct (split sep s); discriminate.
  - eauto.
Qed.

Lemma first_column_split l c : first_column l c -> exists ps, split chTAB l = c :: ps.
Proof.
  intros [N H]. assert (X : forall s, ~ In chTAB c -> exists ps, split chTAB (c ++ chTAB :: s) = c :: ps).
  { clear N H. induction c as [|x c IH]; intros s N; cbn [app split].
    - eexists. reflexivity.
    - destruct (N.eqb_spec x chTAB) as [-> |_]; [destruct N; now left|]. destruct (IH s) as [ps ->]; [intros I; apply N; now right|]. eauto. }
  destruct H as [-> |(rest & ->)]; [|apply X, N]. clear X. induction c as [|x c IH]; cbn [split]; [eauto|].
  destruct (N.eqb_spec x chTAB) as [-> |_]; [destruct N; now left|]. destruct IH as [ps ->]; [intros I; apply N; now right|]. eauto.
Qed.

(* ---- the reader ---- *)

Lemma py_index_other {A} (a b : A) l i : 1 <= i -> py_index (a :: l) i = py_index (b :: l) i.
Proof.
  intros H. unfold py_index. replace (i <? 0) with false by (symmetry; apply Z.ltb_ge; lia). rewrite !(proj2 (Z.ltb_ge i 0)) by lia.
  replace (Z.to_nat i) with (S (Z.to_nat (i - 1))) by lia. reflexivity.
Qed.

Lemma column_other cols a b l i : 1 <= i -> column_of cols i (a :: l) = column_of cols i (b :: l).
Proof. intros H. unfold column_of. destruct (has_col cols i); auto using py_index_other. Qed.

Definition with_id (r : irow) (i : option str) : irow := mkRow i (i_text r) (i_pos r) (i_lemma r) (i_head r) (i_deprel r) (i_space r).

Lemma parse_line_id cols a b l : str_eqb a underscore = false -> str_eqb b underscore = false ->
  (forall e, parse_line cols (a :: l) = Err e <-> parse_line cols (b :: l) = Err e) /\
  (forall r, parse_line cols (a :: l) = Ok r -> i_id r = Some a /\ parse_line cols (b :: l) = Ok (with_id r (Some b))).
Proof.
  intros A B. unfold parse_line. cbn [token_repr map]. rewrite A, B.
  set (x := map _ l).
  assert (IA : py_index (Some a :: x) cID = Ok (Some a)) by reflexivity. assert (IB : py_index (Some b :: x) cID = Ok (Some b)) by reflexivity.
  rewrite IA, IB. cbn [bind]. rewrite (py_index_other (Some a) (Some b) x cFORM), (py_index_other (Some a) (Some b) x cMISC) by (unfold cFORM, cMISC; lia).
  unfold pos_of. rewrite !(column_other cols (Some a) (Some b) x) by (unfold cUPOS, cXPOS, cFEATS, cLEMMA, cHEAD, cDEPREL; lia).
  set (y := Some b :: x).
  assert (G : forall (T : Type) (q : result T) (f g : T -> result irow),
    (forall t, (forall e, f t = Err e <-> g t = Err e) /\ (forall r, f t = Ok r -> i_id r = Some a /\ g t = Ok (with_id r (Some b)))) ->
    (forall e, bind q f = Err e <-> bind q g = Err e) /\ (forall r, bind q f = Ok r -> i_id r = Some a /\ bind q g = Ok (with_id r (Some b)))).
  { intros T [t|e] f g H; cbn [bind]; auto. split; [tauto|]. discriminate. }
  repeat (apply G; intros ?). split; [split; discriminate|]. intros r H. injection H as <-. split; reflexivity.
Qed.

Lemma mem_cons c x s : c <> x -> mem_char x (c :: s) = mem_char x s.
Proof. intros H. unfold mem_char. cbn [existsb]. destruct (N.eqb_spec x c); [congruence|]. reflexivity. Qed.

Lemma mem_in x s : mem_char x s = true <-> In x s.
Proof.
  unfold mem_char. rewrite existsb_exists. split; [intros (y & H & E); apply N.eqb_eq in E; subst; exact H|]. intros H. exists x. split; auto. apply N.eqb_refl.
Qed.

Lemma add_token_bom cols l c : first_column l c -> c <> underscore -> ~ In 45%N c ->
  add_token cols initial_state (bom_char :: l) = add_token cols initial_state l.
Proof.
  intros F U D. destruct (first_column_split l c F) as [ps E]. unfold add_token.
  destruct (split_cons bom_char chTAB l) as (p & ps' & E1 & E2); [discriminate|]. rewrite E in E1. injection E1 as <- <-. rewrite E, E2.
  assert (A : str_eqb c underscore = false) by (apply str_eqb_neq; exact U).
  assert (B : str_eqb (bom_char :: c) underscore = false) by (apply str_eqb_neq; discriminate).
  destruct (parse_line_id cols c (bom_char :: c) ps A B) as [P1 P2].
  destruct (parse_line cols (c :: ps)) as [r|e] eqn:EP.
  - destruct (P2 r eq_refl) as [I Q]. unfold str, char in *. rewrite Q. cbn [bind]. unfold process_row. cbn [initial_state r_mw with_id i_id i_text i_space i_pos i_lemma i_deprel i_head]. rewrite I.
    rewrite !mem_cons by discriminate. destruct (mem_char (ch "-"%char) c) eqn:M; [|reflexivity]. apply mem_in in M. contradiction.
  - pose proof (proj1 (P1 e) eq_refl) as Q. unfold str, char in *. rewrite Q. reflexivity.
Qed.

Lemma bom_reader k cols text l c : first_line text l -> first_column l c -> l <> [] -> startswith l (of_string "#") = false -> c <> underscore -> ~ In 45%N c ->
  read_file k cols (bom_char :: text) = read_file k cols text.
Proof.
  intros FL FC NE H U D. unfold read_file, read_str. unfold assert. destruct (0 <? k); [|reflexivity]. cbn [bind]. f_equal.
  pose proof FL as (N & C & _). destruct (first_raw text l FL) as (tail & rest & T & X).
  pose proof (X [] (fun x => x) (fun x => x) NE) as E0. cbn [app] in E0.
  pose proof (X [bom_char] (proj1 bom_clean) (proj2 bom_clean) ltac:(discriminate)) as E1. cbn [app] in E1. rewrite E0, E1.
  assert (E2 : strip_crlf ((bom_char :: l) ++ tail) = bom_char :: l) by (apply strip_first; [apply bom_line; auto|apply bom_line; auto|exact T]).
  cbn [read_loop app] in *. rewrite E2, (strip_first l tail N C T), H. change (startswith (bom_char :: l) (of_string "#")) with false. cbv iota.
  rewrite (add_token_bom _ l c FC U D). destruct l; [congruence|]. reflexivity.
Qed.

Lemma bom_index_error k cols text l : 0 < k -> first_line text l -> ~ In chTAB l -> read_file k cols (bom_char :: text) = Ok ([], Some EIndex).
Proof.
  intros K FL NT. unfold read_file, read_str, assert. rewrite (proj2 (Z.ltb_lt 0 k) K). cbn [bind]. f_equal.
  pose proof FL as (N & C & _). destruct (first_raw text l FL) as (tail & rest & T & X).
  pose proof (X [bom_char] (proj1 bom_clean) (proj2 bom_clean) ltac:(discriminate)) as E1. cbn [app] in E1. rewrite E1.
  assert (E2 : strip_crlf ((bom_char :: l) ++ tail) = bom_char :: l) by (apply strip_first; [apply bom_line; auto|apply bom_line; auto|exact T]).
  cbn [read_loop app] in *. rewrite E2. change (startswith (bom_char :: l) (of_string "#")) with false. cbv iota.
  unfold add_token. assert (S : split chTAB (bom_char :: l) = [bom_char :: l]).
  { assert (NB : ~ In chTAB (bom_char :: l)) by (intros [I|I]; [discriminate|auto]). revert NB. generalize (bom_char :: l). clear.
    induction l as [|x s IH]; intros N; [reflexivity|]. cbn [split]. destruct (N.eqb_spec x chTAB) as [-> |_]; [destruct N; now left|]. rewrite IH; [reflexivity|]. intros I; apply N; now right. }
  rewrite S. unfold parse_line. cbn [token_repr map]. destruct (str_eqb (bom_char :: l) underscore); reflexivity.
Qed.

(* ---- the evaluation script ---- *)

Lemma parse_int_bom s : parse_int (bom_char :: s) = Err EValue.
Proof.
  unfold parse_int, strip, lstrip. cbn [drop_while]. change (isspace_char bom_char) with false. cbv iota. unfold rstrip. cbn [rev].
  assert (X : exists r, rev (drop_while isspace_char (rev s ++ [bom_char])) = bom_char :: r).
  { generalize (rev s) as t. induction t as [|c t IH]; cbn [app drop_while].
    - exists []. reflexivity.
    - destruct (isspace_char c); [exact IH|]. cbn [rev]. rewrite rev_app_distr. cbn [rev app]. eexists. reflexivity. }
  destruct X as [r X]. unfold lstrip. rewrite X. change (bom_char =? 45)%N with false. change (bom_char =? 43)%N with false. cbv iota.
  unfold parse_nat_str. cbn [parse_digits]. change (bom_char =? 95)%N with false. cbv iota. destruct (parse_digits true r); reflexivity.
Qed.

Lemma bom_script text l c : first_line text l -> first_column l c -> (~ In 46%N c \/ ~ In chTAB l) -> load_conllu_file (bom_char :: text) = Err EUD.
Proof.
  intros FL FC D. unfold load_conllu_file, load_conllu.
  pose proof FL as (N & C & _). destruct (first_raw text l FL) as (tail & rest & T & X).
  pose proof (X [bom_char] (proj1 bom_clean) (proj2 bom_clean) ltac:(discriminate)) as E1. cbn [app] in E1. rewrite E1.
  assert (E2 : rstrip_crlf ((bom_char :: l) ++ tail) = bom_char :: l) by (apply rstrip_first; [apply bom_line; auto|apply bom_line; auto|exact T]).
  cbn [foldM app] in *. enough (Y : load_line initial_lstate (bom_char :: l ++ tail) = Err EUD) by (rewrite Y; reflexivity).
  unfold load_line. rewrite E2. change (startswith (bom_char :: l) (of_string "#")) with false. cbn [initial_lstate l_pending l_start l_ud u_words u_chars u_tokens u_sents l_index].
  change (0 <? 0) with false. cbv iota. unfold load_row.
  destruct (first_column_split l c FC) as [ps E].
  destruct (split_cons bom_char chTAB l) as (p & ps' & E3 & E4); [discriminate|]. rewrite E in E3. injection E3 as <- <-. rewrite E4.
  unfold raise_if. match goal with |- context [negb ?b] => destruct (negb b) eqn:L10 end; [reflexivity|]. cbn [bind nth].
  assert (D' : ~ In 46%N c).
  { destruct D as [D|D]; auto. exfalso. assert (S : split chTAB l = [l]).
    { revert D. clear. induction l as [|x s IH]; intros N; [reflexivity|]. cbn [split]. destruct (N.eqb_spec x chTAB) as [-> |_]; [destruct N; now left|]. rewrite IH; [reflexivity|]. intros I; apply N; now right. }
    rewrite S in E. injection E as <- <-. discriminate. }
  rewrite mem_cons by discriminate. destruct (mem_char (ch "."%char) c) eqn:M; [apply mem_in in M; contradiction|].
  destruct (zlen (remove_spaces (nth 0 ps [])) =? 0); [destruct ps; reflexivity|].
  rewrite mem_cons by discriminate. destruct (mem_char (ch "-"%char) c).
  - unfold parse_range_ud. destruct (split_cons bom_char (ch "-"%char) c) as (q & qs & _ & ->); [discriminate|].
    destruct qs as [|q2 [|q3 qs]]; try reflexivity. unfold parse_int_ud. rewrite parse_int_bom. reflexivity.
  - unfold parse_int_ud. rewrite parse_int_bom. reflexivity.
Qed.
