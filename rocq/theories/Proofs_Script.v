(* The file of weights. *)
From Coq Require Import String Ascii ZArith NArith QArith Bool Lia List.
From Verif Require Import Base BaseFacts Model_Datamodel Model_Conllu Spec_Datamodel Spec_Conllu Proofs_Conllu3
  Model_UDEval Spec_UDEval Proofs_UDEval4 Model_Script Spec_Script.
Import ListNotations.
Open Scope Z_scope.

(* ---- split() ---- *)

Lemma split_words_blanks g s : blanks g -> split_words_from [] (g ++ s) = split_words_from [] s.
Proof. induction 1 as [|c g H _ IH]; auto. cbn [app split_words_from]. now rewrite H. Qed.

Lemma split_words_solid a s : Forall (fun c => isspace_char c = false) a ->
  forall cur, split_words_from cur (a ++ s) = split_words_from (rev a ++ cur) s.
Proof.
  induction 1 as [|c a H _ IH]; intro cur; auto. cbn [app split_words_from]. rewrite H, IH. cbn [rev]. now rewrite <- app_assoc.
Qed.

Lemma rev_nonnil {A} (l : list A) : l <> [] -> rev l <> [].
Proof. intros H E. apply H. rewrite <- (rev_involutive l), E. reflexivity. Qed.

Lemma split_words_piece a s : solid a -> (s = [] \/ exists c r, s = c :: r /\ isspace_char c = true) ->
  split_words_from [] (a ++ s) = a :: split_words_from [] s.
Proof.
  intros [N F] H. rewrite split_words_solid, app_nil_r by auto. pose proof (rev_nonnil _ N) as R.
  destruct H as [->|(c & r & -> & E)]; cbn [split_words_from].
  - destruct (rev a) eqn:Er; [contradiction|]. rewrite <- Er, rev_involutive. reflexivity.
  - rewrite E. destruct (rev a) eqn:Er; [contradiction|]. rewrite <- Er, rev_involutive. reflexivity.
Qed.

Lemma first_piece s : blanks s \/
  exists g a rest, s = g ++ a ++ rest /\ blanks g /\ solid a /\ (rest = [] \/ exists c r, rest = c :: r /\ isspace_char c = true).
Proof.
  induction s as [|c s [B|(g & a & rest & -> & G & A & R)]].
  - left. constructor.
  - destruct (isspace_char c) eqn:E.
    + left. now constructor.
    + right. exists [], [c], s. split; [reflexivity|]. split; [constructor|]. split; [split; [discriminate|auto]|].
      destruct s as [|x s]; auto. inversion B; subst. right. eauto.
  - right. destruct (isspace_char c) eqn:E.
    + exists (c :: g), a, rest. split; [reflexivity|]. split; [now constructor|]. auto.
    + destruct g as [|x g].
      * exists [], (c :: a), rest. split; [reflexivity|]. split; [constructor|]. split; [|auto]. destruct A. split; [discriminate|auto].
      * inversion G; subst. exists [], [c], ((x :: g) ++ a ++ rest). split; [reflexivity|]. split; [constructor|].
        split; [split; [discriminate|auto]|]. right. cbn. eauto.
Qed.

Lemma split_words_none s : blanks s -> split_words_from [] s = [].
Proof. intro H. rewrite <- (app_nil_r s), split_words_blanks by auto. reflexivity. Qed.

Lemma split_words_two s a b : split_words s = [a; b] <-> two_columns s a b.
Proof.
  unfold split_words. split.
  - intro H. destruct (first_piece s) as [B|(g & a' & rest & -> & G & A & R)].
    { rewrite split_words_none in H by auto. discriminate. }
    rewrite split_words_blanks, split_words_piece in H by auto. injection H as -> H.
    destruct (first_piece rest) as [B|(g1 & b' & rest2 & -> & G1 & B & R2)].
    { rewrite split_words_none in H by auto. discriminate. }
    rewrite split_words_blanks, split_words_piece in H by auto. injection H as -> H.
    destruct (first_piece rest2) as [B2|(g2 & c' & rest3 & -> & G2 & C & R3)].
    2:{ rewrite split_words_blanks, split_words_piece in H by auto. discriminate. }
    exists g, g1, rest2. repeat (split; auto).
    intros ->. destruct R as [R|(c & r & R & E)].
    + destruct B as [N _]. cbn [app] in R. destruct b; [congruence|discriminate].
    + destruct B as [N F]. cbn [app] in R. destruct b as [|x b]; [congruence|]. cbn [app] in R. injection R as -> _. inversion F; congruence.
  - intros (g & g1 & g2 & -> & G & G1 & G2 & N & A & B). rewrite split_words_blanks, split_words_piece; auto.
    2:{ right. destruct g1 as [|c g1]; [congruence|]. inversion G1; subst. cbn. eauto. }
    rewrite split_words_blanks, split_words_piece; auto.
    2:{ destruct g2 as [|c g2]; auto. inversion G2; subst. right. eauto. }
    rewrite split_words_none; auto.
Qed.

(* the line end is white space *)
Lemma crlf_space c : is_crlf c = true -> isspace_char c = true.
Proof. rewrite is_crlf_iff. intros [->| ->]; reflexivity. Qed.

Lemma rstrip_crlf_app s : exists tail, s = rstrip_crlf s ++ tail /\ blanks tail.
Proof.
  assert (H : line_text s (rstrip_crlf s)) by now apply line_text_iff.
  destruct H as (tail & E & F & _). exists tail. split; auto. eapply Forall_impl; [|exact F].
  intros c [->| ->]; reflexivity.
Qed.

Lemma split_words_trailing s tail : blanks tail -> split_words (s ++ tail) = split_words s.
Proof.
  intro B. unfold split_words. generalize (@nil char). induction s as [|c s IH]; intro cur; cbn [app split_words_from].
  - destruct tail as [|c t]; [reflexivity|]. inversion B as [|? ? E F]; subst. cbn [split_words_from]. rewrite E, split_words_none by auto. reflexivity.
  - now rewrite !IH.
Qed.

Lemma split_words_rstrip s : split_words (rstrip_crlf s) = split_words s.
Proof. destruct (rstrip_crlf_app s) as (t & E & B). rewrite E at 2. now rewrite split_words_trailing. Qed.

Lemma strip_nil s : strip s = [] <-> blanks s.
Proof.
  unfold strip, rstrip, lstrip. split.
  - intro H. apply (f_equal (@rev _)) in H. rewrite rev_involutive in H. cbn in H.
    destruct (drop_while_split isspace_char (rev (drop_while isspace_char s))) as (d & E & F). rewrite H, app_nil_r in E.
    apply (f_equal (@rev _)) in E. rewrite rev_involutive in E.
    destruct (drop_while_split isspace_char s) as (d2 & E2 & F2). rewrite E2. apply Forall_app. split; auto. rewrite E. now apply Forall_rev.
  - intro H. assert (E : drop_while isspace_char s = []).
    { induction H as [|c s E _ IH]; auto. cbn. now rewrite E. }
    now rewrite E.
Qed.

(* ---- lines ---- *)

Section Weights.
Variable parse_float : str -> result Q.
Let line := weight_line parse_float.

Lemma skip_test l : (startswith l (of_string "#") || match strip l with [] => true | _ => false end) = true <-> skipped_line l.
Proof.
  rewrite orb_true_iff, startswith_iff. unfold skipped_line. rewrite <- strip_nil. split.
  - intros [(r & ->)|H]; [left; exists r; reflexivity|right]. destruct (strip l); auto; discriminate.
  - intros [(r & ->)|H]; [left; exists r; reflexivity|right]. now rewrite H.
Qed.

Lemma weight_line_skip d l : skipped_line l -> line d l = Ok d.
Proof. intro H. apply skip_test in H. unfold line, weight_line. now rewrite H. Qed.

Lemma weight_line_entry d l r n q : ~ skipped_line l -> two_columns l r n -> parse_float n = Ok q -> line d l = Ok (dict_set d r q).
Proof.
  intros S0 T F. rewrite <- skip_test in S0. apply not_true_is_false in S0. unfold line, weight_line. rewrite S0, split_words_rstrip.
  apply split_words_two in T. rewrite T, F. reflexivity.
Qed.

Lemma weight_line_inv d l d' : line d l = Ok d' ->
  (skipped_line l /\ d' = d) \/ (~ skipped_line l /\ exists r n q, two_columns l r n /\ parse_float n = Ok q /\ d' = dict_set d r q).
Proof.
  unfold line, weight_line. intro H.
  destruct (startswith l (of_string "#") || match strip l with [] => true | _ => false end) eqn:E.
  - left. injection H as <-. split; auto. now apply skip_test.
  - right. split; [rewrite <- skip_test; congruence|]. rewrite split_words_rstrip in H.
    destruct (split_words l) as [|r [|n [|? ?]]] eqn:W; try discriminate. destruct (parse_float n) as [q|] eqn:F; [|discriminate].
    injection H as <-. exists r, n, q. split; auto. now apply split_words_two.
Qed.

Lemma weight_line_error d l e : (forall s e, parse_float s = Err e -> e = EValue) -> line d l = Err e -> e = EValue.
Proof.
  intros P H. unfold line, weight_line in H. destruct (_ || _); [discriminate|].
  destruct (split_words (rstrip_crlf l)) as [|r [|n [|? ?]]]; try congruence.
  destruct (parse_float n) eqn:F; [discriminate|]. injection H as <-. eauto.
Qed.

(* the dictionary after the entries *)
Definition put (es : list (str * Q)) (d : dict Q) : dict Q := fold_left (fun acc e => dict_set acc (fst e) (snd e)) es d.

Lemma lines_runs ls es : weight_entries parse_float ls es -> forall d, foldM line d ls = Ok (put es d).
Proof.
  induction 1 as [|l ls es S0 _ IH|l ls es r n q S0 T F _ IH]; intro d; cbn [foldM]; auto.
  - rewrite weight_line_skip by auto. apply IH.
  - erewrite weight_line_entry by eauto. cbn [bind]. rewrite IH. reflexivity.
Qed.

Lemma lines_inv ls : forall d d', foldM line d ls = Ok d' -> exists es, weight_entries parse_float ls es.
Proof.
  induction ls as [|l ls IH]; intros d d' H; [exists []; constructor|]. cbn [foldM] in H. apply bind_ok_iff in H.
  destruct H as (d1 & E & H). destruct (IH _ _ H) as (es & W). apply weight_line_inv in E.
  destruct E as [[S0 _]|(S0 & r & n & q & T & F & _)]; [exists es; now apply we_skip|exists ((r, q) :: es); eapply we_line; eauto].
Qed.

Lemma put_get es : forall d r q, dict_get (put es d) r = Some q <-> last_entry es r q \/ (~ In r (map fst es) /\ dict_get d r = Some q).
Proof.
  induction es as [|[k v] es IH]; intros d r q.
  - cbn. split; [auto|]. intros [(a & b & E & _)|[_ H]]; auto. destruct a; discriminate.
  - cbn [put fold_left fst snd map In]. fold (put es (dict_set d k v)). rewrite IH. split.
    + intros [(a & b & -> & N)|[N H]].
      * left. exists ((k, v) :: a), b. auto.
      * destruct (str_eqb r k) eqn:E.
        -- apply str_eqb_eq in E. subst k. rewrite dict_get_set_same in H. injection H as ->. left. exists [], es. auto.
        -- pose proof E as E'. rewrite dict_get_set_other in H by (rewrite ?str_eqb_neq in *; congruence). right. split; auto.
           intros [X|X]; [subst; rewrite str_eqb_refl in E'; discriminate|contradiction].
    + intros [(a & b & E & N)|[N H]].
      * destruct a as [|x a]; cbn [app] in E.
        -- injection E as -> -> ->. right. split; auto. apply dict_get_set_same.
        -- injection E as _ ->. left. exists a, b. auto.
      * right. split; [tauto|]. rewrite dict_get_set_other; auto; intros ->; tauto.
Qed.

Lemma weights_file_read text :
  ((exists d, load_weights parse_float (Some text) = Ok (Some d)) <->
   exists es, weight_entries parse_float (file_lines (universal_newlines text)) es) /\
  (forall d es, load_weights parse_float (Some text) = Ok (Some d) -> weight_entries parse_float (file_lines (universal_newlines text)) es ->
     forall r q, dict_get d r = Some q <-> last_entry es r q) /\
  ((forall s e, parse_float s = Err e -> e = EValue) -> forall e, load_weights parse_float (Some text) = Err e -> e = EValue).
Proof.
  unfold load_weights. split; [|split].
  - split.
    + intros (d & H). apply bind_ok_iff in H. destruct H as (d1 & H & _). eapply lines_inv; eauto.
    + intros (es & W). pose proof (lines_runs _ _ W []) as H. unfold line in H. rewrite H. eexists. reflexivity.
  - intros d es H W r q. pose proof (lines_runs _ _ W []) as H1. unfold line in H1. rewrite H1 in H. injection H as <-.
    rewrite put_get. cbn. split; [intros [X|[_ X]]; [auto|discriminate]|auto].
  - intros P e. generalize (@nil (str * Q)). induction (file_lines (universal_newlines text)) as [|l ls IH]; intros d H; [discriminate|].
    cbn [foldM] in H. destruct (weight_line parse_float d l) as [d1|e1] eqn:E.
    + cbn [bind] in H. eapply IH; eauto.
    + cbn [bind] in H. injection H as <-. eapply weight_line_error; eauto.
Qed.

End Weights.
