(* Evaluation depends on the gold words only as far as they are compared. *)
From Coq Require Import String Ascii ZArith NArith QArith Bool Lia List.
From Verif Require Import Base BaseFacts Model_Datamodel Model_Conllu Spec_Datamodel Spec_Conllu Proofs_Datamodel Proofs_Conllu Model_UDEval Spec_UDEval Proofs_UDEval.
Import ListNotations.
Open Scope Z_scope.

(* the words look the same, as far as the columns [known] *)
Record word_alike (known : list nat) (w w' : word) : Prop := {
  wl_ix : w_ix w' = w_ix w;
  wl_span : w_span w' = w_span w;
  wl_multi : w_multi w' = w_multi w;
  wl_parent : w_parent w' = w_parent w;
  wl_columns : forall n, In n known -> nth n (w_columns w') [] = nth n (w_columns w) []
}.

Arguments wl_ix {known w w'}.
Arguments wl_span {known w w'}.
Arguments wl_multi {known w w'}.
Arguments wl_parent {known w w'}.
Arguments wl_columns {known w w'}.

Record ud_alike (known : list nat) (u u' : ud) : Prop := {
  ul_chars : u_chars u' = u_chars u;
  ul_tokens : u_tokens u' = u_tokens u;
  ul_sents : u_sents u' = u_sents u;
  ul_words : Forall2 (word_alike known) (u_words u) (u_words u')
}.

Definition same_result {A B} (P : A -> B -> Prop) (r : result A) (r' : result B) : Prop :=
  match r, r' with Ok a, Ok b => P a b | Err e, Err e' => e = e' | _, _ => False end.

Lemma same_bind {A B C D} (P : A -> B -> Prop) (Q : C -> D -> Prop) r r' k k' :
  same_result P r r' -> (forall a b, P a b -> same_result Q (k a) (k' b)) -> same_result Q (bind r k) (bind r' k').
Proof. intros H K. destruct r, r'; cbn in *; auto; destruct H. Qed.

Section Known.
Context (known : list nat) (known_all : incl [1; 2; 3; 4; 7]%nat known).
Notation word_like := (word_alike known).

Lemma beyond_like e g g' : Forall2 word_like g g' -> beyond_end g' e = beyond_end g e.
Proof. intros [|w w' l l' [_ S M _ _] F]; [reflexivity|]. cbn [beyond_end]. now rewrite S, M. Qed.

Lemma extend_like w w' e : word_like w w' -> extend_end w' e = extend_end w e.
Proof. intros [_ S M _ _]. unfold extend_end. now rewrite S, M. Qed.

Definition cut_like (r r' : list word * list word * list word * list word) : Prop :=
  let '(gs, ss, gr, sr) := r in let '(gs', ss', gr', sr') := r' in
  Forall2 word_like gs gs' /\ ss' = ss /\ Forall2 word_like gr gr' /\ sr' = sr.

Lemma span_loop_like fuel : forall g g' s e, Forall2 word_like g g' -> same_result cut_like (span_loop fuel g s e) (span_loop fuel g' s e).
Proof.
  induction fuel as [|fuel IH]; intros g g' s e F; cbn [span_loop]; rewrite (beyond_like e _ _ F).
  - destruct (beyond_end g e && beyond_end s e); cbn; auto.
  - destruct (beyond_end g e && beyond_end s e); [cbn; auto|]. pose proof F as F0. destruct F as [|w w' l l' W F]; [destruct s as [|v s]; [reflexivity|]|destruct s as [|v s]].
    + eapply same_bind; [apply IH; exact F0|]. intros [[[? ?] ?] ?] [[[? ?] ?] ?] (A & -> & B & ->). cbn. auto.
    + rewrite (extend_like _ _ e W). eapply same_bind; [apply IH; exact F|]. intros [[[? ?] ?] ?] [[[? ?] ?] ?] (A & -> & B & ->). cbn. auto.
    + rewrite (extend_like _ _ e W), (wl_span W). destruct (sp_start (w_span w) <=? sp_start (w_span v)).
      * eapply same_bind; [apply IH; exact F|]. intros [[[? ?] ?] ?] [[[? ?] ?] ?] (A & -> & B & ->). cbn. auto.
      * eapply same_bind; [apply IH; exact F0|]. intros [[[? ?] ?] ?] [[[? ?] ?] ?] (A & -> & B & ->). cbn. auto.
Qed.

Lemma find_like fuel w w' v g g' s : word_like w w' -> Forall2 word_like g g' ->
  same_result cut_like (find_multiword_span fuel w v g s) (find_multiword_span fuel w' v g' s).
Proof.
  intros W F. unfold find_multiword_span. rewrite (wl_multi W), (wl_span W). destruct (w_multi w).
  - apply span_loop_like. constructor; auto.
  - apply span_loop_like. destruct (negb false && _); auto.
Qed.

Section Lower.
Context (lower : str -> str).

Lemma form_like w w' : word_like w w' -> form_of w' = form_of w.
Proof. intros W. unfold form_of. apply (wl_columns W). apply known_all. cbn; auto. Qed.
Lemma same_form_like w w' v : word_like w w' -> same_form lower w' v = same_form lower w v.
Proof. intros W. unfold same_form. now rewrite (form_like _ _ W). Qed.

Lemma lcs_row_like w w' : word_like w w' -> forall s below, lcs_row lower w' s below = lcs_row lower w s below.
Proof. intros W. induction s as [|v s IH]; intros below; [reflexivity|]. cbn [lcs_row]. now rewrite IH, (same_form_like _ _ v W). Qed.

Lemma lcs_like g g' s : Forall2 word_like g g' -> compute_lcs lower g' s = compute_lcs lower g s.
Proof. induction 1 as [|w w' g g' W F IH]; [reflexivity|]. cbn [compute_lcs]. now rewrite IH, (lcs_row_like _ _ W). Qed.

Definition pair_like (p p' : word * word) : Prop := word_like (fst p) (fst p') /\ snd p' = snd p.

Lemma walk_like fuel : forall g g' s rows, Forall2 word_like g g' ->
  same_result (Forall2 pair_like) (lcs_walk lower fuel g s rows) (lcs_walk lower fuel g' s rows).
Proof.
  induction fuel as [|fuel IH]; intros g g' s rows F; pose proof F as F0; destruct F as [|w w' l l' W F]; cbn [lcs_walk]; try (cbn; constructor).
  - destruct s; cbn; auto.
  - destruct s as [|v s]; [cbn; auto|]. rewrite (same_form_like _ _ v W). destruct (same_form lower w v).
    + eapply same_bind; [apply IH; exact F|]. intros a b H. cbn. constructor; auto. split; auto.
    + destruct (_ =? _); apply IH; auto.
Qed.

Lemma align_like fuel : forall g g' s, Forall2 word_like g g' ->
  same_result (Forall2 pair_like) (align_words lower fuel g s) (align_words lower fuel g' s).
Proof.
  induction fuel as [|fuel IH]; intros g g' s F; pose proof F as F0; destruct F as [|w w' l l' W F]; cbn [align_words]; try (cbn; constructor).
  - destruct s; cbn; auto.
  - destruct s as [|v s]; [cbn; auto|]. rewrite (wl_multi W), (wl_span W). destruct (w_multi w || w_multi v).
    + replace (length (w' :: l')) with (length (w :: l)) by (cbn [length]; now rewrite (Forall2_length' _ _ _ F)).
      eapply same_bind; [apply find_like; eauto|]. intros [[[gs ss] gr] sr] [[[gs' ss'] gr'] sr'] (A & -> & B & ->).
      eapply same_bind with (P := Forall2 pair_like).
      * pose proof A as A0. destruct A as [|x x' xs xs' X A]; [cbn; auto|]. destruct ss as [|y ys]; [cbn; auto|].
        replace (length (x' :: xs')) with (length (x :: xs)) by (cbn [length]; now rewrite (Forall2_length' _ _ _ A)).
        rewrite (lcs_like _ _ (y :: ys) A0). apply walk_like; auto.
      * intros h h' H. eapply same_bind; [apply IH; exact B|]. intros t t' T. cbn. apply Forall2_app; auto.
    + destruct (_ && _).
      * eapply same_bind; [apply IH; exact F|]. intros a b H. cbn. constructor; auto. split; auto.
      * destruct (_ <=? _); apply IH; auto.
Qed.
End Lower.

(* ---- the metrics ---- *)

Lemma find_like_pairs i ps ps' : Forall2 pair_like ps ps' ->
  option_map (fun p : word * word => w_ix (fst p)) (find (fun p => w_ix (snd p) =? i) ps') = option_map (fun p => w_ix (fst p)) (find (fun p => w_ix (snd p) =? i) ps).
Proof.
  induction 1 as [|p p' ps ps' [P1 P2] F IH]; [reflexivity|]. cbn [find]. rewrite P2. destruct (w_ix (snd p) =? i); [|exact IH]. cbn. f_equal. apply (wl_ix P1).
Qed.

Lemma Forall2_rev' {A B} (R : A -> B -> Prop) l l' : Forall2 R l l' -> Forall2 R (rev l) (rev l').
Proof. induction 1; cbn; [constructor|]. apply Forall2_app; auto. Qed.

Lemma matched_like ps ps' i : Forall2 pair_like ps ps' -> matched ps' i = matched ps i.
Proof. intros F. unfold matched. apply find_like_pairs. now apply Forall2_rev'. Qed.

Definition aligned_like (a a' : aligned_words) : Prop :=
  word_like (a_gold a) (a_gold a') /\ a_system a' = a_system a /\ a_gold_parent a' = a_gold_parent a /\ a_system_parent a' = a_system_parent a.

Lemma fill_like ps ps' : Forall2 pair_like ps ps' -> Forall2 aligned_like (fill_parents ps) (fill_parents ps').
Proof.
  intros F. unfold fill_parents.
  assert (G : forall qs qs', Forall2 pair_like qs qs' -> Forall2 aligned_like
     (map (fun p => mkAW (fst p) (snd p) (match w_parent (fst p) with PaWord i => RGold i | _ => RRoot end)
        (match w_parent (snd p) with PaWord i => match matched ps i with Some j => RGold j | None => RNone end | _ => RRoot end)) qs)
     (map (fun p => mkAW (fst p) (snd p) (match w_parent (fst p) with PaWord i => RGold i | _ => RRoot end)
        (match w_parent (snd p) with PaWord i => match matched ps' i with Some j => RGold j | None => RNone end | _ => RRoot end)) qs')).
  { induction 1 as [|p p' qs qs' [P1 P2] Q IH]; cbn [map]; constructor; auto. unfold aligned_like. cbn [a_gold a_system a_gold_parent a_system_parent].
    rewrite P2, (wl_parent P1). split; auto. split; auto. split; auto. destruct (w_parent (snd p)); auto. now rewrite (matched_like _ _ i F). }
  apply G. exact F.
Qed.

(* the words agree in the columns cs *)
Definition cols_like (cs : list nat) (w w' : word) : Prop := Forall (fun c => nth c (w_columns w') [] = nth c (w_columns w) []) cs.

Lemma columns_of_like cs w w' : cols_like cs w w' -> columns_of cs w' = columns_of cs w.
Proof. unfold cols_like, columns_of. induction 1 as [|c cs C F IH]; cbn [map]; congruence. Qed.

Lemma qsum_like {A} (R : A -> A -> Prop) (f : A -> Q) l l' : (forall a b, R a b -> f b = f a) -> Forall2 R l l' -> qsum f l' = qsum f l.
Proof. intros H. induction 1 as [|a b l l' X F IH]; [reflexivity|]. cbn [qsum fold_right]. unfold qsum in IH. now rewrite IH, (H a b X). Qed.

Lemma filter_like {A} (R : A -> A -> Prop) (f : A -> bool) l l' : (forall a b, R a b -> f b = f a) -> Forall2 R l l' -> Forall2 R (filter f l) (filter f l').
Proof. intros H. induction 1 as [|a b l l' X F IH]; cbn [filter]; [constructor|]. rewrite (H a b X). destruct (f a); auto. Qed.

Definition weight_like (weight : word -> Q) : Prop := forall w w', word_like w w' -> weight w' = weight w.

Lemma words_score_like g g' s al al' weight : Forall2 word_like g g' -> Forall2 aligned_like al al' -> weight_like weight ->
  alignment_score g' s al' None weight = alignment_score g s al None weight.
Proof.
  intros G A W. unfold alignment_score. rewrite (qsum_like _ weight _ _ W G).
  rewrite (qsum_like aligned_like (fun a => weight (a_gold a)) al al'); auto. intros a b (X & _). apply W; auto.
Qed.

Definition aligned_cols (cs : list nat) (a a' : aligned_words) : Prop := aligned_like a a' /\ cols_like cs (a_gold a) (a_gold a').

Lemma key_score_like cs heads g g' s al al' weight : Forall2 word_like g g' -> Forall2 (aligned_cols cs) al al' -> weight_like weight ->
  alignment_score g' s al' (Some ((if heads : bool then head_key else tag_key) cs)) weight =
  alignment_score g s al (Some ((if heads then head_key else tag_key) cs)) weight.
Proof.
  intros G A W. unfold alignment_score. rewrite (qsum_like _ weight _ _ W G).
  assert (V : forall a b, aligned_cols cs a b -> weight (a_gold b) = weight (a_gold a)) by (intros a b ((X & _) & _); apply W; auto).
  rewrite (qsum_like (aligned_cols cs) (fun a => weight (a_gold a)) al al'); auto.
  rewrite (qsum_like (aligned_cols cs) (fun a => weight (a_gold a)) (filter _ al) (filter _ al')) by
    (auto; apply filter_like; auto; intros a b ((X & X2 & X3 & X4) & Y); rewrite X2, X3, X4;
     destruct heads; unfold head_key, tag_key; now rewrite (columns_of_like _ _ _ Y)).
  reflexivity.
Qed.

Lemma like_cols cs a a' : incl cs known -> word_like a a' -> cols_like cs a a'.
Proof. intros I W. apply Forall_forall. intros c C. apply (wl_columns W). auto. Qed.

Lemma deprel_weight_like d : weight_like (deprel_weight d).
Proof. intros w w' W. unfold deprel_weight. rewrite (wl_columns W) by (apply known_all; cbn; auto 10). reflexivity. Qed.
Lemma one_like : weight_like one.
Proof. intros w w' _. reflexivity. Qed.

Lemma like_all (u u' : ud) system al al' weights m : ud_alike known u u' -> Forall2 aligned_like al al' ->
  In 5%nat known \/ m <> MFeats /\ m <> MAllTags ->
  metric_score u' system al' weights m = metric_score u system al weights m.
Proof.
  intros [C T S W] A N.
  assert (K : forall cs heads weight, incl cs known -> weight_like weight ->
    alignment_score (u_words u') (u_words system) al' (Some ((if heads : bool then head_key else tag_key) cs)) weight =
    alignment_score (u_words u) (u_words system) al (Some ((if heads then head_key else tag_key) cs)) weight).
  { intros cs heads weight I H. apply key_score_like; auto. clear -A I. induction A as [|a a' l l' X A IH]; constructor; auto. split; auto. apply like_cols; auto. apply X. }
  assert (I7 : incl [7%nat] known) by (intros c [<-|[]]; apply known_all; cbn; auto 10).
  assert (F : m = MFeats \/ m = MAllTags -> In 5%nat known) by tauto.
  unfold metric_score. rewrite T, S.
  destruct m; try (destruct weights as [ws|]; [|reflexivity]); cbn [option_map]; try reflexivity; f_equal.
  - apply words_score_like; auto using one_like.
  - apply (K _ false); auto using one_like. intros c [<-|[]]; apply known_all; cbn; auto.
  - apply (K _ false); auto using one_like. intros c [<-|[]]; apply known_all; cbn; auto 10.
  - apply (K _ false); auto using one_like. intros c [<-|[]]; auto.
  - apply (K _ false); auto using one_like. intros c [<-|[<-|[<-|[]]]]; auto; apply known_all; cbn; auto 10.
  - apply (K _ false); auto using one_like. intros c [<-|[]]; apply known_all; cbn; auto 10.
  - apply (K _ true); auto using one_like. intros c [].
  - apply (K _ true); auto using one_like.
  - apply (K _ true); auto using deprel_weight_like.
  - apply (K _ true); auto using deprel_weight_like.
Qed.

Lemma evaluate_like lower u u' system weights : ud_alike known u u' ->
  same_result (fun f f' => forall m, In 5%nat known \/ m <> MFeats /\ m <> MAllTags -> f' m = f m)
    (evaluate lower u system weights) (evaluate lower u' system weights).
Proof.
  intros U. unfold evaluate. rewrite (ul_chars _ _ _ U). destruct (negb _); cbn [raise_if bind]; [reflexivity|].
  unfold align. rewrite <- (Forall2_length' _ _ _ (ul_words _ _ _ U)).
  eapply same_bind; [apply align_like; exact (ul_words _ _ _ U)|]. intros ps ps' P. cbn [same_result]. intros m H.
  apply like_all; auto. now apply fill_like.
Qed.
End Known.
