(* A gold file and what the writer writes for its documents are loaded alike. *)
From Coq Require Import String Ascii ZArith NArith QArith Bool Sorted Permutation Lia List.
From Verif Require Import Base BaseFacts Model_Datamodel Model_Conllu Spec_Datamodel Spec_Conllu Proofs_Datamodel Proofs_Conllu Proofs_Conllu2 Proofs_Conllu3 Proofs_Conllu4 Proofs_Conllu5 Proofs_Conllu6 Proofs_Conllu7 Proofs_Conllu8 Proofs_Conllu9 Proofs_Conllu10
  Model_UDEval Spec_UDEval Proofs_UDEval Proofs_UDEval4 Proofs_UDEval5 Proofs_UDEval6 Proofs_UDEval9 Spec_Processors Proofs_Processors Model_Tester Spec_Tester Proofs_Tester4 Proofs_Tester5
  Spec_Goldfile Proofs_Goldfile Proofs_Goldfile2 Proofs_Goldfile3.
Import ListNotations.
Open Scope Z_scope.

(* ---- files with like groups are loaded alike ---- *)

Lemma like_chars g g' : group_like g g' -> group_chars g' = group_chars g.
Proof.
  unfold group_chars. destruct g as [c|c cs], g' as [c'|c' cs']; cbn [group_like surface_row]; try (intros []; fail).
  - intros [H _ _]. rewrite (H 1%nat) by (cbn; auto). reflexivity.
  - intros [H _]. now rewrite H.
Qed.

Lemma like_sentence_chars gs gs' : Forall2 group_like gs gs' -> sentence_chars gs' = sentence_chars gs.
Proof. unfold sentence_chars. induction 1 as [|g g' gs gs' G F IH]; [reflexivity|]. cbn [map concat]. now rewrite IH, (like_chars _ _ G). Qed.

Lemma like_tokens gs gs' : Forall2 group_like gs gs' -> forall at_, expected_tokens at_ gs' = expected_tokens at_ gs.
Proof. induction 1 as [|g g' gs gs' G F IH]; intros at_; [reflexivity|]. cbn [expected_tokens]. now rewrite IH, (like_chars _ _ G). Qed.

Lemma like_sentences gss gss' : Forall2 (Forall2 group_like) gss gss' -> forall at_, expected_sentences at_ gss' = expected_sentences at_ gss.
Proof. induction 1 as [|g g' gs gs' G F IH]; intros at_; [reflexivity|]. cbn [expected_sentences]. now rewrite IH, (like_sentence_chars _ _ G). Qed.

Definition facts_like (f f' : span * list str * bool) : Prop :=
  fst (fst f') = fst (fst f) /\ snd f' = snd f /\
  (forall n, In n [1; 2; 3; 4; 7]%nat -> nth n (snd (fst f')) [] = nth n (snd (fst f)) []) /\
  (ordered_feats (nth 5 (snd (fst f)) []) -> nth 5 (snd (fst f')) [] = nth 5 (snd (fst f)) []).

Lemma kept_like sp c c' b : row_like c c' -> facts_like (sp, kept_columns c b, b) (sp, kept_columns c' b, b).
Proof.
  intros [H _ F]. split; [reflexivity|]. split; [reflexivity|]. cbn [fst snd]. split; [|exact F].
  intros n Hn. cbn [In] in Hn. destruct Hn as [<-|[<-|[<-|[<-|[<-|[]]]]]]; cbn [kept_columns nth]; rewrite H by (cbn; auto 10); reflexivity.
Qed.

Lemma like_words gs gs' : Forall2 group_like gs gs' -> forall at_, Forall2 facts_like (expected_words at_ gs) (expected_words at_ gs').
Proof.
  induction 1 as [|g g' gs gs' G F IH]; intros at_; [constructor|]. cbn [expected_words]. rewrite (like_chars _ _ G). apply Forall2_app; auto.
  destruct g as [c|c cs], g' as [c'|c' cs']; cbn [group_like] in G; try (destruct G; fail); cbn [words_of map].
  - constructor; [|constructor]. cbn [fst snd]. now apply kept_like.
  - destruct G as [_ G]. rewrite !map_map. cbn [fst snd]. clear -G. induction G; cbn [map]; constructor; auto. now apply kept_like.
Qed.

Lemma like_word_cells gs gs' : Forall2 group_like gs gs' -> Forall2 row_like (word_cells gs) (word_cells gs').
Proof.
  unfold word_cells. induction 1 as [|g g' gs gs' G F IH]; cbn [flat_map map]; [constructor|]. rewrite !map_app. apply Forall2_app; auto.
  destruct g as [c|c cs], g' as [c'|c' cs']; cbn [group_like] in G; try (destruct G; fail); cbn [words_of map].
  - constructor; auto.
  - rewrite !map_map. cbn [fst snd]. rewrite !map_id. apply G.
Qed.

Lemma like_tree gs gs' hs : Forall2 group_like gs gs' -> tree_heads gs hs -> tree_heads gs' hs.
Proof.
  intros F [H T]. split; auto. unfold heads_are in *. pose proof (like_word_cells _ _ F) as W.
  assert (L : zlen (word_cells gs') = zlen (word_cells gs)) by (unfold zlen; now rewrite (Forall2_length' _ _ _ W)).
  rewrite L. revert H W. generalize (zlen (word_cells gs)). intros n H. revert H. generalize (word_cells gs), (word_cells gs'). clear.
  intros cs cs' H W. revert hs H. induction W as [|c c' cs cs' [_ (h & P & P') _] W IH]; intros hs H; inversion H as [|? h' ? l [Q B] H']; subst; constructor; auto.
  split; auto. congruence.
Qed.

Lemma alike_of known ws : forall ws', map w_ix ws' = map w_ix ws -> map w_parent ws' = map w_parent ws ->
  Forall2 (fun f f' : span * list str * bool => fst (fst f') = fst (fst f) /\ snd f' = snd f /\ forall n, In n known -> nth n (snd (fst f')) [] = nth n (snd (fst f)) [])
    (map word_facts ws) (map word_facts ws') -> Forall2 (word_alike known) ws ws'.
Proof.
  induction ws as [|w ws IH]; intros [|w' ws'] I P F; try discriminate; [constructor|]. cbn [map] in *. injection I as I1 I2. injection P as P1 P2.
  inversion F as [|? ? ? ? (F1 & F2 & F3) F4]; subst. constructor; auto. split; auto.
Qed.

Lemma loaded_alike text u out u' gss hss gss' hss' :
  load_conllu text = Ok u -> ud_lines (file_lines text) gss -> Forall2 tree_heads gss hss ->
  load_conllu out = Ok u' -> ud_lines (file_lines out) gss' -> Forall2 tree_heads gss' hss' ->
  Forall2 (Forall2 group_like) gss gss' ->
  ud_alike [1; 2; 3; 4; 7]%nat u u' /\
  (Forall (fun gs => Forall (fun c => ordered_feats (cell c 5)) (word_cells gs)) gss -> ud_alike [1; 2; 3; 4; 7; 5]%nat u u').
Proof.
  intros E UL T E' UL' T' G.
  assert (Hh : hss' = hss).
  { assert (T2 : Forall2 tree_heads gss' hss).
    { clear -G T. revert hss T. induction G as [|gs gs' gss gss' G0 G IH]; intros hss T; inversion T; subst; constructor; auto. eapply like_tree; eauto. }
    clear -T' T2. revert hss T2. induction T' as [|gs hs gss' hss' H T' IH]; intros hss T2; inversion T2; subst; auto. f_equal; auto. eapply tree_heads_fun; eauto. }
  subst hss'.
  assert (NN : forall gss hss, Forall2 tree_heads gss hss -> forall gs c h, In gs gss -> In c (word_cells gs) -> parse_int (cell c 6) = Ok h -> 0 <= h).
  { clear. intros gss hss F gs c h I Ic P. induction F as [|g hs gss hss [H _] F IH]; [destruct I|]. destruct I as [->|I]; [|auto].
    unfold heads_are in H. revert H Ic. generalize (zlen (word_cells gs)). intros n H Ic.
    induction H as [|c' h' cs hs' [P' B] H IH2]; [destruct Ic|]. destruct Ic as [->|Ic]; auto. rewrite P' in P. injection P as <-. lia. }
  assert (PP : forall text u gss, load_conllu text = Ok u -> ud_lines (file_lines text) gss -> Forall2 tree_heads gss hss ->
     map w_parent (u_words u) = expected_parents 0 hss /\ map w_ix (u_words u) = positions (length (u_words u)) /\
     u_chars u = sentence_chars (concat gss) /\ u_tokens u = expected_tokens 0 (concat gss) /\ u_sents u = expected_sentences 0 gss /\
     map word_facts (u_words u) = expected_words 0 (concat gss)).
  { clear -NN. intros text u gss E UL T. pose proof (ld_ix _ (load_loaded _ _ E)) as LI. rewrite (load_is_steps _ _ UL) in E.
    destruct (steps_ok _ _ _ empty_loaded E) as (_ & C & Tk & W & S0 & _).
    destruct (steps_trees _ _ _ empty_loaded E (NN _ _ T)) as (hss2 & F & P).
    cbn [empty_ud u_chars u_tokens u_words u_sents app map] in *. change (zlen (@nil char)) with 0 in *. change (zlen (@nil word)) with 0 in *.
    split; [|auto 10]. rewrite P. f_equal. clear -F T. revert hss2 F. induction T; intros hss2 F; inversion F; subst; auto. f_equal; auto. eapply tree_heads_fun; eauto. }
  destruct (PP _ _ _ E UL T) as (P1 & I1 & C1 & T1 & S1 & W1). destruct (PP _ _ _ E' UL' T') as (P2 & I2 & C2 & T2 & S2 & W2).
  assert (GC : Forall2 group_like (concat gss) (concat gss')) by (clear -G; induction G; cbn [concat]; [constructor|apply Forall2_app; auto]).
  pose proof (like_words _ _ GC 0) as WL. rewrite <- W1, <- W2 in WL.
  assert (LW : length (u_words u') = length (u_words u)) by (apply Forall2_length' in WL; rewrite !map_length in WL; congruence).
  assert (Alike : forall known, Forall2 (fun f f' : span * list str * bool => fst (fst f') = fst (fst f) /\ snd f' = snd f /\ forall n, In n known -> nth n (snd (fst f')) [] = nth n (snd (fst f)) [])
    (map word_facts (u_words u)) (map word_facts (u_words u')) -> ud_alike known u u').
  { intros known F. split.
    - rewrite C1, C2. now apply like_sentence_chars.
    - rewrite T1, T2. now apply like_tokens.
    - rewrite S1, S2. now apply like_sentences.
    - apply alike_of; auto; [rewrite I1, I2, LW; reflexivity|congruence]. }
  split.
  - apply Alike. eapply Forall2_impl; [|exact WL]. intros f f' (A & B & C & _). auto.
  - intros O. apply Alike.
    assert (OW : Forall (fun f : span * list str * bool => ordered_feats (nth 5 (snd (fst f)) [])) (map word_facts (u_words u))).
    { rewrite W1. clear -O. assert (O2 : Forall (fun c => ordered_feats (cell c 5)) (word_cells (concat gss))).
      { unfold word_cells in *. induction O as [|gs gss O0 O IH]; [constructor|]. cbn [concat]. rewrite flat_map_app, map_app. apply Forall_app. auto. }
      clear O. revert O2. generalize (concat gss). intros gs. generalize 0. unfold word_cells.
      induction gs as [|g gs IH]; intros at_ O; cbn [expected_words flat_map] in *; [constructor|]. rewrite map_app in O. apply Forall_app in O as [O1 O2].
      apply Forall_app. split; auto. rewrite Forall_map in *. eapply Forall_impl; [|exact O1]. intros w. cbn [fst snd kept_columns nth]. auto. }
    clear -WL OW. revert OW. generalize dependent (map word_facts (u_words u')). generalize (map word_facts (u_words u)).
    intros l l' WL. induction WL as [|f f' l l' (A & B & C & D) WL IH]; intros O; inversion O; subst; constructor; auto.
    split; auto. split; auto. intros n Hn. assert (X : In n [1; 2; 3; 4; 7]%nat \/ n = 5%nat) by (cbn in Hn |- *; intuition).
    destruct X as [X| ->]; auto.
Qed.
