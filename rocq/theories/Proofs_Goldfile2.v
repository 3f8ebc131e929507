(* The reader and the evaluation script see the same words in a file. *)
From Coq Require Import String Ascii ZArith NArith QArith Bool Lia List.
From Verif Require Import Base BaseFacts Model_Datamodel Model_Conllu Spec_Datamodel Spec_Conllu Proofs_Datamodel Proofs_Conllu Proofs_Conllu3 Proofs_Conllu4 Proofs_Conllu10
  Model_UDEval Spec_UDEval Proofs_UDEval Proofs_UDEval4 Spec_Goldfile.
Import ListNotations.
Open Scope Z_scope.

Lemma file_lines_chars text raw x : In raw (file_lines text) -> In x raw -> In x text.
Proof.
  revert raw. induction text as [|c text IH]; intros raw H X; [destruct H|]. cbn [file_lines] in H. destruct (c =? chNL)%N.
  - destruct H as [<-|H]; [destruct X as [<-|[]]; now left|right; eauto].
  - destruct (file_lines text) as [|l ls].
    + destruct H as [<-|[]]. destruct X as [<-|[]]. now left.
    + destruct H as [<-|H].
      * destruct X as [<-|X]; [now left|right; eapply IH; [left; reflexivity|auto]].
      * right. eapply IH; [right; eauto|auto].
Qed.

Lemma newlines_no_cr s : ~ In chCR (universal_newlines s).
Proof.
  assert (H : forall n s, (length s <= n)%nat -> ~ In chCR (universal_newlines s)).
  { induction n as [|n IH]; intros [|c t] L; cbn [length] in L; try lia; cbn [universal_newlines]; auto.
    destruct (N.eqb_spec c chCR) as [->|N].
    - destruct t as [|d t']; [intros [X|[]]; discriminate|]. destruct (d =? chNL)%N; intros [X|X]; try discriminate; revert X; apply IH; cbn [length] in *; lia.
    - intros [X|X]; [congruence|]. revert X. apply IH. lia. }
  apply (H (length s)). lia.
Qed.

Section File.
Context (text : str) (no_cr : ~ In chCR text) (uncommented : rows_uncommented text).
Notation here l := (In l (file_lines text)).

Lemma same_strip l : here l -> strip_crlf l = rstrip_crlf l.
Proof.
  intros H. unfold strip_crlf, rstrip_crlf. destruct l as [|c l]; [reflexivity|]. cbn [drop_while]. destruct (is_crlf c) eqn:E; [|reflexivity].
  apply is_crlf_iff in E as [->| ->]; [exfalso; apply no_cr; eapply file_lines_chars; [eauto|now left]|].
  destruct (file_lines_no_nl _ _ H) as [X|(k & X & Y)]; [exfalso; apply X; now left|].
  destruct k as [|z k]; [injection X as ->; reflexivity|]. injection X as <- X. exfalso. apply Y. now left.
Qed.

Lemma cells_ten l c : here l -> ten_cells l c -> cells_of l = c /\ row_line l.
Proof.
  intros H T. pose proof (uncommented l c H T) as U. rewrite comment_iff in U. destruct (proj1 (ten_cells_iff _ _) T) as [E L].
  unfold cells_of, row_line, comment_line, blank_line. rewrite (same_strip l H). split; auto. split.
  - intros (s & X). apply U. apply startswith_iff. exists s. exact X.
  - intros X. rewrite X in E. subst c. discriminate L.
Qed.

Lemma comment_same l : here l -> ud_comment l <-> comment_line l.
Proof.
  intros H. rewrite comment_iff, startswith_iff. unfold comment_line. rewrite (same_strip l H). split; intros (s & X); exists s; exact X.
Qed.

Lemma blank_same l : here l -> ud_blank l <-> blank_line l.
Proof. intros H. rewrite blank_iff. unfold blank_line. now rewrite (same_strip l H). Qed.

Lemma ten_not_blank l c : ten_cells l c -> ~ ud_blank l.
Proof. intros T B. apply blank_iff in B. apply ten_cells_iff in T as [E L]. rewrite B in E. subst c. discriminate L. Qed.

Lemma rows_of_words ws cs : Forall2 ten_cells ws cs -> forall ls rows, Forall (fun l => here l) ws -> sentence_lines (ws ++ ls) rows ->
  exists rows', rows = cs ++ rows' /\ sentence_lines ls rows'.
Proof.
  induction 1 as [|w c ws cs T F IH]; intros ls rows H S; cbn [app] in *; [eauto|]. inversion H as [|? ? H1 H2]; subst.
  destruct (cells_ten w c H1 T) as [E R]. inversion S as [l B|l l' r C S'|l l' r C S']; subst.
  - destruct R as [_ R]. contradiction.
  - destruct R as [R _]. contradiction.
  - destruct (IH ls r H2 S') as (rows' & -> & X). exists rows'. auto.
Qed.

Lemma split_at_dash (sa sb sa' sb' : str) : sa ++ 45%N :: sb = sa' ++ 45%N :: sb' -> ~ In 45%N sa -> ~ In 45%N sa' -> sa' = sa /\ sb' = sb.
Proof.
  revert sa'. induction sa as [|c sa IH]; intros [|c' sa'] E N N'; cbn [app] in E.
  - injection E as ->. auto.
  - injection E as <- _. exfalso. apply N'. now left.
  - injection E as -> _. exfalso. apply N. now left.
  - injection E as <- E. destruct (IH sa' E) as [-> ->]; auto; intros X; [apply N|apply N']; now right.
Qed.

Lemma app_same_length {A} (a a' b b' : list A) : a ++ b = a' ++ b' -> length a = length a' -> a' = a /\ b' = b.
Proof.
  revert a'. induction a as [|x a IH]; intros [|y a'] E L; try discriminate; cbn [app] in E; auto. injection E as -> E. destruct (IH a' E) as [-> ->]; auto.
Qed.

Lemma row_id_cell c i : row_id c = Some i -> cell c 0 = i.
Proof. unfold row_id, cell_opt. destruct (str_eqb _ _); congruence. Qed.

(* the rows of a sentence are grouped the same way *)
Lemma body_grouped k ls gs : ud_body k ls gs -> Forall (fun l => here l) ls ->
  forall rows gs', sentence_lines ls rows -> grouped row_id rows gs' -> gs' = gs.
Proof.
  induction 1 as [k l B|k l c ls gs T D BD IH|k l c ls gs h T D1 D2 F P1 P2 H0 BD IH|k l c ls gs sa sb a b ws cs T E0 D1 Na Nb F Pa Pb W Lc BD IH];
    intros HL rows gs' S G; inversion HL as [|? ? Hl Hls]; subst.
  - apply (blank_same l Hl) in B. inversion S as [l' B'|l' l'' r C S'|l' l'' r C S']; subst.
    + inversion G; subst; auto.
    + inversion S'.
    + inversion S'.
  - destruct (cells_ten l c Hl T) as [E R]. inversion S as [l' B'|l' l'' r C S'|l' l'' r C S']; subst; [destruct R; contradiction|destruct R; contradiction|].
    inversion G as [|? ? ? i I J G'|? ? ? i I J K G'|? ws ? ? sa sb a b I J]; subst.
    + eapply IH; eauto.
    + apply row_id_cell in I. rewrite I in D. contradiction.
    + apply row_id_cell in I. rewrite I in D. contradiction.
  - destruct (cells_ten l c Hl T) as [E R]. inversion S as [l' B'|l' l'' r C S'|l' l'' r C S']; subst; [destruct R; contradiction|destruct R; contradiction|].
    inversion G as [|? ? ? i I J G'|? ? ? i I J K G'|? ws ? ? sa sb a b I J]; subst.
    + apply row_id_cell in I. rewrite I in D1. contradiction.
    + f_equal. eapply IH; eauto.
    + apply row_id_cell in I. rewrite I in D2. exfalso. apply D2. apply in_or_app. right. now left.
  - destruct (cells_ten l c Hl T) as [E R]. inversion S as [l' B'|l' l'' r C S'|l' l'' r C S']; subst; [destruct R; contradiction|destruct R; contradiction|].
    apply Forall_app in Hls as [Hw Hls]. destruct (rows_of_words ws cs W ls r Hw S') as (rows' & -> & S2).
    inversion G as [|? ? ? i I J G'|? ? ? i I J K G'|? ws' rs ? sa' sb' a' b' I J Na' Nb' Pa' Pb' Nw Lw G']; subst.
    + apply row_id_cell in I. rewrite I in D1. contradiction.
    + apply row_id_cell in I. rewrite E0 in I. subst i. exfalso. apply K. apply in_or_app. right. now left.
    + apply row_id_cell in I. rewrite E0 in I. destruct (split_at_dash _ _ _ _ I Na Na') as [-> ->].
      assert (a' = a) by congruence. assert (b' = b) by congruence. subst a' b'.
      assert (L : length cs = length ws').
      { unfold zlen in *. destruct ws'; [congruence|]. cbn [length] in *. lia. }
      match goal with H : ws' ++ rs = cs ++ rows' |- _ => destruct (app_same_length cs ws' rows' rs (eq_sym H) L) as [-> ->] end.
      f_equal. eapply IH; eauto.
Qed.

(* ---- the sentences of the file ---- *)

Definition ends_blank (ls : list str) : Prop := exists init l, ls = init ++ [l] /\ ud_blank l /\ Forall (fun l => ~ ud_blank l) init.

Lemma body_ends k ls gs : ud_body k ls gs -> ends_blank ls.
Proof.
  induction 1 as [k l B|k l c ls gs T D BD IH|k l c ls gs h T D1 D2 F P1 P2 H0 BD IH|k l c ls gs sa sb a b ws cs T E0 D1 Na Nb F Pa Pb W Lc BD IH].
  - exists [], l. split; [reflexivity|]. split; auto.
  - destruct IH as (i & z & -> & B & N). exists (l :: i), z. split; [reflexivity|]. split; auto. constructor; auto. eapply ten_not_blank; eauto.
  - destruct IH as (i & z & -> & B & N). exists (l :: i), z. split; [reflexivity|]. split; auto. constructor; auto. eapply ten_not_blank; eauto.
  - destruct IH as (i & z & -> & B & N). exists (l :: ws ++ i), z. split; [cbn [app]; now rewrite app_assoc|]. split; auto.
    constructor; [eapply ten_not_blank; eauto|]. apply Forall_app. split; auto. clear -W. induction W; constructor; auto. eapply ten_not_blank; eauto.
Qed.

Lemma sentence_ends ls rows : Forall (fun l => here l) ls -> sentence_lines ls rows -> ends_blank ls.
Proof.
  intros H S. induction S as [l B|l ls rows C S IH|l ls rows [C B] S IH]; inversion H; subst.
  - exists [], l. split; [reflexivity|]. split; auto. now apply blank_same.
  - destruct IH as (i & z & -> & X & N); auto. exists (l :: i), z. split; [reflexivity|]. split; auto. constructor; auto.
    rewrite blank_same by auto. intros Y. destruct C as (s & C). unfold blank_line in Y. rewrite Y in C. discriminate.
  - destruct IH as (i & z & -> & X & N); auto. exists (l :: i), z. split; [reflexivity|]. split; auto. constructor; auto.
    rewrite blank_same by auto. auto.
Qed.

Lemma ends_unique a b r r' : ends_blank a -> ends_blank b -> a ++ r = b ++ r' -> b = a /\ r' = r.
Proof.
  intros (i & l & -> & B & N) (j & m & -> & B' & N') E. rewrite <- !app_assoc in E. cbn [app] in E. revert j N' E.
  induction i as [|x i IH]; intros [|y j] N' E; cbn [app] in E; injection E as <- E.
  - subst. auto.
  - inversion N'; contradiction.
  - inversion N; contradiction.
  - inversion N; inversion N'; subst. destruct (IH H2 j H6 E) as [X ->]. cbn [app]. now rewrite X.
Qed.

Lemma file_grouped L gss : ud_lines L gss -> Forall (fun l => here l) L -> forall lss rest gss',
  L = concat lss ++ rest -> Forall2 (fun lines gs => exists rows, sentence_lines lines rows /\ grouped row_id rows gs) lss gss' ->
  Forall ignorable rest -> gss' = gss.
Proof.
  induction 1 as [|l ls gss C UL IH|l ls gs rest0 gss C B UL IH]; intros H lss rest gss' E F I.
  - destruct F as [|lines gs lss gss' (rows & S & _) F]; [reflexivity|]. symmetry in E. apply app_eq_nil in E as [E _]. cbn [concat] in E.
    apply app_eq_nil in E as [-> _]. inversion S.
  - inversion H as [|? ? Hl Hls]; subst. apply (comment_same l Hl) in C.
    destruct F as [|lines gs lss gss' (rows & S & G) F].
    + cbn [concat app] in E. subst rest. inversion I; subst. eapply (IH Hls [] ls); eauto.
    + cbn [concat] in E. destruct lines as [|l' lines]; [inversion S|]. cbn [app] in E. injection E as <- E.
      assert (S' : sentence_lines lines rows).
      { inversion S as [x Bx|x xs rx Cx Sx|x xs rx [Cx _] Sx]; subst; auto; [|contradiction].
        exfalso. destruct C as (s & C). unfold blank_line in Bx. rewrite Bx in C. discriminate. }
      apply (IH Hls (lines :: lss) rest (gs :: gss')); auto. constructor; eauto.
  - apply Forall_app in H as [H1 H2]. pose proof (body_ends _ _ _ B) as EB.
    destruct F as [|lines gs0 lss gss' (rows & S & G) F].
    + exfalso. change (concat [] ++ rest) with rest in E. rewrite <- E in I. apply Forall_app in I as [I _]. destruct EB as (i & z & EZ & BZ & _).
      rewrite EZ in I, H1. apply Forall_app in I as [_ I]. apply Forall_app in H1 as [_ H1]. inversion I as [|? ? I1 _]; inversion H1; subst.
      apply blank_same in BZ; auto. unfold blank_line in BZ. destruct I1 as [(s & X)|([_ X] & _)]; [rewrite BZ in X; discriminate|contradiction].
    + cbn [concat] in E. rewrite <- app_assoc in E.
      assert (HL : Forall (fun l => here l) lines).
      { assert (X : Forall (fun l => here l) (lines ++ concat lss ++ rest)) by (rewrite <- E; apply Forall_app; auto). now apply Forall_app in X. }
      pose proof (sentence_ends _ _ HL S) as ES. destruct (ends_unique _ _ _ _ EB ES E) as [-> E2]. f_equal.
      * eapply body_grouped; eauto.
      * eapply IH; eauto.
Qed.
End File.
