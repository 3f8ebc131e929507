(* Files that need many or few calls. *)
From Coq Require Import String ZArith NArith QArith Bool Sorted Lia List.
From Verif Require Import Base BaseFacts Model_Datamodel Model_Conllu Spec_Datamodel Spec_Conllu Model_UDEval Spec_UDEval Proofs_UDEval.
From Verif Require Import Proofs_Datamodel Proofs_Datamodel2 Proofs_Syntax Proofs_Conllu Proofs_Conllu5 Proofs_Conllu7 Proofs_Conllu10 Proofs_UDEval3 Proofs_UDEval4
  Proofs_UDEval5 Proofs_UDEval6 Proofs_UDEval8 Proofs_UDEval9.
From Verif Require Import Model_Recursion Spec_Recursion Proofs_Recursion Proofs_Recursion2.
Import ListNotations.
Open Scope Z_scope.

(* ---- a sentence with given heads ---- *)

Definition row_cells (k h : Z) : list str :=
  [print_Z k; of_string "w"; of_string "_"; of_string "_"; of_string "_"; of_string "_"; print_Z h; of_string "_"; of_string "_"; of_string "_"].
Definition row_line (k h : Z) : str := join [chTAB] (row_cells k h) ++ [chNL].

Fixpoint row_lines (k : Z) (hs : list Z) : list str :=
  match hs with
  | [] => [[chNL]]
  | h :: hs' => row_line (k + 1) h :: row_lines (k + 1) hs'
  end.
Fixpoint row_groups (k : Z) (hs : list Z) : list (group (list str)) :=
  match hs with
  | [] => []
  | h :: hs' => GWord (row_cells (k + 1) h) :: row_groups (k + 1) hs'
  end.

Lemma cells_clean k h : Forall clean (row_cells k h).
Proof.
  unfold row_cells. repeat (apply Forall_cons); auto; try apply clean_print; try apply clean_underscore.
  split; intros [C|[]]; discriminate.
Qed.

Lemma join_no_nl l : Forall clean l -> ~ In chNL (join [chTAB] l).
Proof.
  induction 1 as [|x l [_ C] F IH]; [intros []|]. destruct l as [|y l]; [exact C|].
  change (join [chTAB] (x :: y :: l)) with (x ++ [chTAB] ++ join [chTAB] (y :: l)).
  intro I0. apply in_app_or in I0 as [I0|I0]; [contradiction|]. destruct I0 as [C0|I0]; [discriminate|]. contradiction.
Qed.

Lemma row_file_line k h : file_lines (row_line k h) = [row_line k h].
Proof. apply file_lines_one, join_no_nl, cells_clean. Qed.

Lemma row_end k h : exists x, join [chTAB] (row_cells k h) = x ++ [95%N].
Proof.
  unfold row_cells. exists (join [chTAB] [print_Z k; of_string "w"; of_string "_"; of_string "_"; of_string "_"; of_string "_"; print_Z h; of_string "_"; of_string "_"] ++ [chTAB]).
  cbn [join]. repeat (rewrite <- app_assoc; cbn [app]). repeat f_equal.
Qed.

Lemma row_ten k h : ten_cells (row_line k h) (row_cells k h).
Proof.
  apply ten_cells_iff. split; [|reflexivity].
  assert (E : rstrip_crlf (row_line k h) = join [chTAB] (row_cells k h)).
  { apply line_text_iff. exists [chNL]. split; [reflexivity|]. split; [constructor; auto|].
    intros l c E. destruct (row_end k h) as (x & Ex). rewrite Ex in E. apply app_inj_tail in E as [_ <-]. split; discriminate. }
  rewrite E. symmetry. apply split_join; [discriminate|].
  eapply Forall_impl; [|apply cells_clean]. intros s [C _]. exact C.
Qed.

Lemma rows_body : forall hs k, 0 <= k -> Forall (fun h => 0 <= h) hs -> ud_body k (row_lines k hs) (row_groups k hs).
Proof.
  induction hs as [|h hs IH]; intros k K F.
  - constructor. apply blank_iff. reflexivity.
  - inversion F; subst. cbn [row_lines row_groups]. eapply ub_word with (h := h); auto.
    + apply row_ten.
    + apply print_no_dot.
    + apply print_no_dash. lia.
    + discriminate.
    + apply parse_print_Z.
    + apply parse_print_Z.
    + apply IH; auto. lia.
Qed.

Lemma row_not_comment k h : 0 <= k -> ~ ud_comment (row_line k h).
Proof.
  intros K (rest & L). apply line_text_iff in L. destruct (ten_cells_iff (row_line k h) (row_cells k h)) as [T _].
  destruct (T (row_ten k h)) as [E _]. rewrite L in E.
  assert (C : cell (row_cells k h) 0 = cell (split chTAB (35%N :: rest)) 0) by (now rewrite <- E).
  cbn [row_cells cell nth] in C. unfold cell in C. cbn [nth row_cells] in C.
  destruct (split chTAB (35%N :: rest)) as [|p ps] eqn:Es; [now apply split_nonempty in Es|].
  cbn [nth] in C. subst p.
  destruct (print_Z k) as [|c s] eqn:Ep; [now apply print_Z_nonnil in Ep|].
  pose proof (Proofs_Conllu3.join_split chTAB (35%N :: rest)) as J. rewrite Es in J.
  assert (Ec : c = 35%N) by (destruct ps; cbn in J; injection J as J; auto).
  pose proof (print_Z_chars k) as D. rewrite Ep in D. inversion D as [|? ? [D1|D1] _]; subst; [unfold is_digit in D1; lia|discriminate].
Qed.

Lemma rows_file_lines : forall hs k, file_lines (concat (row_lines k hs)) = row_lines k hs.
Proof.
  induction hs as [|h hs IH]; intro k; [reflexivity|]. cbn [row_lines concat].
  rewrite file_lines_app by (right; unfold row_line; eauto). rewrite row_file_line, IH. reflexivity.
Qed.

Lemma rows_cells : forall hs k, word_cells (row_groups k hs) = map (fun ih => row_cells (fst ih) (snd ih)) (combine (map (fun i => k + 1 + Z.of_nat i) (seq 0 (length hs))) hs).
Proof.
  unfold word_cells. induction hs as [|h hs IH]; intro k; [reflexivity|].
  cbn [row_groups flat_map words_of app map length seq combine fst snd]. f_equal; [f_equal; lia|].
  rewrite IH. rewrite <- (seq_shift (length hs) 0), map_map. f_equal. f_equal. apply map_ext. intro i. lia.
Qed.

Lemma rows_heads : forall hs k n, Forall (fun h => 0 <= h <= n) hs ->
  Forall2 (fun c h => parse_int (cell c 6) = Ok h /\ 0 <= h <= n) (word_cells (row_groups k hs)) hs.
Proof.
  unfold word_cells. induction hs as [|h hs IH]; intros k n F; [constructor|]. inversion F; subst.
  cbn [row_groups flat_map words_of app map fst snd]. constructor; [|apply IH; auto]. split; auto. apply parse_print_Z.
Qed.

Lemma rows_count : forall hs k, zlen (word_cells (row_groups k hs)) = zlen hs.
Proof. intros hs k. rewrite rows_cells. unfold zlen. rewrite map_length, combine_length, map_length, seq_length. lia. Qed.

Lemma rows_tree hs : hs <> [] -> Forall (fun h => 0 <= h <= zlen hs) hs -> dependency_tree (map (fun h => Some (h - 1)) hs) ->
  exists gs, ud_lines (file_lines (concat (row_lines 0 hs))) [gs] /\ tree_heads gs hs.
Proof.
  intros N F T. exists (row_groups 0 hs). split.
  - rewrite rows_file_lines. destruct hs as [|h hs]; [contradiction|]. cbn [row_lines].
    rewrite <- (app_nil_r (row_line (0 + 1) h :: _)). apply ul_sentence; [apply row_not_comment; lia| |constructor].
    apply (rows_body (h :: hs) 0); [lia|]. eapply Forall_impl; [|exact F]. cbn. lia.
  - split; auto. unfold heads_are. rewrite rows_count. now apply rows_heads.
Qed.

(* ---- every head is the next word ---- *)

Definition forward (n : nat) : list Z := map (fun i => Z.of_nat (S (S i))) (seq 0 n) ++ [0].

Lemma forward_length n : length (forward n) = S n.
Proof. unfold forward. rewrite app_length, map_length, seq_length. cbn. lia. Qed.

Lemma forward_last n : nth_error (forward n) n = Some 0.
Proof. unfold forward. rewrite nth_error_app2 by (rewrite map_length, seq_length; lia). rewrite map_length, seq_length, Nat.sub_diag. reflexivity. Qed.

Lemma forward_at n i : (i < n)%nat -> nth_error (forward n) i = Some (Z.of_nat (S (S i))).
Proof.
  intro L. unfold forward. rewrite nth_error_app1 by (now rewrite map_length, seq_length).
  apply map_nth_error with (f := fun i => Z.of_nat (S (S i))). rewrite (nth_error_nth' _ 0%nat) by (now rewrite seq_length).
  now rewrite seq_nth.
Qed.

Lemma forward_way n : forall m i, (i + m = n)%nat -> way (forward n) i (seq i (S m)).
Proof.
  induction m as [|m IH]; intros i E.
  - cbn. constructor. replace i with n by lia. apply forward_last.
  - change (seq i (S (S m))) with (i :: seq (S i) (S m)). apply way_up with (h := Z.of_nat (S (S i))).
    + apply forward_at. lia.
    + lia.
    + replace (Z.to_nat (Z.of_nat (S (S i)) - 1)) with (S i) by lia. apply IH. lia.
Qed.

Lemma forward_tree n : dependency_tree (map (fun h => Some (h - 1)) (forward n)).
Proof.
  assert (B : forall i, (i <= n)%nat -> exists h, nth_error (forward n) i = Some h /\ ((i = n /\ h = 0) \/ (i < n)%nat /\ h = Z.of_nat (S (S i)))).
  { intros i L. destruct (Nat.eq_dec i n) as [->|]; [exists 0; rewrite forward_last; auto|]. exists (Z.of_nat (S (S i))). rewrite forward_at by lia. split; auto. right. split; [lia|auto]. }
  assert (A : forall i x, nth_error (map (fun h => Some (h - 1)) (forward n)) i = Some x ->
     exists h, x = Some (h - 1) /\ (i <= n)%nat /\ ((i = n /\ h = 0) \/ (i < n)%nat /\ h = Z.of_nat (S (S i)))).
  { intros i x E. rewrite nth_error_map in E. assert (L : (i <= n)%nat).
    { destruct (nth_error (forward n) i) as [h|] eqn:Eh; [|discriminate]. apply nth_error_Some_lt in Eh. rewrite forward_length in Eh. lia. }
    destruct (B i L) as (h & Eh & C). rewrite Eh in E. cbn in E. injection E as <-. eauto. }
  split; [|split; [|split]].
  - intros i E. destruct (A _ _ E) as (h & C & _). discriminate.
  - exists n. split.
    + rewrite nth_error_map, forward_last. reflexivity.
    + intros r E. destruct (A _ _ E) as (h & C & _ & [[-> _]|[L Eh]]); auto. assert (h - 1 = -1) by congruence. lia.
  - intros i h E. rewrite map_length, forward_length. destruct (A _ _ E) as (x & C & _ & [[-> Ex]|[L Ex]]); assert (h = x - 1) by congruence; lia.
  - intros i L. rewrite map_length, forward_length in L. remember (n - i)%nat as m eqn:Em. revert i L Em.
    induction m as [|m IH]; intros i L Em.
    + apply rr_root. replace i with n by lia. rewrite nth_error_map, forward_last. reflexivity.
    + apply rr_step with (h := S i).
      * rewrite nth_error_map, forward_at by lia. cbn [option_map]. f_equal. f_equal. lia.
      * apply IH; lia.
Qed.

Lemma forward_range n : Forall (fun h => 0 <= h <= zlen (forward n)) (forward n).
Proof.
  apply Forall_forall. intros h I0. unfold zlen. rewrite forward_length. unfold forward in I0. apply in_app_or in I0 as [I0|[<-|[]]]; [|lia].
  apply in_map_iff in I0 as (i & <- & I0). apply in_seq in I0. lia.
Qed.

Lemma forward_climb n : climb (forward n) 0 (seq 0 n).
Proof.
  exists [n]. split.
  - replace (seq 0 n ++ [n]) with (seq 0 (S n)) by (rewrite seq_S; reflexivity). now apply forward_way.
  - intros j I0. apply in_seq in I0. split; [|intros i' p C; lia]. rewrite forward_at by lia. intro C. injection C as C. lia.
Qed.

Lemma deep_file limit : exists text u, load_conllu text = Ok u /\ length (u_words u) = S limit /\ load_conllu_in limit text = Err ERuntime.
Proof.
  destruct (rows_tree (forward limit)) as (gs & UL & T).
  - intro C. apply (f_equal (@length Z)) in C. rewrite forward_length in C. discriminate.
  - apply forward_range.
  - apply forward_tree.
  - exists (concat (row_lines 0 (forward limit))).
    destruct (load_accepts _ [gs] UL) as (u & Eu); [constructor; eauto|]. exists u. split; [exact Eu|]. split.
    + rewrite (load_is_steps _ _ UL) in Eu. cbn [foldM] in Eu. apply bind_ok_iff in Eu as (u' & Eu & E). injection E as <-.
      destruct (step_tree _ _ _ _ Eu (proj1 T)) as [_ P]. apply (f_equal (@length parent)) in P. cbn in P.
      rewrite !map_length, forward_length in P. exact P.
    + destruct (load_in_exact limit _ [gs] [forward limit] UL) as [_ E2]; [constructor; auto|].
      apply E2. intro F. inversion F as [|? ? F1 _]; subst. specialize (F1 _ _ (forward_climb limit)). rewrite seq_length in F1. lia.
Qed.

(* ---- heads before their words ---- *)

Definition parents_before (ps : list parent) : Prop := forall i k, nth_error ps i = Some (PaWord k) -> k < Z.of_nat i.

Lemma before_heads : forall hss st pre, zlen pre = st -> parents_before (pre ++ expected_parents st hss) -> Forall (Forall (fun h => 0 <= h)) hss ->
  Forall (fun hs => forall j h, nth_error hs j = Some h -> h <= Z.of_nat j) hss.
Proof.
  induction hss as [|hs hss IH]; intros st pre L P N; [constructor|]. inversion N as [|? ? N1 N2]; subst. cbn [expected_parents] in P. constructor.
  - intros j h E. destruct (Z.eq_dec h 0) as [->|Nh]; [lia|].
    specialize (P (length pre + j)%nat (zlen pre + (h - 1))).
    rewrite nth_error_app2 in P by lia. replace (length pre + j - length pre)%nat with j in P by lia.
    assert (Lj := nth_error_Some_lt _ _ _ E). rewrite nth_error_app1 in P by (now rewrite map_length).
    rewrite nth_error_map, E in P. cbn in P. destruct (Z.eqb_spec h 0); [contradiction|]. specialize (P eq_refl). unfold zlen in P. lia.
  - eapply (IH (zlen pre + zlen hs) (pre ++ map (fun h => if h =? 0 then PaNone else PaWord (zlen pre + (h - 1))) hs)); auto.
    + rewrite zlen_app. unfold zlen. now rewrite map_length.
    + now rewrite <- app_assoc.
Qed.

Lemma heads_before : forall hss st pre, zlen pre = st -> parents_before pre ->
  Forall (fun hs => forall j h, nth_error hs j = Some h -> h <= Z.of_nat j) hss -> parents_before (pre ++ expected_parents st hss).
Proof.
  induction hss as [|hs hss IH]; intros st pre L P F; cbn [expected_parents]; [now rewrite app_nil_r|].
  inversion F as [|? ? F1 F2]; subst. rewrite app_assoc. apply IH; auto.
  - rewrite zlen_app. unfold zlen. now rewrite map_length.
  - intros i k E. destruct (Nat.lt_ge_cases i (length pre)) as [Li|Li].
    + rewrite nth_error_app1 in E by auto. now apply P.
    + rewrite nth_error_app2 in E by auto. rewrite nth_error_map in E. destruct (nth_error hs (i - length pre)) as [h|] eqn:Eh; [|discriminate].
      cbn in E. destruct (h =? 0); [discriminate|]. injection E as <-. apply F1 in Eh. unfold zlen. lia.
Qed.

Lemma trees_nonneg gss hss : Forall2 tree_heads gss hss -> Forall (Forall (fun h => 0 <= h)) hss.
Proof.
  induction 1 as [|gs hs gss hss [H _] F IH]; constructor; auto. unfold heads_are in H. revert H.
  generalize (zlen (word_cells gs)). intros n H. induction H as [|c h cs hs' [_ R] H IH']; constructor; auto. lia.
Qed.

Lemma load_before limit text u : ud_heads_nonneg text -> load_conllu text = Ok u -> parents_before (map w_parent (u_words u)) -> (2 <= limit)%nat ->
  load_conllu_in limit text = Ok u.
Proof.
  intros NN E P L. destruct (load_trees text u NN E) as (gss & hss & UL & T & Ep). rewrite Ep in P.
  assert (B := before_heads hss 0 [] eq_refl P (trees_nonneg _ _ T)).
  destruct (load_in_exact limit text gss hss UL T) as [E1 _]. rewrite <- E. apply E1.
  eapply Forall_impl; [|exact B]. intros hs H i l C. pose proof (backward_fits hs H i l C). lia.
Qed.

Lemma written_before cols : forall ts k, (chosen cols 6 = false \/ Forall (fun t => thsent t = None) ts) -> 1 <= k ->
  forall j h, nth_error (written_heads cols k ts) j = Some h -> h = k - 1 + Z.of_nat j.
Proof.
  induction ts as [|t ts IH]; intros k U K j h E; [destruct j; discriminate|]. cbn [written_heads] in E. destruct j as [|j].
  - cbn in E. injection E as E. destruct U as [U|U].
    + rewrite U in E. destruct (thsent t); lia.
    + inversion U as [|? ? Ht _]; subst. rewrite Ht. lia.
  - cbn in E. apply IH in E; [lia| |lia]. destruct U as [U|U]; auto. inversion U; auto.
Qed.

Lemma written_shallow cols ds gsss limit : Forall doc_inv ds -> Forall (fun d => tags_writable cols (dtokens d)) ds ->
  Forall2 sentence_groups ds gsss -> Forall no_pending gsss -> Forall loadable ds ->
  (chosen cols 6 = false \/ Forall (fun d => Forall (fun t => thsent t = None) (dtokens d)) ds) -> (2 <= limit)%nat ->
  exists out u, write_str cols ds = Ok out /\ load_conllu_in limit out = Ok u.
Proof.
  intros V T G P L U L2. exists (concat (map (fun p => doc_out cols (fst p) (snd p)) (combine ds gsss))).
  assert (R : Forall doc_ready ds). { apply Forall_forall. intros d I0. rewrite Forall_forall in V, L. split; auto. }
  pose proof (documents_lines cols ds gsss R G) as UL. pose proof (documents_trees cols ds gsss R G) as TR.
  destruct (load_in_exact limit _ _ _ UL TR) as [E1 _]. destruct E1 as [E1 (u & E)].
  - apply Forall_concat, Forall_forall. intros hss I0. apply in_map_iff in I0 as (d & <- & Id).
    apply Forall_forall. intros hs I1. unfold doc_heads in I1. apply in_map_iff in I1 as (s & <- & Is).
    assert (F : fits 2 (written_heads cols 1 (tokens_of (dtokens d) s))).
    { apply backward_fits. intros j h Eh. apply written_before in Eh; [lia| |lia].
      destruct U as [U|U]; auto. right. rewrite Forall_forall in U. specialize (U d Id).
      apply Forall_forall. intros t It. rewrite Forall_forall in U. apply U.
      eapply Proofs_Conllu6.tokens_of_in; eauto. }
    intros i l C. specialize (F i l C). lia.
  - exists u. split; [exact (Proofs_Conllu6.writer_output cols ds gsss V T G P)|congruence].
Qed.
