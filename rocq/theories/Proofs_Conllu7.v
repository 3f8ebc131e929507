(* Reading back what the CoNLL-U writer wrote: lines and rows. *)
From Coq Require Import String Ascii ZArith NArith Bool Lia Permutation Sorted List.
From Verif Require Import Base BaseFacts Model_Datamodel Model_Conllu Spec_Datamodel Spec_Conllu
  Proofs_Datamodel Proofs_Syntax Proofs_Datamodel2 Proofs_Datamodel4 Proofs_Conllu Proofs_Conllu2 Proofs_Conllu3
  Proofs_Conllu4 Proofs_Conllu5 Proofs_Conllu6.
Import ListNotations.
Open Scope Z_scope.

(* ---- lines ---- *)

Lemma drop_while_id {A} (p : A -> bool) c s : p c = false -> drop_while p (c :: s) = c :: s.
Proof. intros H. simpl. rewrite H. auto. Qed.

Lemma strip_crlf_line c m z : is_crlf c = false -> is_crlf z = false -> strip_crlf (c :: m ++ [z] ++ [chNL]) = c :: m ++ [z].
Proof.
  intros Hc Hz. unfold strip_crlf. rewrite drop_while_id by auto.
  assert (R : rev (c :: m ++ [z] ++ [chNL]) = chNL :: z :: rev (c :: m)).
  { change (c :: m ++ [z] ++ [chNL]) with ((c :: m) ++ [z; chNL]). rewrite rev_app_distr. reflexivity. }
  rewrite R. change (drop_while is_crlf (chNL :: z :: rev (c :: m))) with (drop_while is_crlf (z :: rev (c :: m))).
  rewrite (drop_while_id is_crlf z (rev (c :: m)) Hz).
  change (rev (rev (c :: m)) ++ [z] = (c :: m) ++ [z]). rewrite rev_involutive. auto.
Qed.

(* rows as the writer writes them *)
Record row_fit (cells : list str) : Prop := {
  rf_clean : Forall clean cells;
  rf_first : exists c s, hd [] cells = c :: s /\ is_crlf c = false /\ c <> 35%N;
  rf_last : exists s z, last cells [] = s ++ [z] /\ is_crlf z = false;
  rf_two : (2 <= length cells)%nat
}.

Lemma join_cons c x y l : join [c] (x :: y :: l) = x ++ c :: join [c] (y :: l).
Proof. reflexivity. Qed.

Lemma join_last c l : l <> [] -> exists p, join [c] l = p ++ last l [].
Proof.
  induction l as [|x l IH]; [congruence|]. intros _. destruct l as [|y l]; [exists []; reflexivity|].
  destruct IH as [p Hp]; [discriminate|]. rewrite join_cons, Hp. exists (x ++ c :: p). simpl.
  rewrite <- app_assoc. reflexivity.
Qed.

Lemma join_in c l x : In x (join [c] l) -> x = c \/ exists s, In s l /\ In x s.
Proof.
  induction l as [|a l IH]; [intros []|]. destruct l as [|b l].
  - simpl. rewrite ?app_nil_r. intros H. right. exists a. auto.
  - rewrite join_cons, in_app_iff. intros [H|[H|H]]; [right; exists a; simpl; auto|auto|].
    destruct (IH H) as [|(s & S1 & S2)]; auto. right. exists s. split; auto. right; auto.
Qed.

Lemma row_line_cells cells : row_fit cells ->
  cells_of (join [chTAB] cells ++ [chNL]) = cells /\ row_line (join [chTAB] cells ++ [chNL]) /\
  file_lines (join [chTAB] cells ++ [chNL]) = [join [chTAB] cells ++ [chNL]].
Proof.
  intros [C (c & s & F1 & F2 & F3) (s' & z & L1 & L2) N].
  destruct cells as [|x [|y l]]; simpl in N; try lia. simpl in F1. subst x.
  assert (J : exists m, join [chTAB] ((c :: s) :: y :: l) = c :: m ++ [z]).
  { rewrite join_cons. destruct (join_last chTAB (y :: l)) as [p Hp]; [discriminate|]. rewrite Hp.
    change (last ((c :: s) :: y :: l) []) with (last (y :: l) []) in L1. rewrite L1. exists (s ++ chTAB :: p ++ s'). simpl.
    rewrite <- !app_assoc. simpl. rewrite <- app_assoc. reflexivity. }
  destruct J as [m J].
  assert (S0 : strip_crlf (join [chTAB] ((c :: s) :: y :: l) ++ [chNL]) = join [chTAB] ((c :: s) :: y :: l)).
  { rewrite J. cbn [app]. rewrite <- app_assoc. apply strip_crlf_line; auto. }
  split; [|split].
  - unfold cells_of. etransitivity; [exact (f_equal (split chTAB) S0)|]. apply split_join; [discriminate|]. eapply Forall_impl; [|exact C]. intros a []; auto.
  - split.
    + intros [q Hq]. assert (X := eq_trans (eq_sym S0) Hq). rewrite J in X. injection X as X _. auto.
    + intros X. assert (Y := eq_trans (eq_sym S0) X). rewrite J in Y. discriminate.
  - apply file_lines_one. intros H. apply join_in in H. destruct H as [H|(q & Q1 & Q2)]; [discriminate|].
    rewrite Forall_forall in C. apply C in Q1. destruct Q1; auto.
Qed.

Lemma rendered_lines cols rows rest : Forall row_fit rows ->
  events cols (file_lines (rendered rows ++ [chNL] ++ rest)) =
  map (fun c => match parse_line cols c with Ok r => EvRow r | Err e => EvErr e end) rows ++ EvBlank :: events cols (file_lines rest).
Proof.
  induction 1 as [|c rows F Fs IH].
  - reflexivity.
  - rewrite rendered_cons. unfold format_line. rewrite <- !app_assoc.
    destruct (row_line_cells c F) as (C1 & C2 & C3).
    change (join [chTAB] c ++ [chNL] ++ rendered rows ++ [chNL] ++ rest) with (join [chTAB] c ++ [chNL] ++ (rendered rows ++ [chNL] ++ rest)).
    rewrite app_assoc, file_lines_app by (right; eexists; reflexivity). rewrite C3, events_app, IH. cbn [events map app].
    destruct (line_event_spec cols (join [chTAB] c ++ [chNL])) as [[H _]|[[H _]|[_ H]]].
    + destruct C2; contradiction.
    + destruct C2; contradiction.
    + rewrite H, C1. reflexivity.
Qed.

(* ---- cells ---- *)

Lemma clean_app a b : clean a -> clean b -> clean (a ++ b).
Proof. unfold clean. rewrite !in_app_iff. tauto. Qed.

Lemma clean_cons c s : c <> chTAB -> c <> chNL -> clean s -> clean (c :: s).
Proof. unfold clean. simpl. intros. split; intros [|]; [congruence|tauto|congruence|tauto]. Qed.

Lemma clean_underscore : clean (of_string "_").
Proof. split; intros [H|[]]; discriminate. Qed.

Lemma clean_print z : clean (print_Z z).
Proof.
  pose proof (print_Z_chars z) as H. rewrite Forall_forall in H. unfold is_digit in H. split; intros I; apply H in I; unfold chTAB, chNL in *; lia.
Qed.

Lemma clean_spacing b : clean (spacing b).
Proof. destruct b; [apply clean_underscore|]. split; simpl; intros H; repeat (destruct H as [H|H]; [discriminate|]); destruct H. Qed.

Lemma clean_shown o : clean_opt o -> clean (shown o).
Proof. destruct o; simpl; intros H; [apply H; auto|apply clean_underscore]. Qed.

Definition entry_text (kv : str * str) : str := fst kv ++ 61%N :: snd kv.

Lemma feats_cell_eq fs : fs <> [] -> feats_cell fs = join [124%N] (isort str_leb (map entry_text fs)).
Proof. destruct fs; [congruence|reflexivity]. Qed.

Lemma clean_feats fs : Forall (fun kv => clean_entry (fst kv) /\ clean_entry (snd kv)) fs -> clean (feats_cell fs).
Proof.
  intros F. destruct fs as [|f fs]; [apply clean_underscore|]. rewrite feats_cell_eq by discriminate.
  assert (C : Forall clean (isort str_leb (map entry_text (f :: fs)))).
  { apply Forall_forall. intros x Hx. apply (Permutation_in _ (Permutation_sym (isort_perm _ _))) in Hx.
    apply in_map_iff in Hx. destruct Hx as (kv & <- & Hkv). rewrite Forall_forall in F. apply F in Hkv.
    destruct Hkv as [[? _] [? _]]. apply clean_app; auto. apply clean_cons; auto; discriminate. }
  rewrite Forall_forall in C. split; intros I; apply join_in in I; destruct I as [I|(s & S1 & S2)]; try discriminate;
  apply C in S1; destruct S1; auto.
Qed.

Lemma clean_if (b : bool) x y : clean x -> clean y -> clean (if b then x else y).
Proof. destruct b; auto. Qed.

Lemma clean_row cols text i t m : token_clean text t -> clean m -> Forall clean (expected_row cols text i t m).
Proof.
  intros C M. unfold expected_row.
  assert (U : clean (of_string "_")) by apply clean_underscore.
  assert (P : clean_opt (match tpos t with Some p => upos p | None => None end) /\ clean_opt (match tpos t with Some p => xpos p | None => None end) /\
              clean (match tpos t with Some p => feats_cell (feats p) | None => of_string "_" end)).
  { pose proof (tc_tags _ _ C) as T. destruct (tpos t) as [p|].
    - destruct (T p eq_refl) as (T1 & T2 & T3). split; auto. split; auto. apply clean_feats; auto.
    - split; [intros ? ?; discriminate|]. split; [intros ? ?; discriminate|]. auto. }
  destruct P as (P1 & P2 & P3).
  repeat match goal with
  | |- Forall clean (_ :: _) => constructor
  | |- Forall clean [] => constructor
  | |- clean (if _ then _ else _) => apply clean_if
  | |- clean (print_Z _) => apply clean_print
  | |- clean (shown _) => apply clean_shown
  | |- clean (match thsent t with _ => _ end) => destruct (thsent t)
  end; auto; try apply C.
Qed.

Lemma print_Z_first i s : 1 <= i -> exists c r, print_Z i ++ s = c :: r /\ is_digit c.
Proof.
  intros Hi. unfold print_Z. destruct i; try lia.
  pose proof (print_N_digits (Z.to_N (Z.pos p))) as D. destruct (print_N (Z.to_N (Z.pos p))) as [|c r] eqn:E; [destruct (print_N_nonnil _ E)|].
  inversion D; subst. exists c, (r ++ s). auto.
Qed.

Lemma digit_fit c : is_digit c -> is_crlf c = false /\ c <> 35%N.
Proof. unfold is_digit, is_crlf, chCR, chNL. intros H. split; [apply orb_false_iff; split; apply N.eqb_neq; lia|lia]. Qed.

Lemma spacing_last b : exists s z, spacing b = s ++ [z] /\ is_crlf z = false.
Proof. destruct b; [exists [], 95%N|exists (of_string "SpaceAfter=N"), 111%N]; auto. Qed.

Lemma fit_row cols text i t b : 1 <= i -> token_clean text t -> row_fit (expected_row cols text i t (spacing b)).
Proof.
  intros Hi C. constructor.
  - apply clean_row; auto. apply clean_spacing.
  - destruct (print_Z_first i [] Hi) as (c & r & E & D). rewrite app_nil_r in E. exists c, r. split; auto. apply digit_fit; auto.
  - apply spacing_last.
  - simpl. lia.
Qed.

Lemma fit_range text i t n : 1 <= i -> token_clean text t -> row_fit (expected_range text i t n).
Proof.
  intros Hi C. constructor.
  - unfold expected_range. pose proof clean_underscore. repeat (apply Forall_cons; auto).
    + apply clean_app; [apply clean_print|]. apply clean_cons; try discriminate. apply clean_print.
    + apply (tc_surface _ _ C).
    + apply clean_spacing.
  - destruct (print_Z_first i (45%N :: print_Z (i + n - 1)) Hi) as (c & r & E & D). exists c, r. split; auto. apply digit_fit; auto.
  - apply spacing_last.
  - simpl. lia.
Qed.

Lemma fit_words cols text ws : forall i, 1 <= i -> Forall (token_clean text) ws -> Forall row_fit (word_rows cols text i ws).
Proof.
  induction ws as [|w ws IH]; intros i Hi F; simpl; constructor; inversion F; subst; auto.
  - apply (fit_row cols text i w true); auto.
  - apply IH; auto; lia.
Qed.

(* ranges begin with their first word *)
Definition headed (g : group token) : Prop := match g with GWord _ => True | GRange t ws => In t ws end.

Lemma headed_pos t ws : In t ws -> 1 <= zlen (A:=token) ws.
Proof. destruct ws; [intros []|]. rewrite zlen_cons. pose proof (zlen_nonneg ws). lia. Qed.

Lemma fit_rows cols text gs : forall i, 1 <= i -> Forall headed gs -> Forall (token_clean text) (flat_map members gs) ->
  Forall row_fit (expected_rows cols text i gs).
Proof.
  induction gs as [|g gs IH]; intros i Hi H F; simpl; [constructor|]. inversion H; subst. simpl in F. apply Forall_app in F. destruct F as [F1 F2].
  destruct g as [t|t ws]; cbn in F1.
  - constructor; [apply fit_row; inversion F1; auto|]. apply IH; auto; lia.
  - constructor; [|apply Forall_app; split].
    + apply fit_range; auto. rewrite Forall_forall in F1. auto.
    + apply fit_words; auto.
    + apply IH; auto. pose proof (headed_pos _ _ H2). lia.
Qed.

(* ---- values ---- *)

Lemma print_not_underscore z : str_eqb (print_Z z) (of_string "_") = false.
Proof.
  apply str_eqb_neq. intros E. pose proof (print_Z_chars z) as H. rewrite E in H. inversion H; subst. unfold is_digit in *.
  destruct H2; [lia|discriminate].
Qed.

Lemma entry_split kv : clean_entry (fst kv) -> clean_entry (snd kv) -> split 61%N (entry_text kv) = [fst kv; snd kv].
Proof.
  intros [_ [H1 _]] [_ [H2 _]]. unfold entry_text. rewrite split_app by auto. rewrite split_no by auto. auto.
Qed.

Lemma feats_split fs : fs <> [] -> Forall (fun kv => clean_entry (fst kv) /\ clean_entry (snd kv)) fs ->
  split 124%N (feats_cell fs) = isort str_leb (map entry_text fs) /\
  (forall e, In e (split 124%N (feats_cell fs)) <-> In e (map entry_text fs)) /\ str_eqb (feats_cell fs) (of_string "_") = false.
Proof.
  intros N F. rewrite feats_cell_eq by auto.
  assert (NN : isort str_leb (map entry_text fs) <> []).
  { intros E. apply (f_equal (@length _)) in E. rewrite isort_length, map_length in E. destruct fs; [congruence|discriminate]. }
  assert (P : forall e, In e (isort str_leb (map entry_text fs)) <-> In e (map entry_text fs)).
  { intros e. split; apply Permutation_in; [apply Permutation_sym|]; apply isort_perm. }
  assert (S0 : split 124%N (join [124%N] (isort str_leb (map entry_text fs))) = isort str_leb (map entry_text fs)).
  { apply split_join; auto. apply Forall_forall. intros e He. apply P, in_map_iff in He. destruct He as (kv & <- & Hkv).
    rewrite Forall_forall in F. apply F in Hkv. destruct Hkv as [[_ [_ A]] [_ [_ B]]]. unfold entry_text. rewrite in_app_iff. intros [|[|]]; auto. discriminate. }
  split; auto. rewrite S0. split; auto.
  apply str_eqb_neq. intros E. rewrite E in S0.
  assert (I : In (of_string "_") (isort str_leb (map entry_text fs))) by (rewrite <- S0; simpl; auto).
  apply P, in_map_iff in I. destruct I as (kv & Hk & _). assert (X : In 61%N (of_string "_")) by (rewrite <- Hk; unfold entry_text; apply in_app_iff; right; left; auto).
  destruct X as [X|[]]; discriminate.
Qed.

Lemma value_in_feats fs k : Forall (fun kv => clean_entry (fst kv) /\ clean_entry (snd kv)) fs -> NoDup (map fst fs) ->
  value_in (if str_eqb (feats_cell fs) (of_string "_") then None else Some (feats_cell fs)) k = dict_get fs k.
Proof.
  intros F N. destruct fs as [|f0 fs0]; [reflexivity|]. set (fs := f0 :: fs0) in *.
  destruct (feats_split fs) as (S1 & S2 & S3); auto; [discriminate|]. rewrite S3. cbn [value_in].
  assert (KV : forall kv, In kv fs -> entry_key (entry_text kv) = fst kv /\ entry_value (entry_text kv) = snd kv).
  { intros kv Hkv. rewrite Forall_forall in F. apply F in Hkv. destruct Hkv. unfold entry_key, entry_value. rewrite entry_split by auto. auto. }
  destruct (find (fun e => str_eqb (entry_key e) k) (rev (split 124%N (feats_cell fs)))) as [e|] eqn:E.
  - apply find_some in E. destruct E as [I E]. apply in_rev, S2, in_map_iff in I. destruct I as (kv & <- & Hkv).
    destruct (KV kv Hkv) as [K1 K2]. rewrite K1 in E. apply str_eqb_eq in E. cbn [option_map]. rewrite K2. symmetry.
    apply In_dict_get; [exact N|]. rewrite <- E, <- surjective_pairing. auto.
  - cbn [option_map]. symmetry. apply dict_get_None. intros I. apply in_map_iff in I. destruct I as (kv & <- & Hkv).
    assert (X : str_eqb (entry_key (entry_text kv)) (fst kv) = false); [|destruct (KV kv Hkv) as [K _]; rewrite K, str_eqb_refl in X; discriminate].
    apply (find_none _ _ E (entry_text kv)).
    apply in_rev. rewrite rev_involutive. apply S2, in_map. auto.
Qed.

Lemma wf_row cols text i t b : token_clean text t -> well_formed_row (expected_row cols text i t (spacing b)).
Proof.
  intros C. split; [simpl; lia|]. split; [|split].
  - intros s e H I. unfold cell_opt, cell in H. cbn [expected_row nth] in H. destruct (chosen cols 5).
    + pose proof (tc_tags _ _ C) as T. destruct (tpos t) as [p|]; [|discriminate].
      destruct (T p eq_refl) as (_ & _ & F). destruct (feats p) as [|f0 fs0] eqn:EF; [discriminate|].
      destruct (feats_split (f0 :: fs0)) as (S1 & S2 & S3); auto; [discriminate|].
      rewrite S3 in H. injection H as <-.
      apply S2, in_map_iff in I. destruct I as (kv & <- & _). unfold entry_text. apply in_app_iff. right. left. auto.
    + discriminate.
  - intros s e H I. destruct b; cbn in H; [discriminate|]. injection H as <-. cbn in I. destruct I as [<-|[]].
    do 10 right. left. reflexivity.
  - intros s H. unfold cell_opt, cell in H. cbn [expected_row nth] in H.
    assert (X : exists z, (if chosen cols 6 then match thsent t with Some h => print_Z (h + 1) | None => print_Z (i - 1) end else print_Z (i - 1)) = print_Z z).
    { destruct (chosen cols 6); [destruct (thsent t)|]; eauto. }
    destruct X as [z X]. rewrite X in H. rewrite print_not_underscore in H. injection H as <-. exists z. apply parse_print_Z.
Qed.

Lemma wf_range text i t n : well_formed_row (expected_range text i t n).
Proof.
  split; [simpl; lia|]. split; [|split]; intros s; unfold cell_opt; cbn; try discriminate.
  intros e H I. destruct (space_after text t); cbn in H; [discriminate|]. injection H as <-. cbn in I. destruct I as [<-|[]].
  do 10 right. left. reflexivity.
Qed.

Lemma spacing_value b : no_space_after (spacing b) <-> b = false.
Proof.
  rewrite no_space_after_value. destruct b; cbn; split; auto; try congruence.
Qed.

(* ids *)
Lemma print_no_dot z : ~ In 46%N (print_Z z).
Proof. intros I. pose proof (print_Z_chars z) as H. rewrite Forall_forall in H. apply H in I. unfold is_digit in I. destruct I; [lia|discriminate]. Qed.
Lemma print_no_dash z : 0 <= z -> ~ In 45%N (print_Z z).
Proof.
  intros Hz I. unfold print_Z in I. destruct z; try lia;
  match type of I with In _ (print_N ?n) => pose proof (print_N_digits n) as H end;
  rewrite Forall_forall in H; apply H in I; unfold is_digit in I; lia.
Qed.

Lemma row_id_expected cols text i t m : row_id (expected_row cols text i t m) = Some (print_Z i).
Proof. unfold row_id, cell_opt. cbn [cell expected_row nth]. rewrite print_not_underscore. auto. Qed.

Lemma row_id_range text i t n : 1 <= i -> row_id (expected_range text i t n) = Some (print_Z i ++ 45%N :: print_Z (i + n - 1)).
Proof.
  intros Hi. unfold row_id, cell_opt. cbn [cell expected_range nth].
  destruct (str_eqb (print_Z i ++ 45%N :: print_Z (i + n - 1)) (of_string "_")) eqn:E; auto.
  apply str_eqb_eq in E. destruct (print_Z_first i (45%N :: print_Z (i + n - 1)) Hi) as (c & r & E2 & D). rewrite E2 in E.
  injection E as Ec _. unfold is_digit in D. subst c. cbn in D. lia.
Qed.

(* ---- groups of cells ---- *)

Fixpoint cell_groups (cols : list Z) (text : str) (i : Z) (gs : list (group token)) : list (group (list str)) :=
  match gs with
  | [] => []
  | GWord t :: gs' => GWord (expected_row cols text i t (spacing (space_after text t))) :: cell_groups cols text (i + 1) gs'
  | GRange t ws :: gs' => GRange (expected_range text i t (zlen ws)) (word_rows cols text i ws) :: cell_groups cols text (i + zlen ws) gs'
  end.

Lemma word_rows_length cols text ws : forall i, zlen (word_rows cols text i ws) = zlen ws.
Proof. induction ws as [|w ws IH]; intros i; simpl; auto. rewrite !zlen_cons, IH. auto. Qed.

Lemma cell_groups_grouped cols text gs : forall i, 1 <= i -> Forall headed gs ->
  grouped row_id (expected_rows cols text i gs) (cell_groups cols text i gs).
Proof.
  induction gs as [|g gs IH]; intros i Hi H; simpl; [constructor|]. inversion H; subst. destruct g as [t|t ws].
  - eapply grouped_word; [apply row_id_expected|apply print_no_dot|apply print_no_dash; lia|]. apply IH; auto; lia.
  - pose proof (headed_pos _ _ H2) as P.
    eapply (grouped_range row_id _ (word_rows cols text i ws) _ _ (print_Z i) (print_Z (i + zlen ws - 1)) i (i + zlen ws - 1)).
    + apply row_id_range; auto.
    + rewrite in_app_iff. intros [X|[X|X]]; [apply (print_no_dot i); auto|discriminate|apply (print_no_dot _ X)].
    + apply print_no_dash; lia.
    + apply print_no_dash; lia.
    + apply parse_print_Z.
    + apply parse_print_Z.
    + intros E. apply (f_equal zlen) in E. rewrite word_rows_length in E. change (zlen (@nil (list str))) with 0 in E. lia.
    + rewrite word_rows_length. lia.
    + apply IH; auto. lia.
Qed.

Lemma parse_grouped_ok rows gs : grouped i_id rows gs -> Forall group_ok gs -> forall cur evs,
  parse cur None (map EvRow rows ++ evs) = parse (cur ++ gs) None evs.
Proof.
  induction 1 as [|r rs gs i Hi Hdot G IH|r rs gs i Hi Hdot Hdash G IH|r ws rs gs sa sb a b Hi Hdot Ha Hb Pa Pb Hne Hlen G IH]; intros F cur evs.
  - rewrite app_nil_r. auto.
  - cbn [map app parse row_step]. rewrite Hi. apply mem_char_spec in Hdot. rewrite Hdot. apply IH; auto.
  - inversion F as [|? ? [F1 _] F2]; subst. cbn in F1. cbn [map app parse row_step]. rewrite Hi.
    destruct (mem_char 46%N i) eqn:E1; [apply mem_char_spec in E1; contradiction|].
    destruct (mem_char 45%N i) eqn:E2; [apply mem_char_spec in E2; contradiction|].
    destruct (i_text r); [congruence|]. rewrite IH by auto. rewrite <- app_assoc. auto.
  - inversion F as [|? ? [F1 _] F2]; subst. cbn [surface_row] in F1. cbn [map app parse row_step]. rewrite Hi.
    destruct (mem_char 46%N (sa ++ 45%N :: sb)) eqn:E1; [apply mem_char_spec in E1; contradiction|].
    destruct (mem_char 45%N (sa ++ 45%N :: sb)) eqn:E2; [|exfalso; assert (X : In 45%N (sa ++ 45%N :: sb)) by (apply in_app_iff; right; left; auto); apply mem_char_spec in X; congruence].
    assert (RC : range_count (sa ++ 45%N :: sb) = Ok (b - a + 1)).
    { unfold range_count. change (ch "-"%char) with 45%N. rewrite split_app by auto. rewrite split_no by auto.
      change (zlen [sa; sb] =? 2) with true. cbn [assert bind]. change (py_index [sa; sb] 1) with (Ok sb). change (py_index [sa; sb] 0) with (Ok sa).
      cbn [bind]. rewrite Pa, Pb. reflexivity. }
    rewrite RC. cbn [bind].
    assert (FILL : forall ws2 ws1, ws2 <> [] -> zlen (ws1 ++ ws2) = b - a + 1 -> forall evs,
      parse cur (Some (r, ws1, b - a + 1)) (map EvRow ws2 ++ evs) = parse (cur ++ [GRange r (ws1 ++ ws2)]) None evs).
    { clear - F1. induction ws2 as [|w ws2 IHw]; intros ws1 N L evs; [congruence|].
      cbn [map app parse row_step]. destruct (i_text r); [congruence|].
      destruct (Z.eqb_spec (b - a + 1) (zlen (ws1 ++ [w]))) as [E|E].
      - destruct ws2 as [|w2 ws2]; [reflexivity|]. exfalso. unfold zlen in *. rewrite !app_length in *. simpl in *. lia.
      - destruct ws2 as [|w2 ws2]; [exfalso; apply E; rewrite <- L; auto|].
        rewrite IHw; [rewrite <- app_assoc; auto|discriminate|rewrite <- app_assoc; exact L]. }
    rewrite map_app, <- app_assoc. rewrite (FILL ws [] Hne); auto. cbn [app]. rewrite IH by auto. rewrite <- app_assoc. auto.
Qed.
