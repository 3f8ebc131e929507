(* What the script prints. *)
From Coq Require Import String Ascii ZArith NArith QArith Bool Lia Lqa List.
From Verif Require Import Base BaseFacts Model_Datamodel Model_Conllu Spec_Datamodel Spec_Conllu Proofs_Conllu3
  Model_UDEval Spec_UDEval Proofs_UDEval Proofs_UDEval4 Proofs_UDEval7 Proofs_UDEval8 Model_Script Spec_Script Proofs_Script Proofs_Script2.
Import ListNotations.
Open Scope Z_scope.

(* ---- padding ---- *)

Lemma strip_padded a s b : blanks a -> blanks b -> Forall (fun c => isspace_char c = false) s -> strip (a ++ s ++ b) = s.
Proof.
  intros A B S0. destruct s as [|c s].
  - apply strip_nil. now apply Forall_app.
  - unfold strip, lstrip. rewrite drop_while_app_all by auto. cbn [app drop_while]. inversion S0 as [|? ? Hc Hs]; subst. rewrite Hc.
    unfold rstrip, lstrip. change (c :: s ++ b) with ((c :: s) ++ b). rewrite rev_app_distr.
    rewrite drop_while_app_all by (now apply Forall_rev).
    assert (R : Forall (fun c => isspace_char c = false) (rev (c :: s))) by now apply Forall_rev.
    pose proof (rev_nonnil (c :: s)) as N. destruct (rev (c :: s)) as [|x r] eqn:E; [exfalso; apply N; [discriminate|reflexivity]|].
    inversion R; subst. cbn [drop_while]. rewrite H1, <- E. apply rev_involutive.
Qed.

Lemma blanks_repeat n : blanks (repeat chSP n).
Proof. induction n; constructor; auto. Qed.

Lemma strip_pad_right n s : Forall (fun c => isspace_char c = false) s -> strip (pad_right n s) = s.
Proof. intro H. exact (strip_padded [] s _ (Forall_nil _) (blanks_repeat _) H). Qed.
Lemma strip_pad_left n s b : blanks b -> Forall (fun c => isspace_char c = false) s -> strip (pad_left n s ++ b) = s.
Proof. intros B H. unfold pad_left. rewrite <- app_assoc. apply strip_padded; auto. apply blanks_repeat. Qed.

Lemma pad_right_length n s : (length s <= n)%nat -> length (pad_right n s) = n.
Proof. intro H. unfold pad_right. rewrite app_length, repeat_length. lia. Qed.
Lemma pad_left_length n s : (length s <= n)%nat -> length (pad_left n s) = n.
Proof. intro H. unfold pad_left. rewrite app_length, repeat_length. lia. Qed.

Lemma no_bar_repeat n : ~ In 124%N (repeat chSP n).
Proof. intro H. apply repeat_spec in H. discriminate. Qed.
Lemma no_bar_right n s : ~ In 124%N s -> ~ In 124%N (pad_right n s).
Proof. intros H I0. apply in_app_or in I0. destruct I0 as [I0|I0]; [auto|]. now apply no_bar_repeat in I0. Qed.
Lemma no_bar_left n s : ~ In 124%N s -> ~ In 124%N (pad_left n s).
Proof. intros H I0. apply in_app_or in I0. destruct I0 as [I0|I0]; [|auto]. now apply no_bar_repeat in I0. Qed.

Lemma bars_app s t : forall n, bars n (s ++ t) = bars n s ++ bars (n + length s) t.
Proof.
  induction s as [|c s IH]; intro n; [cbn; now rewrite Nat.add_0_r|]. cbn [app bars length]. rewrite IH.
  replace (S n + length s)%nat with (n + S (length s))%nat by lia. destruct (c =? 124)%N; reflexivity.
Qed.
Lemma bars_none s : ~ In 124%N s -> forall n, bars n s = [].
Proof.
  induction s as [|c s IH]; intros H n; [reflexivity|]. cbn [bars]. destruct (N.eqb_spec c 124%N) as [->|N].
  - destruct H. left; auto.
  - apply IH. intro. apply H. right; auto.
Qed.

Lemma Forall2_weaken {A B} (R R' : A -> B -> Prop) l l' : (forall a b, R a b -> R' a b) -> Forall2 R l l' -> Forall2 R' l l'.
Proof. intro H. induction 1; constructor; auto. Qed.

Section Main.
Variables (parse_float : str -> result Q) (lower : str -> str) (fixed2 : Q -> str).
Hypothesis P : plain_numbers fixed2.

Lemma plain_no_bar q : ~ In 124%N (fixed2 q).
Proof. intro H. pose proof (P q) as F. rewrite Forall_forall in F. apply F in H. lia. Qed.
Lemma plain_solid q : Forall (fun c => isspace_char c = false) (fixed2 q).
Proof.
  eapply Forall_impl; [|apply P]. cbv beta. intros c H. unfold isspace_char.
  repeat match goal with
         | |- context [N.leb ?a ?b] => destruct (N.leb_spec a b); try lia
         | |- context [N.eqb ?a ?b] => destruct (N.eqb_spec a b); try lia
         end; reflexivity.
Qed.

Definition row_text (name p r f a : str) : str :=
  pad_right 11 name ++ 124%N :: (pad_left 10 p ++ [chSP]) ++ 124%N :: (pad_left 10 r ++ [chSP]) ++ 124%N :: (pad_left 10 f ++ [chSP]) ++ 124%N :: a.

Lemma row_text_cells name p r f a : ~ In 124%N name -> ~ In 124%N p -> ~ In 124%N r -> ~ In 124%N f -> ~ In 124%N a ->
  split 124%N (row_text name p r f a) = [pad_right 11 name; pad_left 10 p ++ [chSP]; pad_left 10 r ++ [chSP]; pad_left 10 f ++ [chSP]; a].
Proof.
  intros N1 N2 N3 N4 N5. unfold row_text.
  assert (X : forall s, ~ In 124%N s -> ~ In 124%N (pad_left 10 s ++ [chSP])).
  { intros s H I0. apply in_app_or in I0. destruct I0 as [I0|[I0|[]]]; [now apply no_bar_left in I0|discriminate]. }
  rewrite split_app by now apply no_bar_right. rewrite split_app by auto. rewrite split_app by auto. rewrite split_app by auto.
  rewrite split_no by auto. reflexivity.
Qed.

Lemma row_text_bars name p r f a : ~ In 124%N name -> ~ In 124%N p -> ~ In 124%N r -> ~ In 124%N f -> ~ In 124%N a ->
  (length name <= 11)%nat -> (length p <= 10)%nat -> (length r <= 10)%nat -> (length f <= 10)%nat ->
  bars 0 (row_text name p r f a) = [11; 23; 35; 47]%nat.
Proof.
  intros N1 N2 N3 N4 N5 L1 L2 L3 L4. unfold row_text.
  assert (X : forall s, ~ In 124%N s -> ~ In 124%N (pad_left 10 s ++ [chSP])).
  { intros s H I0. apply in_app_or in I0. destruct I0 as [I0|[I0|[]]]; [now apply no_bar_left in I0|discriminate]. }
  assert (Y : forall s, (length s <= 10)%nat -> length (pad_left 10 s ++ [chSP]) = 11%nat).
  { intros s H. rewrite app_length, pad_left_length by auto. reflexivity. }
  rewrite bars_app, (bars_none (pad_right 11 name)) by now apply no_bar_right. rewrite pad_right_length by auto.
  cbn [app bars]. change (124 =? 124)%N with true. cbv iota. f_equal.
  rewrite bars_app, bars_none, Y by auto. cbn [app bars]. change (124 =? 124)%N with true. cbv iota. f_equal.
  rewrite bars_app, bars_none, Y by auto. cbn [app bars]. change (124 =? 124)%N with true. cbv iota. f_equal.
  rewrite bars_app, bars_none, Y by auto. cbn [app bars]. change (124 =? 124)%N with true. cbv iota. f_equal.
  now rewrite bars_none.
Qed.

Definition shown (sc : score) : str := match s_aligned sc with Some q => pad_left 10 (fixed2 (100 * q)%Q) | None => [] end.

Lemma table_row_text f m sc : f m = Some sc ->
  table_row fixed2 f m = Ok (row_text (metric_name m) (fixed2 (100 * s_precision sc)%Q) (fixed2 (100 * s_recall sc)%Q) (fixed2 (100 * s_f1 sc)%Q) (shown sc)).
Proof.
  intro E. unfold table_row, score_of. rewrite E. cbn [of_option bind]. f_equal. unfold row_text, hundredfold, shown.
  change (of_string "|") with [124%N]. change (of_string " |") with [chSP; 124%N].
  repeat (rewrite <- ?app_assoc; cbn [app]). reflexivity.
Qed.

Lemma metric_name_clean m : ~ In 124%N (metric_name m) /\ Forall (fun c => isspace_char c = false) (metric_name m) /\ (length (metric_name m) <= 11)%nat.
Proof.
  destruct m; (split; [vm_compute; intuition discriminate|split; [repeat constructor|vm_compute; lia]]).
Qed.

Lemma shown_clean sc : ~ In 124%N (shown sc).
Proof. unfold shown. destruct (s_aligned sc); [|tauto]. apply no_bar_left, plain_no_bar. Qed.

Lemma table_row_shows f m name line : metric_name m = of_string name -> table_row fixed2 f m = Ok line -> row_shows fixed2 f (m, name) line.
Proof.
  intros En E. destruct (f m) as [sc|] eqn:F; [|unfold table_row, score_of in E; rewrite F in E; discriminate].
  rewrite (table_row_text f m sc F) in E. injection E as <-. exists sc. split; auto. unfold row_cells.
  destruct (metric_name_clean m) as (C1 & C2 & _).
  rewrite row_text_cells by auto using plain_no_bar, shown_clean. cbn [map snd].
  rewrite strip_pad_right by auto. rewrite !strip_pad_left by (auto using plain_solid; repeat constructor). rewrite En. repeat f_equal.
  unfold shown. destruct (s_aligned sc); [|reflexivity].
  rewrite <- (app_nil_r (pad_left _ _)). apply strip_pad_left; [constructor|apply plain_solid].
Qed.

Lemma table_row_bars f m sc line : f m = Some sc -> table_row fixed2 f m = Ok line ->
  (length (fixed2 (100 * s_precision sc)%Q) <= 10)%nat -> (length (fixed2 (100 * s_recall sc)%Q) <= 10)%nat ->
  (length (fixed2 (100 * s_f1 sc)%Q) <= 10)%nat -> bars 0 line = [11; 23; 35; 47]%nat.
Proof.
  intros F E L1 L2 L3. rewrite (table_row_text f m sc F) in E. injection E as <-. destruct (metric_name_clean m) as (C1 & _ & C3).
  apply row_text_bars; auto using plain_no_bar, shown_clean.
Qed.

Lemma table_names w : map fst (rows_of w) = table_metrics w /\ Forall (fun x => metric_name (fst x) = of_string (snd x)) (rows_of w).
Proof. destruct w; (split; [reflexivity|repeat constructor]). Qed.

Lemma rows_show f w rows : mapM (table_row fixed2 f) (table_metrics w) = Ok rows -> Forall2 (row_shows fixed2 f) (rows_of w) rows.
Proof.
  destruct (table_names w) as [E N]. rewrite <- E. clear E. revert rows. induction N as [|[m name] l H N IH]; intros rows M; cbn [map mapM] in M.
  - injection M as <-. constructor.
  - apply bind_ok_iff in M. destruct M as (line & E & M). apply bind_ok_iff in M. destruct M as (rest & Er & M). injection M as <-.
    constructor; [|auto]. apply table_row_shows; auto.
Qed.

Lemma rows_bars f w rows : (forall m sc, f m = Some sc -> unit_interval (s_precision sc) /\ unit_interval (s_recall sc) /\ unit_interval (s_f1 sc)) ->
  (forall q, (0 <= q <= 100)%Q -> (length (fixed2 q) <= 10)%nat) ->
  mapM (table_row fixed2 f) (table_metrics w) = Ok rows -> Forall (fun line => bars 0 line = [11; 23; 35; 47]%nat) rows.
Proof.
  intros U L. generalize (table_metrics w). intro l. revert rows. induction l as [|m l IH]; intros rows M; cbn [mapM] in M.
  - injection M as <-. constructor.
  - apply bind_ok_iff in M. destruct M as (line & E & M). apply bind_ok_iff in M. destruct M as (rest & Er & M). injection M as <-.
    constructor; [|auto]. destruct (f m) as [sc|] eqn:F; [|unfold table_row, score_of in E; rewrite F in E; discriminate].
    destruct (U m sc F) as ([? ?] & [? ?] & [? ?]). eapply table_row_bars; eauto; apply L; lra.
Qed.

(* ---- the run ---- *)

Lemma wrapper_ok files a text f : evaluate_wrapper parse_float lower files a text = Ok f <->
  exists g s gold system w, dict_get files (gold_file a) = Some g /\ dict_get files (system_file a) = Some s /\
    load_conllu_file g = Ok gold /\ load_conllu_file s = Ok system /\ load_weights parse_float text = Ok w /\ evaluate lower gold system w = Ok f.
Proof.
  unfold evaluate_wrapper, open_file. split.
  - intro H. apply bind_ok_iff in H. destruct H as (g & Eg & H). apply bind_ok_iff in H. destruct H as (gold & Lg & H).
    apply bind_ok_iff in H. destruct H as (s & Es & H). apply bind_ok_iff in H. destruct H as (system & Ls & H).
    apply bind_ok_iff in H. destruct H as (w & W & H). exists g, s, gold, system, w.
    destruct (dict_get files (gold_file a)); [|discriminate]. destruct (dict_get files (system_file a)); [|discriminate].
    injection Eg as ->. injection Es as ->. repeat (split; auto).
  - intros (g & s & gold & system & w & Eg & Es & Lg & Ls & W & E). rewrite Eg. cbn [of_option bind]. rewrite Lg. cbn [bind].
    rewrite Es. cbn [of_option bind]. rewrite Ls. cbn [bind]. rewrite W. exact E.
Qed.

Definition wide (a : arguments) : Prop := weights_file a <> None \/ verbose a <> 0%nat.

Lemma score_keys tg ts gold system w f : load_conllu tg = Ok gold -> load_conllu ts = Ok system -> evaluate lower gold system w = Ok f ->
  forall m, f m = None <-> m = MWeightedLAS /\ w = None.
Proof.
  intros Lg Ls E m. destruct (evaluate_inv _ _ _ _ _ _ _ Lg Ls E) as (_ & pairs & _ & _ & ->).
  destruct m; cbn [metric_score]; try (split; [discriminate|intros [X _]; discriminate]).
  destruct w; cbn; split; auto; try discriminate. intros [_ X]; discriminate.
Qed.

Lemma rows_total f w : (forall m, f m = None -> m = MWeightedLAS /\ w = false) -> exists rows, mapM (table_row fixed2 f) (table_metrics w) = Ok rows.
Proof.
  intro H. assert (X : forall m, In m (table_metrics w) -> exists line, table_row fixed2 f m = Ok line).
  { intros m I0. destruct (f m) as [sc|] eqn:F.
    - rewrite (table_row_text f m sc F). eauto.
    - destruct (H m F) as [-> ->]. exfalso. cbn in I0. repeat (destruct I0 as [I0|I0]; [discriminate|]). exact I0. }
  revert X. generalize (table_metrics w). intro l. induction l as [|m l IH]; intro X; [cbn; eauto|]. cbn [mapM].
  destruct (X m) as (line & ->); [left; auto|]. cbn [bind]. destruct IH as (rows & ->); [intros; apply X; right; auto|]. cbn. eauto.
Qed.

Lemma load_weights_none text w : load_weights parse_float text = Ok w -> (w = None <-> text = None).
Proof.
  unfold load_weights. destruct text as [t|]; intro H.
  - apply bind_ok_iff in H. destruct H as (d & _ & H). injection H as <-. split; discriminate.
  - injection H as <-. tauto.
Qed.

Definition refused (files : dict str) (a : arguments) : Prop := exists p, weights_file a = Some p /\ dict_get files p = None.

Lemma main_cases files a : 
  (refused files a /\ main parse_float lower fixed2 files a = Refused) \/
  (~ refused files a /\ (weights_file a <> None <-> weights_text files a <> None) /\
   main parse_float lower fixed2 files a =
     match (do f <- evaluate_wrapper parse_float lower files a (weights_text files a);
            report fixed2 f (negb (is_none (weights_text files a)))
                   (if negb (is_none (weights_text files a)) && (verbose a =? 0)%nat then 1%nat else verbose a)) with
     | Ok lines => Printed lines | Err e => Raised e end).
Proof.
  unfold main, refused, weights_text. destruct (weights_file a) as [p|] eqn:W.
  - destruct (dict_get files p) as [t|] eqn:E.
    + right. split; [|split; [split; discriminate|reflexivity]]. intros (p' & X & Y). congruence.
    + left. split; [exists p; auto|reflexivity].
  - right. split; [intros (p' & X & _); discriminate|]. split; [tauto|reflexivity].
Qed.

Lemma main_output files a lines : main parse_float lower fixed2 files a = Printed lines ->
  exists g s gold system w f,
    dict_get files (gold_file a) = Some g /\ dict_get files (system_file a) = Some s /\
    load_conllu_file g = Ok gold /\ load_conllu_file s = Ok system /\
    load_weights parse_float (weights_text files a) = Ok w /\ evaluate lower gold system w = Ok f /\
    (weights_file a = None -> verbose a = 0%nat ->
     exists sc, f MLAS = Some sc /\ lines = [of_string "LAS F1 Score: " ++ fixed2 (100 * s_f1 sc)%Q]) /\
    (weights_file a <> None \/ verbose a <> 0%nat ->
     exists h1 h2 rows, lines = h1 :: h2 :: rows /\ row_cells h1 = map of_string ["Metrics"; "Precision"; "Recall"; "F1 Score"; "AligndAcc"]%string /\
       Forall2 (row_shows fixed2 f) (rows_of (negb (is_none (weights_file a)))) rows /\
       (weights_nonneg w -> (forall q, (0 <= q <= 100)%Q -> (length (fixed2 q) <= 10)%nat) ->
        Forall (fun line => bars 0 line = bars 0 h1) rows)).
Proof.
  intro H. destruct (main_cases files a) as [[_ X]|(_ & T & X)]; [congruence|]. rewrite X in H. clear X.
  destruct (evaluate_wrapper parse_float lower files a (weights_text files a)) as [f|] eqn:E; [|discriminate]. cbn [bind] in H.
  apply wrapper_ok in E. destruct E as (g & s & gold & system & w & Eg & Es & Lg & Ls & W & E).
  exists g, s, gold, system, w, f. split; auto. split; auto. split; auto. split; auto. split; auto. split; auto.
  destruct (report fixed2 f (negb (is_none (weights_text files a))) _) as [l|] eqn:R; [|discriminate]. injection H as ->.
  unfold report in R. split.
  - intros Wn Vn. assert (Tn : weights_text files a = None) by (unfold weights_text; now rewrite Wn).
    rewrite Tn, Vn in R. cbn [is_none negb andb Nat.eqb] in R. apply bind_ok_iff in R. destruct R as (sc & S0 & R). injection R as <-.
    unfold score_of in S0. destruct (f MLAS) as [sc'|]; [|discriminate]. injection S0 as ->. exists sc. auto.
  - intro D. assert (V : (if negb (is_none (weights_text files a)) && (verbose a =? 0)%nat then 1%nat else verbose a) <> 0%nat).
    { destruct (verbose a =? 0)%nat eqn:Ev.
      - apply Nat.eqb_eq in Ev. destruct D as [D|D]; [|contradiction]. apply T in D. destruct (weights_text files a); [discriminate|congruence].
      - rewrite andb_false_r. now apply Nat.eqb_neq. }
    apply Nat.eqb_neq in V. rewrite V in R. apply bind_ok_iff in R. destruct R as (rows & M & R). injection R as <-.
    exists (nth 0 table_head []), (nth 1 table_head []), rows. split; [reflexivity|]. split; [vm_compute; reflexivity|]. split.
    + apply rows_show in M. replace (negb (is_none (weights_file a))) with (negb (is_none (weights_text files a))); [exact M|].
      destruct (weights_text files a) as [t|], (weights_file a) as [p|]; try reflexivity; exfalso;
        [apply (proj2 T); [discriminate|reflexivity]|apply (proj1 T); [discriminate|reflexivity]].
    + intros Wn L. change (bars 0 (nth 0 table_head [])) with [11; 23; 35; 47]%nat. eapply rows_bars; eauto.
      intros m sc F. unfold load_conllu_file in Lg, Ls. destruct (evaluate_unit _ _ _ _ _ _ _ _ _ Lg Ls Wn E F) as (? & ? & ? & _). auto.
Qed.

Lemma main_runs files a :
  (main parse_float lower fixed2 files a = Refused <-> exists p, weights_file a = Some p /\ dict_get files p = None) /\
  ((exists lines, main parse_float lower fixed2 files a = Printed lines) <->
   ~ (exists p, weights_file a = Some p /\ dict_get files p = None) /\
   (forall text, weights_text files a = Some text -> exists es, weight_entries parse_float (file_lines (universal_newlines text)) es) /\
   exists g s gold system, dict_get files (gold_file a) = Some g /\ dict_get files (system_file a) = Some s /\
     load_conllu_file g = Ok gold /\ load_conllu_file s = Ok system /\ u_chars gold = u_chars system).
Proof.
  destruct (main_cases files a) as [[Rf X]|(Rf & T & X)]; rewrite X.
  - split; [split; auto|]. split; [intros (? & ?); discriminate|]. intros (N & _). contradiction.
  - split.
    { split; [|intro; contradiction]. destruct (do f <- _; _); discriminate. }
    split.
    + intros (lines & H). destruct (evaluate_wrapper parse_float lower files a (weights_text files a)) as [f|] eqn:E; [|discriminate].
      apply wrapper_ok in E. destruct E as (g & s & gold & system & w & Eg & Es & Lg & Ls & W & E). split; auto. split.
      * intros text Et. rewrite Et in W. apply (proj1 (weights_file_read parse_float text)). destruct w as [d|]; [eauto|].
        destruct (load_weights_none _ _ W) as [Y _]. specialize (Y eq_refl). discriminate.
      * exists g, s, gold, system. repeat (split; auto). unfold load_conllu_file in Lg, Ls.
        destruct (evaluate_inv _ _ _ _ _ _ _ Lg Ls E) as (C & _). exact C.
    + intros (_ & We & g & s & gold & system & Eg & Es & Lg & Ls & C).
      assert (Wx : exists w, load_weights parse_float (weights_text files a) = Ok w).
      { destruct (weights_text files a) as [t|] eqn:Et; [|exists None; reflexivity].
        destruct (proj2 (proj1 (weights_file_read parse_float t)) (We t eq_refl)) as (d & Ed). eauto. }
      destruct Wx as (w & W).
      pose proof Lg as Lg'. pose proof Ls as Ls'. unfold load_conllu_file in Lg', Ls'.
      destruct (evaluate_meaning lower _ _ _ _ w Lg' Ls' C) as (f & _ & E & _).
      assert (Ef : evaluate_wrapper parse_float lower files a (weights_text files a) = Ok f).
      { apply wrapper_ok. exists g, s, gold, system, w. repeat (split; auto). }
      rewrite Ef. cbn [bind]. pose proof (score_keys _ _ _ _ _ _ Lg' Ls' E) as K.
      pose proof (load_weights_none _ _ W) as Wn.
      generalize (if negb (is_none (weights_text files a)) && (verbose a =? 0)%nat then 1%nat else verbose a). intro v. unfold report.
      destruct (v =? 0)%nat.
      * unfold score_of. destruct (f MLAS) as [sc|] eqn:F; [eexists; reflexivity|]. apply K in F. destruct F; discriminate.
      * destruct (rows_total f (negb (is_none (weights_text files a)))) as (rows & ->); [|eexists; reflexivity].
        intros m F. apply K in F. destruct F as [-> Y]. split; auto. apply Wn in Y. now rewrite Y.
Qed.

(* a file compared with itself *)
Lemma main_self files a lines text u : same_numbers fixed2 -> dict_get files (gold_file a) = Some text -> dict_get files (system_file a) = Some text ->
  load_conllu_file text = Ok u -> (weights_file a <> None \/ verbose a <> 0%nat) ->
  main parse_float lower fixed2 files a = Printed lines ->
  exists w h1 h2 rows, load_weights parse_float (weights_text files a) = Ok w /\ lines = h1 :: h2 :: rows /\
    Forall2 (fun row line =>
      (~ (metric_total w u (fst row) == 0)%Q ->
       exists last, row_cells line = [of_string (snd row); fixed2 100%Q; fixed2 100%Q; fixed2 100%Q; last] /\ (last = fixed2 100%Q \/ last = [])) /\
      ((metric_total w u (fst row) == 0)%Q ->
       exists last, row_cells line = [of_string (snd row); fixed2 0%Q; fixed2 0%Q; fixed2 0%Q; last]))
      (rows_of (negb (is_none (weights_file a)))) rows.
Proof.
  intros Sm Eg Es L D H. destruct (main_output _ _ _ H) as (g & s & gold & system & w & f & Eg' & Es' & Lg & Ls & W & E & _ & O0).
  rewrite Eg in Eg'. injection Eg' as <-. rewrite Es in Es'. injection Es' as <-. rewrite L in Lg, Ls. injection Lg as <-. injection Ls as <-.
  destruct (O0 D) as (h1 & h2 & rows & -> & _ & R & _). exists w, h1, h2, rows. split; auto. split; auto.
  unfold load_conllu_file in L. destruct (self_perfect lower _ _ w L) as (f' & E' & K & Pf). rewrite E in E'. injection E' as <-.
  eapply Forall2_weaken; [|exact R]. intros [m name] line (sc & F & Rc). cbn [fst snd] in *. split.
  - intro N. destruct (Pf m sc F N) as (P1 & P2 & P3 & P4). eexists. split.
    + rewrite Rc. rewrite (Sm _ 100%Q), (Sm (100 * s_recall sc)%Q 100%Q), (Sm (100 * s_f1 sc)%Q 100%Q); [reflexivity| | |];
        rewrite ?P1, ?P2, ?P3; reflexivity.
    + destruct (s_aligned sc) as [q|] eqn:A; [left|auto]. apply Sm. rewrite (P4 q eq_refl). reflexivity.
  - intro Z. assert (S0 : (s_precision sc == 0)%Q /\ (s_recall sc == 0)%Q /\ (s_f1 sc == 0)%Q).
    { assert (Fz : forall c t, (t == 0)%Q -> forall a, scores sc c t t a -> (s_precision sc == 0)%Q /\ (s_recall sc == 0)%Q /\ (s_f1 sc == 0)%Q).
      { intros c t Ht a0 ((A1 & _) & (A2 & _) & (A3 & _) & _). repeat split; auto. apply A3. rewrite Ht. reflexivity. }
      destruct (evaluate_meaning lower _ _ _ _ w L L eq_refl) as (f1 & pairs & E1 & _ & _ & Mt & Ms & Mo). rewrite E in E1. injection E1 as <-.
      destruct (metric_dec m MTokens) as [->|Nt]; [destruct Mt as (sc' & xs & F' & _ & Q); rewrite F in F'; injection F' as <-; eapply Fz; eauto|].
      destruct (metric_dec m MSentences) as [->|Ns]; [destruct Ms as (sc' & xs & F' & _ & Q); rewrite F in F'; injection F' as <-; eapply Fz; eauto|].
      destruct (Mo m Nt Ns) as [_ M2]. destruct (M2 sc F) as (good & _ & Q). eapply Fz; [|exact Q]. destruct m; try contradiction; exact Z. }
    destruct S0 as (S1 & S2 & S3). eexists. rewrite Rc.
    rewrite (Sm _ 0%Q), (Sm (100 * s_recall sc)%Q 0%Q), (Sm (100 * s_f1 sc)%Q 0%Q); [reflexivity| | |]; rewrite ?S1, ?S2, ?S3; reflexivity.
Qed.

End Main.
