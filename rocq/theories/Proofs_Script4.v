(* Subtypes and the range of the numbers. *)
From Coq Require Import String Ascii ZArith NArith QArith Bool Lia Lqa List.
From Verif Require Import Base BaseFacts Model_Datamodel Model_Conllu Spec_Datamodel Spec_Conllu Proofs_Conllu3
  Model_UDEval Spec_UDEval Proofs_UDEval Proofs_UDEval4 Proofs_UDEval6 Proofs_UDEval7 Model_Script Spec_Script Proofs_Script Proofs_Script2 Proofs_Script3.
Import ListNotations.
Open Scope Z_scope.

Definition cx_row (cells : list string) : str := join [chTAB] (map of_string cells) ++ [chNL].
Definition cx_word (id form head rel : string) : str := cx_row [id; form; "l"; "N"; "_"; "_"; head; rel; "_"; "_"]%string.
Definition cx_gold : str := cx_word "1" "Ya" "0" "root" ++ cx_word "2" "am" "1" "nsubj:pass" ++ cx_word "3" "." "1" "punct" ++ [chNL].
Definition cx_system : str := cx_word "1" "Ya" "0" "root" ++ cx_word "2" "am" "1" "nsubj" ++ cx_word "3" "." "2" "punct" ++ [chNL].
Definition cx_ud (text : str) : ud := match load_conllu text with Ok u => u | Err _ => mkUD [] [] [] [] end.

Lemma ok_inj {A} (x y : A) : Ok x = Ok y -> x = y.
Proof. intro H. injection H. auto. Qed.

Lemma cx_loads : load_conllu cx_gold = Ok (cx_ud cx_gold) /\ load_conllu cx_system = Ok (cx_ud cx_system).
Proof. split; vm_compute; reflexivity. Qed.

Lemma subtypes_ignored : exists k,
  (exists text u gss c, load_conllu text = Ok u /\ ud_lines (file_lines text) gss /\ In c (file_words gss) /\ cell c 7 = k) /\
  forall lower tg ts gold system d q f f' m,
    load_conllu tg = Ok gold -> load_conllu ts = Ok system -> evaluate lower gold system (Some d) = Ok f ->
    evaluate lower gold system (Some (dict_set d k q)) = Ok f' -> f' m = f m.
Proof.
  exists (of_string "nsubj:pass"). split.
  - set (c1 := map of_string ["1"; "Ya"; "l"; "N"; "_"; "_"; "0"; "root"; "_"; "_"]%string).
    set (c2 := map of_string ["2"; "am"; "l"; "N"; "_"; "_"; "1"; "nsubj:pass"; "_"; "_"]%string).
    set (c3 := map of_string ["3"; "."; "l"; "N"; "_"; "_"; "1"; "punct"; "_"; "_"]%string).
    exists cx_gold, (cx_ud cx_gold), [[GWord c1; GWord c2; GWord c3]], c2. split; [apply cx_loads|]. split; [|split; [cbn; tauto|reflexivity]].
    change (file_lines cx_gold) with ((cx_word "1" "Ya" "0" "root" :: [cx_word "2" "am" "1" "nsubj:pass"; cx_word "3" "." "1" "punct"; [chNL]]) ++ []).
    assert (T : forall l c, split chTAB (rstrip_crlf l) = c -> length c = 10%nat -> ten_cells l c).
    { intros l c <- H. apply ten_cells_iff. auto. }
    apply ul_sentence; [rewrite comment_iff; vm_compute; discriminate| |constructor].
    eapply ub_word; [apply T; vm_compute; reflexivity|vm_compute; intuition discriminate|vm_compute; intuition discriminate|vm_compute; discriminate|
      vm_compute; reflexivity|vm_compute; reflexivity|vm_compute; discriminate|].
    eapply ub_word; [apply T; vm_compute; reflexivity|vm_compute; intuition discriminate|vm_compute; intuition discriminate|vm_compute; discriminate|
      vm_compute; reflexivity|vm_compute; reflexivity|vm_compute; discriminate|].
    eapply ub_word; [apply T; vm_compute; reflexivity|vm_compute; intuition discriminate|vm_compute; intuition discriminate|vm_compute; discriminate|
      vm_compute; reflexivity|vm_compute; reflexivity|vm_compute; discriminate|].
    apply ub_end. apply blank_iff. reflexivity.
  - intros lower tg ts gold system d q f f' m Lg Ls E E'. eapply subtype_ignored; [exact Lg|exact Ls| |exact E|exact E']. vm_compute. tauto.
Qed.

Definition cx_files : dict str := [(of_string "g", cx_gold); (of_string "s", cx_system); (of_string "w", of_string "punct -1")].
Definition cx_args : arguments := mkArgs (of_string "g") (of_string "s") (Some (of_string "w")) 0.

Lemma out_of_range : exists files a, forall parse_float lower fixed2,
  parse_float (of_string "-1") = Ok (-1 # 1)%Q -> plain_numbers fixed2 -> same_numbers fixed2 ->
  exists lines line, main parse_float lower fixed2 files a = Printed lines /\ In line lines /\
    row_cells line = [of_string "WeightedLAS"; fixed2 200%Q; fixed2 200%Q; fixed2 200%Q; fixed2 200%Q].
Proof.
  exists cx_files, cx_args. intros pf lower fixed2 Hf Pl Sm.
  assert (W : load_weights pf (weights_text cx_files cx_args) = Ok (Some [(of_string "punct", (-1 # 1)%Q)])).
  { change (weights_text cx_files cx_args) with (Some (of_string "punct -1")). unfold load_weights.
    change (file_lines (universal_newlines (of_string "punct -1"))) with [of_string "punct -1"]. cbn [foldM].
    unfold weight_line. change (startswith (of_string "punct -1") (of_string "#") || _) with false. cbv iota.
    change (split_words (rstrip_crlf (of_string "punct -1"))) with [of_string "punct"; of_string "-1"]. cbv iota. rewrite Hf. reflexivity. }
  assert (Ld : load_conllu_file cx_gold = Ok (cx_ud cx_gold) /\ load_conllu_file cx_system = Ok (cx_ud cx_system)) by (split; vm_compute; reflexivity).
  destruct (proj2 (proj2 (main_runs pf lower fixed2 cx_files cx_args))) as (lines & M).
  { split; [|split].
    - intros (p & E & D). injection E as <-. vm_compute in D. discriminate.
    - intros text E. apply (proj1 (weights_file_read pf text)). rewrite <- E. eauto.
    - exists cx_gold, cx_system, (cx_ud cx_gold), (cx_ud cx_system). split; [reflexivity|]. split; [reflexivity|]. split; [apply Ld|]. split; [apply Ld|].
      vm_compute. reflexivity. }
  exists lines. destruct (main_output pf lower fixed2 Pl _ _ _ M) as (g & s & gold & system & w & f & Eg & Es & Lg & Ls & W' & E & _ & O0).
  injection Eg as <-. injection Es as <-. rewrite (proj1 Ld) in Lg. apply ok_inj in Lg. subst gold. rewrite (proj2 Ld) in Ls. apply ok_inj in Ls. subst system.
  rewrite W in W'. injection W' as <-. destruct O0 as (h1 & h2 & rows & -> & _ & R & _); [left; discriminate|].
  assert (I0 : In (MWeightedLAS, "WeightedLAS"%string) (rows_of (negb (is_none (weights_file cx_args))))) by (cbn; tauto).
  assert (Y : exists line, In line rows /\ row_shows fixed2 f (MWeightedLAS, "WeightedLAS"%string) line).
  { clear -R I0. induction R as [|x y l l' H R IH]; [destruct I0|]. destruct I0 as [->|I0]; [exists y; split; [left|]; auto|].
    destruct (IH I0) as (line & Il & Hl). exists line. split; [right|]; auto. }
  destruct Y as (line & Il & sc & F & Rc). exists line. split; auto. split; [right; right; auto|]. cbn [fst snd] in *. rewrite Rc.
  assert (Ev : exists f', evaluate lower (cx_ud cx_gold) (cx_ud cx_system) (Some [(of_string "punct", (-1 # 1)%Q)]) = Ok f' /\
     exists sc', f' MWeightedLAS = Some sc' /\ (s_precision sc' == 2)%Q /\ (s_recall sc' == 2)%Q /\ (s_f1 sc' == 2)%Q /\
       exists x, s_aligned sc' = Some x /\ (x == 2)%Q).
  { eexists. split; [vm_compute; reflexivity|]. eexists. split; [vm_compute; reflexivity|]. vm_compute. repeat (split; [reflexivity|]). eexists. split; reflexivity. }
  destruct Ev as (f' & E' & sc' & F' & P1 & P2 & P3 & x & Ax & P4). assert (EE : Ok f = Ok f') by (etransitivity; [symmetry; exact E|exact E']). apply ok_inj in EE. subst f'. rewrite F in F'. injection F' as <-. rewrite Ax.
  rewrite (Sm (100 * s_precision sc)%Q 200%Q), (Sm (100 * s_recall sc)%Q 200%Q), (Sm (100 * s_f1 sc)%Q 200%Q), (Sm (100 * x)%Q 200%Q);
    [reflexivity| | | |]; rewrite ?P1, ?P2, ?P3, ?P4; reflexivity.
Qed.

Lemma in_range parse_float lower fixed2 files a h1 h2 rows :
  plain_numbers fixed2 -> main parse_float lower fixed2 files a = Printed (h1 :: h2 :: rows) ->
  (forall text es, weights_text files a = Some text -> weight_entries parse_float (file_lines (universal_newlines text)) es ->
     Forall (fun e => 0 <= snd e)%Q es) ->
  Forall (fun line => exists name p r q last, row_cells line = [name; fixed2 p; fixed2 r; fixed2 q; last] /\
            (0 <= p <= 100)%Q /\ (0 <= r <= 100)%Q /\ (0 <= q <= 100)%Q /\
            (last = [] \/ exists x, last = fixed2 x /\ (0 <= x <= 100)%Q)) rows.
Proof.
  intros Pl M N. destruct (main_output parse_float lower fixed2 Pl _ _ _ M) as (g & s & gold & system & w & f & _ & _ & Lg & Ls & W & E & O1 & O2).
  assert (D : weights_file a <> None \/ verbose a <> 0%nat).
  { destruct (weights_file a) eqn:Ew; [left; discriminate|]. destruct (verbose a) eqn:Ev; [|right; discriminate].
    destruct (O1 eq_refl eq_refl) as (sc & _ & X). discriminate. }
  destruct (O2 D) as (h1' & h2' & rows' & X & _ & R & _). injection X as <- <- <-.
  assert (Wn : weights_nonneg w).
  { intros d k q -> G. destruct (weights_text files a) as [text|] eqn:Et; [|discriminate].
    destruct (weights_file_read parse_float text) as (H1 & H2 & _). destruct (proj1 H1 (ex_intro _ _ W)) as (es & We).
    apply (H2 d es W We) in G. destruct G as (e1 & e2 & -> & _). specialize (N _ _ eq_refl We). rewrite Forall_forall in N.
    apply (N (k, q)). apply in_or_app. right. left. reflexivity. }
  unfold load_conllu_file in Lg, Ls. clear - R Wn Lg Ls E.
  induction R as [|[m name] line l rows (sc & F & Rc) R IH]; constructor; auto. cbn [fst snd] in *.
  destruct (evaluate_unit _ _ _ _ _ _ _ _ _ Lg Ls Wn E F) as ([? ?] & [? ?] & [? ?] & A & _).
  eexists. eexists. eexists. eexists. eexists. split; [exact Rc|]. split; [lra|]. split; [lra|]. split; [lra|].
  destruct (s_aligned sc) as [x|]; [right|auto]. destruct (A x eq_refl). eexists. split; [reflexivity|]. lra.
Qed.
