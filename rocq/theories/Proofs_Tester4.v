(* Accuracy and perfect predictions. *)
From Coq Require Import String Ascii ZArith NArith QArith Bool Permutation Sorted Lia Lqa List.
From Verif Require Import Base BaseFacts Model_Datamodel Spec_Datamodel Proofs_Datamodel Model_Conllu Spec_Conllu Proofs_Conllu Proofs_Conllu3 Proofs_Conllu6 Proofs_Conllu7
  Model_UDEval Spec_UDEval Proofs_UDEval Proofs_UDEval4 Proofs_UDEval5 Proofs_UDEval6 Proofs_UDEval7 Proofs_UDEval8 Proofs_UDEval9 Spec_Processors Proofs_Processors
  Model_Tester Spec_Tester Proofs_Tester Proofs_Tester2 Proofs_Tester3.
Import ListNotations.
Open Scope Z_scope.

Definition for_word (it : Z * token) (w : word) : Prop := row_for it (w_columns w, w_multi w).

Lemma weight_counted m it w : In m tag_metrics -> for_word it w -> metric_weight None m w = if counted m it then 1%Q else 0%Q.
Proof.
  intros M R. apply row_columns in R as (_ & _ & _ & _ & A7).
  destruct M as [<-|[<-|[<-|[<-|[<-|[<-|[<-|[<-|[]]]]]]]]]; try reflexivity. cbn [metric_weight counted]. rewrite A7.
  destruct (existsb _ _); reflexivity.
Qed.

Lemma count_cons {A} (x : A) l : (count (x :: l) == 1 + count l)%Q.
Proof. unfold count. cbn [length]. rewrite Nat2Z.inj_succ. unfold Z.succ. rewrite inject_Z_plus. ring. Qed.

Lemma total_counted m P W : In m tag_metrics -> Forall2 for_word P W -> (total (metric_weight None m) W == count (filter (counted m) P))%Q.
Proof.
  intros M. induction 1 as [|it w P W R F IH]; [reflexivity|]. unfold total in *. cbn [map fold_right filter]. rewrite (weight_counted m it) by auto.
  rewrite IH. destruct (counted m it); [rewrite count_cons|]; ring.
Qed.

Lemma total_good m P W : In m tag_metrics -> Forall2 for_word P W -> forall (V : list word) marks, length V = length W -> length marks = length W ->
  (total (fun p : word * word => metric_weight None m (fst p)) (map fst (filter snd (combine (combine W V) marks))) ==
   count (filter (fun x => snd x && counted m (fst x)) (combine P marks)))%Q.
Proof.
  intros M. induction 1 as [|it w P W R F IH]; intros V marks L1 L2.
  - destruct V; [|discriminate]. destruct marks; [|discriminate]. reflexivity.
  - destruct V as [|v V]; [discriminate|]. destruct marks as [|b marks]; [discriminate|]. cbn in L1, L2.
    specialize (IH V marks ltac:(lia) ltac:(lia)). unfold total in *. cbn [combine filter fst snd]. destruct b; cbn [map fold_right filter fst snd andb].
    + rewrite (weight_counted m it) by auto. rewrite IH. destruct (counted m it); [rewrite count_cons|]; ring.
    + exact IH.
Qed.

Lemma fraction_eq a a' b b' q : (a == a')%Q -> (b == b')%Q -> fraction a b q -> fraction a' b' q.
Proof. intros A B [F1 F2]. split; [intros X; apply F1; lra|]. intros X. rewrite <- A, <- B. apply F2. intros Y. apply X. lra. Qed.

Lemma scores_eq sc a a' b b' c c' d d' : (a == a')%Q -> (b == b')%Q -> (c == c')%Q -> (d == d')%Q ->
  scores sc a b c (Some d) -> scores sc a' b' c' (Some d').
Proof.
  intros A B C D (F1 & F2 & F3 & F4). split; [|split; [|split]].
  - eapply fraction_eq; eauto.
  - eapply fraction_eq; eauto.
  - eapply fraction_eq; [| |exact F3]; lra.
  - destruct (s_aligned sc); auto. eapply fraction_eq; eauto.
Qed.

Lemma words_places ds u gsss : Forall2 sentence_groups ds gsss ->
  map (fun w => (w_columns w, w_multi w)) (u_words u) =
      concat (map (fun p => concat (map (written_words default_columns (dtext (fst p)) 1) (snd p))) (combine ds gsss)) ->
  Forall2 for_word (places ds) (u_words u).
Proof.
  intros G E. pose proof (documents_words ds gsss G) as F. rewrite <- E in F. clear -F.
  revert F. generalize (places ds) as P. induction (u_words u) as [|w W IH]; intros P F; inversion F; subst; constructor; auto.
Qed.

Lemma places_fine ds it : Forall loadable ds -> Forall distinct_features ds -> In it (places ds) -> fine_features (feats_of (snd it)).
Proof.
  intros L D H. unfold places in H. apply in_flat_map in H as (d & Hd & H). apply in_flat_map in H as (s & Hs & H).
  destruct it as [i t]. apply In_nth_error in H as (k & E). rewrite enumerate_nth' in E. destruct (nth_error (tokens_of (dtokens d) s) k) as [t'|] eqn:E'; [|discriminate].
  injection E as _ ->. assert (Ht : In t (dtokens d)). { apply (tokens_of_in (dtokens d) s). eapply nth_error_In; eauto. }
  rewrite Forall_forall in L, D. unfold feats_of. cbn [snd]. destruct (tpos t) as [p|] eqn:Ep; [|split; constructor].
  split; [apply (D d Hd t p); auto|]. pose proof (lb_clean _ (L d Hd)) as C. rewrite Forall_forall in C.
  apply (tc_tags _ _ (C t Ht) p Ep).
Qed.

Lemma all_written ds : Forall (fun d => tags_writable default_columns (dtokens d)) ds.
Proof. apply Forall_forall. intros d _. now left. Qed.

Lemma segmentation_groups gold pred gsss : Forall2 same_segmentation gold pred -> Forall2 sentence_groups gold gsss ->
  exists gsss', Forall2 sentence_groups pred gsss' /\ Forall2 (Forall2 (Forall2 (group_rel place))) gsss gsss'.
Proof.
  intros S. revert gsss. induction S as [|d d' gold pred S0 S IH]; intros gsss G; inversion G as [|? gss ? gsss' G0 G1]; subst.
  - exists []. split; constructor.
  - destruct (IH _ G1) as (g1 & A & B). destruct (sentence_groups_same d d' gss S0 G0) as (g2 & A2 & B2).
    exists (g2 :: g1). split; constructor; auto.
Qed.

Lemma pending_all gsss gsss' : Forall2 (Forall2 (Forall2 (group_rel place))) gsss gsss' -> Forall no_pending gsss -> Forall no_pending gsss'.
Proof. induction 1; intros N; inversion N; subst; constructor; eauto using no_pending_same. Qed.

Lemma nth_error_combine {A B} (l : list A) (l' : list B) k p : nth_error (combine l l') k = Some p ->
  nth_error l k = Some (fst p) /\ nth_error l' k = Some (snd p).
Proof.
  revert l' k. induction l as [|x l IH]; intros [|y l'] k H; destruct k; try discriminate; cbn in *; auto. injection H as <-. auto.
Qed.

Lemma tester_scores lower gold gsss pred :
  Forall doc_inv gold -> Forall2 sentence_groups gold gsss -> Forall no_pending gsss -> Forall loadable gold -> Forall distinct_features gold ->
  Forall doc_inv pred -> Forall loadable pred -> Forall distinct_features pred -> Forall2 same_segmentation gold pred ->
  exists out u out' u' f,
    write_str default_columns gold = Ok out /\ load_conllu out = Ok u /\ write_str default_columns pred = Ok out' /\ load_conllu out' = Ok u' /\
    evaluate lower u u' None = Ok f /\ f MWeightedLAS = None /\
    (forall m, In m [MTokens; MSentences; MWords] -> exists sc, f m = Some sc /\ (places gold <> [] -> perfect sc)) /\
    forall m, In m tag_metrics -> exists sc marks, f m = Some sc /\ marked m (places gold) (places pred) marks /\
      scores sc (count (filter (fun x => snd x && counted m (fst x)) (combine (places gold) marks)))
        (count (filter (counted m) (places gold))) (count (filter (counted m) (places pred)))
        (Some (count (filter (counted m) (places gold)))).
Proof.
  intros I G P L D I' L' D' S.
  destruct (segmentation_groups _ _ _ S G) as (gsss' & G' & GR). pose proof (pending_all _ _ GR P) as P'.
  destruct (written_loaded default_columns gold gsss I (all_written gold) G P L) as (out & u & W & E & C1 & C2 & C3 & C4 & C5 & C6).
  destruct (written_loaded default_columns pred gsss' I' (all_written pred) G' P' L') as (out' & u' & W' & E' & C1' & C2' & C3' & C4' & C5' & C6').
  pose proof (cgss_same default_columns _ _ _ _ S GR) as CG. pose proof (Forall2_concat _ _ _ CG) as CG1.
  assert (ST : same_tokenization u u').
  { split; [|split; [|split]].
    - rewrite C1, C1'. symmetry. now apply sentence_chars_same.
    - rewrite C2, C2'. symmetry. now apply expected_tokens_same.
    - rewrite C3, C3'. symmetry. now apply expected_sentences_same.
    - apply facts_forall2. rewrite C4, C4'. now apply expected_words_same. }
  destruct (same_scores lower out out' u u' None E E' ST) as (f & Ef & T1 & T2 & T3 & T4).
  exists out, u, out', u', f. do 5 (split; [assumption|]).
  assert (C0 : u_chars u = u_chars u') by apply ST.
  destruct (evaluate_meaning lower out out' u u' None E E' C0) as (f2 & pairs & Ef2 & _ & _ & _ & _ & MO). rewrite Ef in Ef2. injection Ef2 as <-.
  pose proof (words_places gold u gsss G C5) as PW. pose proof (words_places pred u' gsss' G' C5') as PW'.
  split. { apply (proj1 (MO MWeightedLAS ltac:(discriminate) ltac:(discriminate))). auto. }
  assert (NE : places gold <> [] -> u_words u <> []). { intros N X. apply N. rewrite X in PW. now inversion PW. }
  split.
  { assert (Nt : u_words u <> [] -> u_tokens u <> [] /\ u_sents u <> []).
    { intros N. destruct (load_tiles _ _ E) as (TI1 & TI2 & TI3). destruct (u_words u) as [|w ws] eqn:Ew; [congruence|]. inversion TI3 as [|? ? X _]; subst.
      split; [intros Y; rewrite Y in X; destruct X|]. intros Y. rewrite Y in TI2. inversion TI2; subst.
      destruct (u_tokens u) as [|sp sps]; [destruct X|]. assert (0 < zlen (u_chars u)); [|lia].
      inversion TI1; subst. assert (Z0 : forall a b l, consecutive a b l -> a <= b). { clear. induction 1; lia. }
      match goal with H : consecutive (sp_end sp) _ _ |- _ => apply Z0 in H end. lia. }
    intros m M. destruct M as [<-|[<-|[<-|[]]]]; [destruct T1 as (sc & X1 & X2)|destruct T2 as (sc & X1 & X2)|destruct T3 as (sc & X1 & X2)];
      exists sc; split; auto; intros N; apply X2; auto; apply Nt; auto. }
  intros m M.
  assert (Cm : compared m <> None) by (destruct M as [<-|[<-|[<-|[<-|[<-|[<-|[<-|[<-|[]]]]]]]]]; discriminate).
  assert (Fm : exists sc, f m = Some sc).
  { destruct (f m) as [sc|] eqn:X; [eauto|]. exfalso.
    destruct (MO m) as [Y _]; [intros ->; now apply Cm|intros ->; now apply Cm|]. apply Y in X as [-> _]. clear -M. cbn in M. intuition discriminate. }
  destruct Fm as (sc & Fm). destruct (T4 m sc Cm Fm) as (good & (SG & AG) & SC).
  assert (Lw : length (u_words u) = length (u_words u')) by (destruct ST as (_ & _ & _ & X); now apply Forall2_length' in X).
  assert (ND : NoDup (combine (u_words u) (u_words u'))).
  { apply (NoDup_map_inv (fun p => w_ix (fst p))). rewrite <- (map_map fst w_ix), combine_fst by auto.
    apply loaded_ix. eapply load_loaded; eauto. }
  destruct (marks_of _ _ SG ND) as (marks & MF & Eg).
  assert (Lm : length marks = length (u_words u)).
  { apply Forall2_length' in MF. rewrite combine_length, <- Lw, Nat.min_id in MF. auto. }
  assert (Lp : length (places gold) = length (u_words u)) by now apply Forall2_length' in PW.
  assert (Lp' : length (places pred) = length (u_words u)) by (rewrite Lw; now apply Forall2_length' in PW').
  exists sc, marks. split; auto. split.
  - unfold marked. apply Forall2_by_nth; [rewrite combine_length, Lp, Lp', Nat.min_id; auto|].
    intros k [it it'] b Hk Hb. destruct (nth_error_combine _ _ _ _ Hk) as [K1 K2]. cbn [fst snd] in *.
    destruct (Forall2_nth _ _ _ _ _ PW K1) as (w & Kw & Rw). destruct (Forall2_nth _ _ _ _ _ PW' K2) as (v & Kv & Rv).
    assert (Kc : nth_error (combine (u_words u) (u_words u')) k = Some (w, v)).
    { clear -Kw Kv. revert Kw Kv. generalize (u_words u) (u_words u'). intros l l'. revert l' k.
      induction l as [|x l IH]; intros [|y l'] [|k] A B; try discriminate; cbn in *; [congruence|auto]. }
    destruct (Forall2_nth _ _ _ _ _ MF Kc) as (b' & Kb & Rb). rewrite Hb in Kb. injection Kb as <-. rewrite Rb.
    rewrite (AG w v) by (eapply nth_error_In; eauto).
    apply agreement; auto.
    + apply (places_fine gold); auto. eapply nth_error_In; eauto.
    + apply (places_fine pred); auto. eapply nth_error_In; eauto.
    + rewrite (parents_iff _ _ (heads_shape _ _ S) 0 k (w_parent w) (w_parent v) (compared_head it + 1) (compared_head it' + 1)).
      * split; lia.
      * rewrite <- C6, nth_error_map, Kw. reflexivity.
      * rewrite <- C6', nth_error_map, Kv. reflexivity.
      * rewrite heads_places, nth_error_map, K1. reflexivity.
      * rewrite heads_places, nth_error_map, K2. reflexivity.
  - eapply scores_eq; [| | | |exact SC].
    + rewrite Eg. apply total_good; auto.
    + apply total_counted; auto.
    + apply total_counted; auto.
    + apply total_counted; auto.
Qed.
