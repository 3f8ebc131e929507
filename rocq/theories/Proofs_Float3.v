(* What evaluate computes in floating point. *)
From Coq Require Import String Ascii ZArith NArith QArith Qabs Lia Lqa Bool List Setoid Morphisms.
From Verif Require Import Base BaseFacts Model_Datamodel Model_Conllu Model_UDEval Model_Harness Model_Float Spec_UDEval Spec_Float
  Proofs_UDEval Proofs_UDEval2 Proofs_UDEval3 Proofs_UDEval4 Proofs_UDEval5 Proofs_UDEval6 Proofs_UDEval7 Proofs_UDEval8
  Proofs_Float Proofs_Float2.
Import ListNotations.
Open Scope Q_scope.

Definition metric_number (weights : option (dict Q)) (m : metric) (w : word) : number :=
  if counts m then Int 1 else Float (metric_weight weights m w).

Lemma num_sum_ext {A} (f g : A -> number) l : (forall x, f x = g x) -> num_sum f l = num_sum g l.
Proof.
  intro E. unfold num_sum. generalize (Int 0). induction l as [|x l IH]; intro t; [reflexivity|]. cbn [fold_left].
  rewrite E. apply IH.
Qed.

Lemma num_sum_map {A B} (f : B -> number) (g : A -> B) l : num_sum f (map g l) = num_sum (fun x => f (g x)) l.
Proof. unfold num_sum. generalize (Int 0). induction l as [|x l IH]; intro t; [reflexivity|]. cbn [map fold_left]. apply IH. Qed.

Lemma fl_metric_alignment gold system al weights m sc : compared m <> None \/ m = MWords ->
  fl_metric_score gold system al weights m = Some sc ->
  exists wt, sc = fl_alignment_score (u_words gold) (u_words system) al (key_of m) wt /\
    (forall w, wt w = metric_number weights m w).
Proof.
  intros K E. destruct m; cbn [fl_metric_score key_of compared] in *; try (destruct K as [K|K]; [congruence|discriminate]);
    try (injection E as <-; exists int_one; split; [reflexivity|intro; reflexivity]).
  - injection E as <-. exists (fl_deprel_weight clas_weights). split; [reflexivity|]. intro w.
    unfold fl_deprel_weight, metric_number. cbn [counts]. now rewrite deprel_weight_clas.
  - destruct weights as [d|]; [|discriminate]. injection E as <-. exists (fl_deprel_weight d). split; [reflexivity|]. reflexivity.
Qed.

Lemma fl_evaluate_meaning lower tg ts gold system weights :
  load_conllu tg = Ok gold -> load_conllu ts = Ok system -> u_chars gold = u_chars system ->
  exists f pairs, fl_evaluate lower gold system weights = Ok f /\ aligned lower (u_words gold) (u_words system) pairs /\
    align lower (u_words gold) (u_words system) = Ok pairs /\
    (exists xs, common_spans xs (u_tokens gold) (u_tokens system) /\
       f MTokens = Some (fl_new_score (Int (zlen (u_tokens gold))) (Int (zlen (u_tokens system))) (Int (zlen xs)) None)) /\
    (exists xs, common_spans xs (u_sents gold) (u_sents system) /\
       f MSentences = Some (fl_new_score (Int (zlen (u_sents gold))) (Int (zlen (u_sents system))) (Int (zlen xs)) None)) /\
    (forall m, m <> MTokens -> m <> MSentences ->
       (f m = None <-> m = MWeightedLAS /\ weights = None) /\
       forall sc, f m = Some sc ->
         exists good, agreeing m pairs good /\
           sc = fl_new_score (num_sum (metric_number weights m) (u_words gold)) (num_sum (metric_number weights m) (u_words system))
                  (num_sum (metric_number weights m) (map fst good))
                  (match compared m with None => None | Some _ => Some (num_sum (metric_number weights m) (map fst pairs)) end)).
Proof.
  intros Lg Ls C. destruct (align_ok lower (u_words gold) (u_words system)) as (pairs & EA & A);
    [eapply load_nonempty; eauto|eapply load_nonempty; eauto|].
  unfold fl_evaluate. rewrite C, str_eqb_refl. cbn [negb raise_if bind]. rewrite EA. cbn [bind].
  eexists. exists pairs. split; [reflexivity|]. split; auto. split; auto.
  destruct (load_tiles _ _ Lg) as (Tg & Sg & _). destruct (load_tiles _ _ Ls) as (Ts & Ss & _).
  split; [|split].
  - destruct (spans_correct_common (u_tokens gold)) with (s := u_tokens system) as (xs & Cx & Ex);
      [eapply consecutive_increasing; eauto|eapply consecutive_increasing; eauto|].
    exists xs. split; auto. cbn [fl_metric_score]. unfold fl_spans_score. now rewrite Ex.
  - destruct (spans_correct_common (u_sents gold)) with (s := u_sents system) as (xs & Cx & Ex);
      [eapply consecutive_increasing; eauto|eapply consecutive_increasing; eauto|].
    exists xs. split; auto. cbn [fl_metric_score]. unfold fl_spans_score. now rewrite Ex.
  - intros m Nt Ns. split.
    + destruct m; cbn [fl_metric_score]; try contradiction; try (split; [discriminate|intros [X _]; discriminate]).
      destruct weights; cbn; split; auto; try discriminate. intros [_ X]; discriminate.
    + intros sc E.
      destruct (fl_metric_alignment gold system (fill_parents pairs) weights m sc) as (wt & -> & W).
      { destruct m; try contradiction; auto; left; discriminate. }
      { exact E. }
      destruct (aligned_matching _ _ _ _ A) as (M1 & M2 & _).
      pose proof (loaded_ix _ (load_loaded _ _ Ls)) as NI.
      assert (NP : NoDup (map (fun p => w_ix (snd p)) pairs)).
      { rewrite <- (map_map snd w_ix). eapply subseq_NoDup; [|exact NI]. now apply subseq_map. }
      assert (RP : Forall (fun p => not_remapping (fst p) /\ not_remapping (snd p)) pairs).
      { apply Forall_forall. intros p I0. pose proof (loaded_remap _ (load_loaded _ _ Lg)) as R1. pose proof (loaded_remap _ (load_loaded _ _ Ls)) as R2.
        rewrite Forall_forall in R1, R2. split; [apply R1; eapply subseq_In; [exact M1|]; now apply in_map|apply R2; eapply subseq_In; [exact M2|]; now apply in_map]. }
      destruct (good_pairs m pairs NP RP) as (good & AG & GK). exists good. split; auto.
      assert (WG : forall l, num_sum (fun a => wt (a_gold a)) (map (aw pairs) l) = num_sum (metric_number weights m) (map fst l)).
      { intro l. rewrite !num_sum_map. apply num_sum_ext. intro p. apply W. }
      unfold fl_alignment_score. rewrite fill_parents_aw, WG, !(num_sum_ext wt (metric_number weights m)) by exact W.
      destruct (key_of m) as [k|] eqn:K.
      * rewrite <- GK, WG. unfold key_of in K. destruct (compared m) as [[cs h]|]; [reflexivity|discriminate].
      * subst good. unfold key_of in K. destruct (compared m) as [[cs h]|]; [discriminate|reflexivity].
Qed.

(* the sums of a metric: all of them ints, or floats *)
Lemma metric_sum_kind weights m (l : list word) :
  kind (counts m) (num_sum (metric_number weights m) l) /\
  value (num_sum (metric_number weights m) l) == if counts m then inject_Z (zlen l) else fsum (metric_weight weights m) l.
Proof.
  unfold metric_number. destruct (counts m).
  - rewrite num_sum_ints. split; [eexists; reflexivity | reflexivity].
  - apply num_sum_kind.
Qed.

Lemma metric_sum_subseq weights m (l l' : list word) : weights_nonneg weights -> subseq l l' ->
  value (num_sum (metric_number weights m) l) <= value (num_sum (metric_number weights m) l').
Proof.
  intros N S0. rewrite !(proj2 (metric_sum_kind _ _ _)). destruct (counts m).
  - rewrite <- Zle_Qle. unfold zlen. pose proof (subseq_length _ _ S0). lia.
  - apply fsum_subseq; [exact S0|]. intros. now apply metric_weight_nonneg.
Qed.

Lemma metric_sum_nonneg weights m (l : list word) : weights_nonneg weights -> 0 <= value (num_sum (metric_number weights m) l).
Proof. intro N. apply (metric_sum_subseq weights m [] l N). constructor. Qed.

Lemma fl_chars lower gold system weights f : fl_evaluate lower gold system weights = Ok f -> u_chars gold = u_chars system.
Proof.
  unfold fl_evaluate. destruct (str_eqb (u_chars gold) (u_chars system)) eqn:X; [intros _; now apply str_eqb_eq|discriminate].
Qed.

Lemma fl_evaluate_unit lower tg ts gold system weights f m sc :
  load_conllu tg = Ok gold -> load_conllu ts = Ok system -> weights_nonneg weights ->
  fl_evaluate lower gold system weights = Ok f -> f m = Some sc ->
  unit_interval (s_precision sc) /\ unit_interval (s_recall sc) /\ unit_interval (s_f1 sc) /\
  (forall q, s_aligned sc = Some q -> unit_interval q) /\ lies_between (s_precision sc) (s_recall sc) (s_f1 sc).
Proof.
  intros Lg Ls Wn E Em. pose proof (fl_chars _ _ _ _ _ E) as C.
  destruct (fl_evaluate_meaning lower tg ts gold system weights Lg Ls C) as (f' & pairs & E' & A & _ & Mt & Ms & Mo).
  rewrite E in E'. injection E' as <-.
  assert (Span : forall g s, (exists xs, common_spans xs g s /\ f m = Some (fl_new_score (Int (zlen g)) (Int (zlen s)) (Int (zlen xs)) None)) ->
     unit_interval (s_precision sc) /\ unit_interval (s_recall sc) /\ unit_interval (s_f1 sc) /\
     (forall q, s_aligned sc = Some q -> unit_interval q) /\ lies_between (s_precision sc) (s_recall sc) (s_f1 sc)).
  { intros g s (xs & Cx & E0). rewrite Em in E0. injection E0 as ->. destruct (common_le _ _ _ Cx) as [L1 L2].
    apply (new_score_unit true); try (eexists; reflexivity); try discriminate; cbn [value].
    - change 0 with (inject_Z 0). rewrite <- Zle_Qle. unfold zlen. lia.
    - rewrite <- Zle_Qle. unfold zlen. lia.
    - rewrite <- Zle_Qle. unfold zlen. lia. }
  destruct (metric_dec m MTokens) as [->|Nt]; [apply (Span _ _ Mt)|].
  destruct (metric_dec m MSentences) as [->|Ns]; [apply (Span _ _ Ms)|].
  destruct (Mo m Nt Ns) as [_ Mo']. destruct (Mo' sc Em) as (good & AG & ->).
  destruct (aligned_matching _ _ _ _ A) as (M1 & M2 & _). pose proof (proj1 AG) as Sg.
  apply (new_score_unit (counts m)); try apply metric_sum_kind.
  - intros x Ex. destruct (compared m); [|discriminate]. injection Ex as <-. split; [apply metric_sum_kind|].
    apply metric_sum_subseq; [exact Wn|]. now apply subseq_map.
  - now apply metric_sum_nonneg.
  - apply metric_sum_subseq; [exact Wn|]. eapply subseq_trans; [exact M1|]. now apply subseq_map.
  - assert (X : value (num_sum (metric_number weights m) (map fst good)) == value (num_sum (metric_number weights m) (map snd good))).
    { rewrite !(proj2 (metric_sum_kind _ _ _)). destruct (counts m).
      - unfold zlen. now rewrite !map_length.
      - rewrite !fsum_map. erewrite fsum_ext; [reflexivity|]. intros [w v] I0. cbn [fst snd]. now apply (weight_agrees weights m pairs good w v). }
    rewrite X. apply metric_sum_subseq; [exact Wn|]. eapply subseq_trans; [exact M2|]. now apply subseq_map.
Qed.
