(* Configurations: the network that is built. *)
From Coq Require Import String Ascii ZArith NArith QArith Bool List Lia Permutation.
From Verif Require Import Base BaseFacts Proofs_Datamodel Model_Datamodel Spec_Datamodel Model_Vocab Model_Lemma Model_Features Model_Builder Spec_Builder
  Proofs_Features Model_Neural Spec_Neural Model_Network Spec_Network Proofs_Network2 Proofs_Network3 Model_Config Spec_Config Proofs_Config3.
Import ListNotations.
Open Scope Z_scope.

(* the builders of a configuration *)
Definition shared_features (fc : features_config) : list feature_builder :=
  [FBLength n_lengths]
  ++ given_part (fc_words fc) (fun c => FBWords n_words n_word_embeddings (fst c) (snd c))
  ++ given_part (fc_trained fc) (fun c => FBTrained n_trained_words (fst (fst c)) (snd (fst c)))
  ++ given_part (fc_characters fc) (subwords_builder n_characters)
  ++ given_part (fc_bpe fc) (subwords_builder n_bpe)
  ++ given_part (fc_morfessor fc) (subwords_builder n_morfessor).
Definition task_features (tc : task_config) : list feature_builder :=
  match tc_kind tc with
  | lemma_suffix | lemma_binary => given_part (tc_rules tc) (FBApplicable n_applicable)
  | lemma_combo => given_part (tc_input tc) (subwords_builder n_input)
  | _ => []
  end.
Definition task_label (tc : task_config) : list label_builder :=
  match tc_kind tc with
  | pos_dense st => [LBPos n_pos_labels st]
  | lemma_dense => [LBLemma n_lemma_labels]
  | lemma_suffix | lemma_binary => given_part (tc_rules tc) (LBRule n_rule_labels)
  | lemma_combo => given_part (tc_output tc) (fun o => let '(th, seg, m) := o in LBChars n_output th seg m)
  end.
Definition all_features (fc : features_config) (tcs : list task_config) : list feature_builder :=
  shared_features fc ++ flat_map task_features tcs.
Definition all_labels (tcs : list task_config) : list label_builder := flat_map task_label tcs.

(* the name and the lines of a file of embeddings *)
Definition fb_file (fb : feature_builder) : option (str * list str) :=
  match fb with FBWords _ init lines _ | FBPretrained _ init lines _ => Some (init, lines) | _ => None end.

Section Network.
Variables (stack_dict : result unit) (fc : features_config) (tcs : list task_config) (shapes : dict shape).
Notation make_task := (make_task stack_dict).

Definition rows_of (k : str) : result Z :=
  do sh <- shape_list shapes (if str_eqb k n_words then n_word_embeddings else k); dim sh 0.
Definition dims_ok (k : str) (dims : list (option Z)) : Prop :=
  if str_eqb k n_lengths then dims = [None]
  else if str_eqb k n_words || str_eqb k n_trained_words then dims = [None; None]
  else if str_eqb k n_applicable then exists sh n, shape_list shapes k = Ok sh /\ dim sh 0 = Ok n /\ dims = [None; None; Some n]
  else dims = [None; None; None].
Definition gold_ok (k : str) (dims : list (option Z)) : Prop :=
  if str_eqb k n_dropout || str_eqb k n_lr then dims = []
  else if str_eqb k n_output then exists tc th seg m, In tc tcs /\ tc_kind tc = lemma_combo /\ tc_output tc = Some (th, seg, m) /\ dims = [None; None; Some m]
  else exists parts, shape_parts shapes k = Ok parts /\ dims = [None; None; Some (zlen parts)].
Definition target_ok (k : str) (i : option nat) (n : Z) : Prop :=
  match i with
  | Some j => str_eqb k n_dropout || str_eqb k n_lr = false /\ exists parts nm, shape_parts shapes k = Ok parts /\ nth_error parts j = Some (nm, n)
  | None => k = n_output /\ exists sh, shape_list shapes k = Ok sh /\ dim sh 0 = Ok n
  end.
Definition matrix_ok (p : str) (R C : Z) : Prop :=
  exists fb lines sh, In fb (all_features fc tcs) /\ fb_file fb = Some (p, lines) /\ shape_list shapes p = Ok sh /\ dim sh 0 = Ok R /\ 0 < C /\
    (dim sh 1 = Ok C \/
     p = n_input /\ exists tc c, In tc tcs /\ tc_kind tc = lemma_combo /\ tc_input tc = Some c /\ sw_source c = Pretrained lines /\ C = sw_embed_size c).

(* the ids of words and subwords *)
Definition looked (k : str) : bool := negb (str_eqb k n_lengths) && negb (str_eqb k n_applicable).

Definition ups (inits : list (initializer tensor nat)) : list nat :=
  flat_map (fun i => match i with IGlobal _ => [] | IMatrix _ _ _ up => [t_id up] end) inits.

Record inv (g : graph) (inputs gold : dict tensor) (inits : list (initializer tensor nat)) : Prop := mkInv {
  i_ids : NoDup (map (fun kt => t_id (snd kt)) (inputs ++ gold));
  i_next : forall k t, In (k, t) (inputs ++ gold) -> (t_id t < g_next g)%nat;
  i_dims : forall k t, In (k, t) inputs -> dims_ok k (t_dims t);
  i_gold : forall k t, In (k, t) gold -> gold_ok k (t_dims t);
  i_look : forall t r, In (t, r) (g_lookups g) -> exists k, In (k, t) inputs /\ looked k = true /\ rows_of k = Ok r;
  i_mask : forall t n, In (t, n) (g_masks g) -> In (n_applicable, t) inputs /\
             exists parts nm, shape_parts shapes n_rule_labels = Ok parts /\ In (nm, n) parts;
  i_targ : forall t i n, In (t, i, n) (g_targets g) -> exists k, In (k, t) gold /\ target_ok k i n;
  i_init : forall p ix vs up, In (IMatrix p ix vs up) inits -> exists R C, In (up, (R, C)) (g_updates g) /\
             t_dims ix = [None] /\ t_dims vs = [None; Some C] /\ matrix_ok p R C;
  i_only : only_matrices inits;
  i_ups : NoDup (ups inits) /\ forall u, In u (ups inits) -> (u < g_next g)%nat
}.

(* a graph with more tensors *)
Lemma inv_next g n inputs gold inits : inv g inputs gold inits -> (g_next g <= n)%nat ->
  inv (mkGraph n (g_lookups g) (g_updates g) (g_masks g) (g_targets g)) inputs gold inits.
Proof.
  intros [] H. constructor; cbn [g_next g_lookups g_updates g_masks g_targets]; auto.
  - intros k t I. specialize (i_next0 k t I). lia.
  - destruct i_ups0 as [D L]. split; auto. intros u I. specialize (L u I). lia.
Qed.
Lemma inv_layer g inputs gold inits : inv g inputs gold inits -> inv (fst (layer g)) inputs gold inits.
Proof. intros H. unfold layer, placeholder. cbn [fst]. apply inv_next; auto. Qed.

Lemma inv_input g inputs gold inits k dims : inv g inputs gold inits -> dims_ok k dims ->
  inv (fst (placeholder dims g)) (inputs ++ [(k, snd (placeholder dims g))]) gold inits.
Proof.
  intros [] H. unfold placeholder. cbn [fst snd].
  assert (P : Permutation ((inputs ++ [(k, mkTensor (g_next g) dims)]) ++ gold) ((k, mkTensor (g_next g) dims) :: inputs ++ gold)).
  { rewrite <- app_assoc. cbn [app]. symmetry. apply Permutation_middle. }
  constructor; cbn [g_next g_lookups g_updates g_masks g_targets]; auto.
  - eapply Permutation_NoDup; [apply Permutation_map; symmetry; exact P|]. cbn [map snd t_id]. constructor; auto.
    intros I. apply in_map_iff in I. destruct I as ([k' t'] & E & I). apply i_next0 in I. cbn [snd] in E. lia.
  - intros k' t' I. apply (Permutation_in _ P) in I. destruct I as [E|I]; [injection E as <- <-; cbn; lia|]. apply i_next0 in I. lia.
  - intros k' t' I. apply in_app_iff in I. destruct I as [I|[E|[]]]; auto. injection E as <- <-. exact H.
  - intros t r I. destruct (i_look0 t r I) as (k' & I' & E). exists k'. rewrite in_app_iff. auto.
  - intros t r I. destruct (i_mask0 t r I) as (I' & E). rewrite in_app_iff. auto.
  - destruct i_ups0 as [D L]. split; auto. intros u I. specialize (L u I). lia.
Qed.
Lemma inv_golden g inputs gold inits k dims : inv g inputs gold inits -> gold_ok k dims ->
  inv (fst (placeholder dims g)) inputs (gold ++ [(k, snd (placeholder dims g))]) inits.
Proof.
  intros [] H. unfold placeholder. cbn [fst snd].
  assert (P : Permutation (inputs ++ gold ++ [(k, mkTensor (g_next g) dims)]) ((k, mkTensor (g_next g) dims) :: inputs ++ gold)).
  { rewrite app_assoc. symmetry. apply Permutation_cons_append. }
  constructor; cbn [g_next g_lookups g_updates g_masks g_targets]; auto.
  - eapply Permutation_NoDup; [apply Permutation_map; symmetry; exact P|]. cbn [map snd t_id]. constructor; auto.
    intros I. apply in_map_iff in I. destruct I as ([k' t'] & E & I). apply i_next0 in I. cbn [snd] in E. lia.
  - intros k' t' I. apply (Permutation_in _ P) in I. destruct I as [E|I]; [injection E as <- <-; cbn; lia|]. apply i_next0 in I. lia.
  - intros k' t' I. apply in_app_iff in I. destruct I as [I|[E|[]]]; auto. injection E as <- <-. exact H.
  - intros t i n I. destruct (i_targ0 t i n I) as (k' & I' & E). exists k'. rewrite in_app_iff. auto.
  - destruct i_ups0 as [D L]. split; auto. intros u I. specialize (L u I). lia.
Qed.

Lemma inv_embedding g inputs gold inits ids k rows cols g' e : inv g inputs gold inits -> In (k, ids) inputs -> looked k = true -> rows_of k = Ok rows ->
  embedding_layer ids rows cols g = Ok (g', e) -> inv g' inputs gold inits.
Proof.
  intros H I Lk R E. unfold embedding_layer in E. destruct (cols =? 0); [discriminate|]. destruct (cols <? 0); [discriminate|].
  cbn [raise_if bind] in E. injection E as <- _. destruct H. constructor; cbn [g_next g_lookups g_updates g_masks g_targets]; auto.
  - intros k' t J. specialize (i_next0 k' t J). lia.
  - intros t r [J|J]; [injection J as <- <-; eauto|auto].
  - destruct i_ups0 as [D L]. split; auto. intros u J. specialize (L u J). lia.
Qed.
Lemma inv_matrix g inputs gold inits p R C : inv g inputs gold inits -> matrix_ok p R C ->
  inv (fst (matrix_initializer p R C g)) inputs gold (inits ++ [snd (matrix_initializer p R C g)]).
Proof.
  intros [] M. unfold matrix_initializer, layer, placeholder. cbn [fst snd]. constructor; cbn [g_next g_lookups g_updates g_masks g_targets]; auto.
  - intros k t J. specialize (i_next0 k t J). lia.
  - intros p' ix vs up J. apply in_app_iff in J. destruct J as [J|[J|[]]].
    + destruct (i_init0 p' ix vs up J) as (R' & C' & A & B). exists R', C'. split; [right; auto|auto].
    + injection J as <- <- <- <-. exists R, C. cbn [t_dims]. split; [left; auto|auto].
  - apply Forall_app. split; [exact i_only0|]. constructor; [exact Logic.I|constructor].
  - destruct i_ups0 as [D L]. unfold ups in *. rewrite flat_map_app. cbn [flat_map app t_id]. split.
    + apply NoDup_app_intro; auto; [constructor; [intros []|constructor]|]. intros u J [<-|[]]. specialize (L _ J). lia.
    + intros u J. apply in_app_iff in J. destruct J as [J|[<-|[]]]; [specialize (L _ J); lia|lia].
Qed.
Lemma inv_mask g inputs gold inits t nm n parts : inv g inputs gold inits -> In (n_applicable, t) inputs -> shape_parts shapes n_rule_labels = Ok parts ->
  In (nm, n) parts -> inv (add_mask t n g) inputs gold inits.
Proof.
  intros [] I E J. unfold add_mask. constructor; cbn [g_next g_lookups g_updates g_masks g_targets]; auto.
  intros t' n' [H|H]; [injection H as <- <-; eauto|auto].
Qed.
Lemma inv_target g inputs gold inits t i n k : inv g inputs gold inits -> In (k, t) gold -> target_ok k i n -> inv (add_target t i n g) inputs gold inits.
Proof.
  intros [] I E. unfold add_target. constructor; cbn [g_next g_lookups g_updates g_masks g_targets]; auto.
  intros t' i' n' [H|H]; [injection H as <- <- <-; eauto|auto].
Qed.

(* ---- the shared part ---- *)

Lemma placeholders_inv l : forall g inputs gold inits, (forall k dims, In (k, dims) l -> dims_ok k dims) -> inv g inputs gold inits ->
  inv (fst (placeholders_of l g)) (inputs ++ snd (placeholders_of l g)) gold inits.
Proof.
  induction l as [|[k dims] l IH]; intros g inputs gold inits H I; cbn [placeholders_of fst snd].
  - rewrite app_nil_r. exact I.
  - pose proof (inv_input g inputs gold inits k dims I (H k dims (or_introl eq_refl))) as I1.
    destruct (placeholder dims g) as [g1 t]. cbn [fst snd] in I1. specialize (IH g1 (inputs ++ [(k, t)]) gold inits (fun k d J => H k d (or_intror J)) I1).
    destruct (placeholders_of l g1) as [g2 d]. cbn [fst snd] in *. rewrite <- app_assoc in IH. exact IH.
Qed.
Lemma placeholders_keys l : forall g, dict_keys (snd (placeholders_of l g)) = map fst l.
Proof.
  induction l as [|[k dims] l IH]; intros g; [reflexivity|]. cbn [placeholders_of map fst]. destruct (placeholder dims g) as [g1 t]. specialize (IH g1).
  destruct (placeholders_of l g1) as [g2 d]. cbn [snd dict_keys map fst] in *. unfold dict_keys in *. cbn [map fst]. congruence.
Qed.

Definition step_ok (f : step) : Prop := forall inputs gold inits g g' nt is,
  inv g inputs gold inits -> f shapes inputs g = Ok (g', nt, is) -> inv g' inputs gold (inits ++ is).

Lemma dict_get_mem {A} (d : dict A) k v : of_option EKey (dict_get d k) = Ok v -> In (k, v) d.
Proof. destruct (dict_get d k) as [w|] eqn:E; cbn [of_option]; [|discriminate]. intros H. injection H as <-. apply dict_get_In. exact E. Qed.

Lemma embedding_cols ids rows cols g r : embedding_layer ids rows cols g = Ok r -> 0 < cols.
Proof.
  unfold embedding_layer. destruct (cols =? 0) eqn:E1; cbn [raise_if bind]; [discriminate|]. destruct (cols <? 0) eqn:E2; cbn [raise_if bind]; [discriminate|].
  intros _. apply Z.eqb_neq in E1. apply Z.ltb_ge in E2. lia.
Qed.
Lemma words_step_ok c : fc_words fc = Some c -> step_ok words_step.
Proof.
  intros F inputs gold inits g g' nt is I E. unfold words_step in E. apply bind_ok_iff in E. destruct E as (ids & E1 & E).
  apply bind_ok_iff in E. destruct E as (sh & E2 & E). apply bind_ok_iff in E. destruct E as (rows & E3 & E). apply bind_ok_iff in E. destruct E as (cols & E4 & E).
  apply bind_ok_iff in E. destruct E as ([g1 e] & E5 & E). cbn [fst snd] in E.
  assert (I1 : inv g1 inputs gold inits).
  { eapply inv_embedding; eauto using dict_get_mem. unfold rows_of. change (str_eqb n_words n_words) with true. cbn [bind]. rewrite E2. exact E3. }
  assert (M : matrix_ok n_word_embeddings rows cols).
  { exists (FBWords n_words n_word_embeddings (fst c) (snd c)), (fst c), sh. split; [|split; [reflexivity|apply embedding_cols in E5; auto]].
    unfold all_features, shared_features. rewrite F. apply in_app_iff. left. cbn. auto. }
  pose proof (inv_matrix g1 inputs gold inits n_word_embeddings rows cols I1 M) as I2.
  destruct (matrix_initializer n_word_embeddings rows cols g1) as [g2 i]. cbn [fst snd] in *. injection E as <- _ <-. exact I2.
Qed.
Lemma trained_step_ok size : step_ok (trained_step size).
Proof.
  intros inputs gold inits g g' nt is I E. unfold trained_step in E. apply bind_ok_iff in E. destruct E as (sh & E2 & E).
  apply bind_ok_iff in E. destruct E as (rows & E3 & E). apply bind_ok_iff in E. destruct E as (ids & E1 & E).
  apply bind_ok_iff in E. destruct E as ([g1 e] & E5 & E). cbn [fst snd] in E. injection E as <- _ <-. rewrite app_nil_r.
  eapply inv_embedding; eauto using dict_get_mem. unfold rows_of. change (str_eqb n_trained_words n_words) with false. cbv iota. rewrite E2. exact E3.
Qed.
Lemma subwords_step_ok name c : str_eqb name n_words = false -> looked name = true -> In (subwords_builder name c) (all_features fc tcs) -> step_ok (subwords_step name c).
Proof.
  intros Nw Lk If inputs gold inits g g' nt is I E. unfold subwords_step in E. apply bind_ok_iff in E. destruct E as (ids & E1 & E).
  apply bind_ok_iff in E. destruct E as (sh & E2 & E). apply bind_ok_iff in E. destruct E as (rows & E3 & E).
  assert (R : rows_of name = Ok rows) by (unfold rows_of; rewrite Nw, E2; exact E3).
  destruct (sw_source c) as [th|lines] eqn:Es.
  - apply bind_ok_iff in E. destruct E as ([g1 e] & E5 & E). cbn [fst snd] in E.
    assert (I1 : inv g1 inputs gold inits) by (eapply inv_embedding; eauto using dict_get_mem).
    apply inv_layer in I1. destruct (layer g1) as [g2 t]. cbn [fst] in I1. injection E as <- _ <-. rewrite app_nil_r. exact I1.
  - apply bind_ok_iff in E. destruct E as (cols & E4 & E). apply bind_ok_iff in E. destruct E as ([g1 e] & E5 & E). cbn [fst snd] in E.
    assert (I1 : inv g1 inputs gold inits) by (eapply inv_embedding; eauto using dict_get_mem).
    assert (M : matrix_ok name rows cols).
    { exists (subwords_builder name c), lines, sh. split; auto. unfold subwords_builder. rewrite Es. split; [reflexivity|apply embedding_cols in E5; auto]. }
    pose proof (inv_matrix g1 inputs gold inits name rows cols I1 M) as I2.
    destruct (matrix_initializer name rows cols g1) as [g2 i]. cbn [fst snd] in *. apply inv_layer in I2. destruct (layer g2) as [g3 t]. injection E as <- _ <-. exact I2.
Qed.

Lemma shared_steps_ok : Forall step_ok (shared_steps fc).
Proof.
  unfold shared_steps. repeat (apply Forall_app; split).
  - destruct (fc_words fc) eqn:F; cbn [given_part]; constructor; [eapply words_step_ok; eauto|constructor].
  - destruct (fc_trained fc); cbn [given_part]; constructor; [apply trained_step_ok|constructor].
  - destruct (fc_characters fc) eqn:F; cbn [given_part]; constructor; [|constructor]. apply subwords_step_ok; [reflexivity|reflexivity|].
    unfold all_features, shared_features. rewrite F, !in_app_iff. left. right. right. right. left. left. reflexivity.
  - destruct (fc_bpe fc) eqn:F; cbn [given_part]; constructor; [|constructor]. apply subwords_step_ok; [reflexivity|reflexivity|].
    unfold all_features, shared_features. rewrite F, !in_app_iff. left. right. right. right. right. left. left. reflexivity.
  - destruct (fc_morfessor fc) eqn:F; cbn [given_part]; constructor; [|constructor]. apply subwords_step_ok; [reflexivity|reflexivity|].
    unfold all_features, shared_features. rewrite F, !in_app_iff. left. right. right. right. right. right. left. reflexivity.
Qed.

Lemma steps_inv l : Forall step_ok l -> forall inputs gold g r inits g' r' inits', inv g inputs gold inits ->
  foldM (run_step shapes inputs) (g, r, inits) l = Ok (g', r', inits') -> inv g' inputs gold inits'.
Proof.
  induction 1 as [|f l Hf Hl IH]; intros inputs gold g r inits g' r' inits' I E; cbn [foldM] in E.
  - injection E as <- _ <-. exact I.
  - apply bind_ok_iff in E. destruct E as ([[g1 r1] i1] & E1 & E). unfold run_step in E1 at 1. apply bind_ok_iff in E1. destruct E1 as ([[g0 nt] is] & E0 & E1).
    injection E1 as <- <- <-. eapply IH; [|exact E]. eapply Hf; eauto.
Qed.

Lemma add_layer_inv name s inputs gold : inv (fst (fst s)) inputs gold (snd s) ->
  inv (fst (fst (add_layer name s))) inputs gold (snd (add_layer name s)).
Proof. destruct s as [[g r] i]. cbn [fst snd]. intros I. unfold add_layer, layer, placeholder. cbn [fst snd]. apply inv_next; auto. Qed.
Lemma add_skip_inv name sk s s' inputs gold : inv (fst (fst s)) inputs gold (snd s) -> add_skip name sk s = Ok s' -> inv (fst (fst s')) inputs gold (snd s').
Proof.
  intros I E. destruct sk as [|same| |]; cbn [add_skip] in E; try discriminate.
  - injection E as <-. exact I.
  - destruct same; cbn [negb raise_if bind] in E; [|discriminate]. injection E as <-. apply add_layer_inv; auto.
  - injection E as <-. apply add_layer_inv; auto.
Qed.

Lemma shared_inv k inputs gold g g' r inits : inv g inputs gold [] -> shared_build k fc shapes inputs g = Ok (g', r, inits) -> inv g' inputs gold inits.
Proof.
  intros I E. unfold shared_build in E. apply bind_ok_iff in E. destruct E as ([[g1 r1] i1] & E1 & E).
  assert (I1 : inv g1 inputs gold i1).
  { unfold shared_layers in E1. apply bind_ok_iff in E1. destruct E1 as ([[g0 r0] i0] & E0 & E1). apply bind_ok_iff in E1. destruct E1 as (lens & _ & E1).
    pose proof (steps_inv _ shared_steps_ok _ _ _ _ _ _ _ _ I E0) as I0. unfold layer, placeholder in E1. cbn [g_next g_lookups g_updates g_masks g_targets] in E1.
    apply bind_ok_iff in E1. destruct E1 as (u & _ & E1). injection E1 as <- _ <-. apply inv_next; [exact I0|]. lia. }
  destruct k as [|layers sk|layers sk|kernels sk].
  - injection E as <- _ <-. exact I1.
  - apply bind_ok_iff in E. destruct E as (u & _ & E). apply (add_skip_inv n_bilstm_skip sk _ (g', r, inits) inputs gold) in E; auto.
    apply add_layer_inv. exact I1.
  - apply bind_ok_iff in E. destruct E as (u & _ & E). apply bind_ok_iff in E. destruct E as (s' & E2 & E). apply (add_skip_inv n_bilstm_skip sk _ s' inputs gold) in E2.
    + apply (add_layer_inv n_bilstm_cnn) in E2. injection E as E. rewrite E in E2. exact E2.
    + apply add_layer_inv. exact I1.
  - apply bind_ok_iff in E. destruct E as (u & _ & E). apply (add_skip_inv n_dilated_skip sk _ (g', r, inits) inputs gold) in E; auto.
    apply add_layer_inv. exact I1.
Qed.
End Network.
