(* Configurations: feeding a training batch, and initial values. *)
From Coq Require Import String Ascii ZArith NArith QArith Bool List Lia Permutation.
From Verif Require Import Base BaseFacts Proofs_Datamodel Model_Datamodel Spec_Datamodel Model_Vocab Model_Lemma Model_Features Spec_Features Model_Builder Spec_Builder
  Proofs_Features Proofs_Features6 Proofs_Builder3 Proofs_Builder5 Model_Neural Spec_Neural Spec_Gold Proofs_Gold Proofs_Gold2 Model_Network Spec_Network Proofs_Network Proofs_Network2 Proofs_Network3
  Model_Config Spec_Config Proofs_Config Proofs_Config2 Proofs_Config3 Proofs_Config4 Proofs_Config5 Proofs_Config6 Proofs_Config7 Proofs_Config8 Proofs_Config9 Proofs_Config10.
Import ListNotations.
Open Scope Z_scope.

Definition lb_known (lb : label_builder) : Prop :=
  match lb with
  | LBPos n _ => n = n_pos_labels
  | LBLemma n => n = n_lemma_labels
  | LBRule n _ => n = n_rule_labels
  | LBChars n _ _ _ => n = n_output
  end.

Lemma label_source tcs lb : In lb (all_labels tcs) -> lb_known lb /\ exists tc, In tc tcs /\
  match lb with
  | LBPos _ st => tc_kind tc = pos_dense st
  | LBLemma _ => tc_kind tc = lemma_dense
  | LBRule _ th => (tc_kind tc = lemma_suffix \/ tc_kind tc = lemma_binary) /\ tc_rules tc = Some th
  | LBChars _ th seg m => tc_kind tc = lemma_combo /\ tc_output tc = Some (th, seg, m)
  end.
Proof.
  intros J. apply in_flat_map in J. destruct J as (tc & It & J). unfold task_label in J. destruct (tc_kind tc) eqn:Ek.
  - destruct J as [<-|[]]. split; [reflexivity|eauto].
  - destruct J as [<-|[]]. split; [reflexivity|eauto].
  - destruct (tc_rules tc) eqn:Er; cbn in J; [destruct J as [<-|[]]|destruct J]. split; [reflexivity|eauto].
  - destruct (tc_output tc) as [[[th seg] m]|] eqn:Er; cbn in J; [destruct J as [<-|[]]|destruct J]. split; [reflexivity|eauto].
  - destruct (tc_rules tc) eqn:Er; cbn in J; [destruct J as [<-|[]]|destruct J]. split; [reflexivity|eauto].
Qed.

Lemma same_name {A} (f : A -> str) l x y : NoDup (map f l) -> In x l -> In y l -> f x = f y -> x = y.
Proof.
  intros N Ix Iy E. destruct (In_nth_error _ _ Ix) as (i & Hi). destruct (In_nth_error _ _ Iy) as (j & Hj).
  assert (i = j); [|subst; congruence]. apply (proj1 (NoDup_nth_error (map f l)) N).
  - apply nth_error_Some. rewrite nth_error_map, Hi. discriminate.
  - rewrite !nth_error_map, Hi, Hj. cbn. congruence.
Qed.

Section SetUp.
Variables (V : Type) (to_float : str -> result V) (zero : V) (lower : str -> str) (stack_dict : result unit).
Variables (known : bool) (k : shared_kind) (fc : features_config) (tcs : list task_config) (ds : list document) (su : set_up).
Hypothesis F : facts V to_float zero lower stack_dict known k fc tcs ds su.
Notation shapes_of := (feature_shapes V to_float zero lower).
Notation net := (su_network su).

Section Batch.
Variables (sparsify : obj -> str -> Q -> nested -> nested) (rate : Q) (ss : list (list dtoken)) (m : Z).
Hypotheses (Dr : draws_numbers sparsify) (Ne : ss <> []) (Nes : forall s, In s ss -> s <> []) (Sg : segmentable fc tcs ss) (Hm : max_length ss m).
Hypotheses (Tb : training_batch ds ss) (W : Forall opt_pos_wf (dataset_poses ds))
  (Nr : (exists tc, In tc tcs /\ tc_kind tc = pos_dense pos_gran) -> no_reserved_feature (dataset_poses ds)) (Sz : Forall sized_task tcs).

Definition label_is (l : dict nested) (lb : label_builder) : Prop :=
  exists y sh, dict_get l (label_name lb) = Some y /\ incl sh (su_shapes su) /\ label_ok lb sh ss m y.

Lemma fed_labels : exists l, set_up_labels lower ds su (batch ss) = Ok l /\ dict_ok l /\
  (forall x, In x (dict_keys l) <-> In x (map label_name (all_labels tcs))) /\ forall lb, In lb (all_labels tcs) -> label_is l lb.
Proof.
  destruct (f_labels _ _ _ _ _ _ _ _ _ _ _ F) as (bs & Nb & P & Em).
  destruct (parts_features _ label_class wrap_word_level wrap_word_ok obj elements (label_features lower ds) (fun _ _ _ v => v) label_name (label_features_ok lower ds) bs _ (su_labels su) 0%Q (batch ss)
    (fun lb y => exists sh, incl sh (su_shapes su) /\ label_ok lb sh ss m y) Nb P (f_lnames _ _ _ _ _ _ _ _ _ _ _ F) Em) as (d & Ed & Od & Kd & Hd).
  - intros lb I. destruct (f_lsh _ _ _ _ _ _ _ _ _ _ _ F lb I) as (sh & Es & Inc). destruct (label_source tcs lb I) as (Kn & tc & It & Hs).
    destruct (label_array lower ds lb sh ss m W) as (y & Ey & A); auto.
    + intros name ->. apply Nr. eauto.
    + destruct lb; cbn [sized]; auto. destruct Hs as [Hk Ho]. rewrite Forall_forall in Sz. eapply (Sz tc It Hk); eauto.
    + exists y. split; auto. exists sh. auto.
  - exists d. split; [exact Ed|]. split; auto. split; auto. intros lb I. destruct (Hd lb I) as (y & Ey & sh & Es). exists y, sh. split; [exact Ey|exact Es].
Qed.

Lemma known_gold lb dims y sh : In lb (all_labels tcs) -> incl sh (su_shapes su) -> gold_ok tcs (su_shapes su) (label_name lb) dims -> label_ok lb sh ss m y ->
  exists s, batch_shape (zlen ss) m s /\ shaped s y /\ admits dims s.
Proof.
  intros I Inc G A. pose proof (f_shapes _ _ _ _ _ _ _ _ _ _ _ F) as Osh. destruct (label_source tcs lb I) as (Kn & tc & It & Hs).
  assert (Dense : (exists lens, sh = [(label_name lb, ShParts lens)] /\ shaped [zlen ss; m; zlen lens] y) ->
     (exists parts, shape_parts (su_shapes su) (label_name lb) = Ok parts /\ dims = [None; None; Some (zlen parts)]) ->
     exists s, batch_shape (zlen ss) m s /\ shaped s y /\ admits dims s).
  { intros (lens & -> & Sh) (parts & Ep & ->). rewrite (shape_parts_In _ _ lens) in Ep by (auto; apply Inc; left; auto). injection Ep as <-.
    exists [zlen ss; m; zlen lens]. split; [right; eauto|]. split; [exact Sh|]. repeat constructor. }
  destruct lb as [name st|name|name th|name th seg mx]; cbn [lb_known label_name label_ok] in *; subst name.
  - apply Dense; [|exact G]. destruct A as (lens & E & Sh & _). eauto.
  - apply Dense; [|exact G]. destruct A as (lens & E & Sh & _). eauto.
  - apply Dense; [|exact G]. destruct A as (lens & E & Sh & _). eauto.
  - destruct A as (n & -> & Sh & _). unfold gold_ok in G. change (str_eqb n_output n_dropout || str_eqb n_output n_lr) with false in G. change (str_eqb n_output n_output) with true in G. cbv iota in G.
    destruct G as (tc' & th' & seg' & m' & It' & Ek' & Eo' & ->).
    assert (I' : In (LBChars n_output th' seg' m') (all_labels tcs)) by (apply in_flat_map; exists tc'; split; auto; unfold task_label; rewrite Ek', Eo'; left; reflexivity).
    assert (X := same_name label_name _ _ _ (f_lnames _ _ _ _ _ _ _ _ _ _ _ F) I I' eq_refl). injection X as <- <- <-.
    exists [zlen ss; m; mx]. split; [right; eauto|]. split; [exact Sh|]. repeat constructor.
Qed.

Lemma known_target lb i n y sh : In lb (all_labels tcs) -> incl sh (su_shapes su) -> target_ok (su_shapes su) (label_name lb) i n -> label_ok lb sh ss m y ->
  exists a b w, shaped [a; b; w] y /\ match i with Some j => Z.of_nat j < w /\ column_within j n y | None => within n y end.
Proof.
  intros I Inc G A. pose proof (f_shapes _ _ _ _ _ _ _ _ _ _ _ F) as Osh. destruct (label_source tcs lb I) as (Kn & tc & It & Hs). exists (zlen ss), m.
  assert (Dense : (exists lens, sh = [(label_name lb, ShParts lens)] /\ shaped [zlen ss; m; zlen lens] y /\ forall i nm n, nth_error lens i = Some (nm, n) -> column_within i n y) ->
     str_eqb (label_name lb) n_output = false -> exists w, shaped [zlen ss; m; w] y /\ match i with Some j => Z.of_nat j < w /\ column_within j n y | None => within n y end).
  { intros (lens & -> & Sh & Cw) No. exists (zlen lens). split; auto. destruct i as [j|]; cbn [target_ok] in G.
    - destruct G as (_ & parts & nm & Ep & Hj). rewrite (shape_parts_In _ _ lens) in Ep by (auto; apply Inc; left; auto). injection Ep as <-. split; [|eauto].
      unfold zlen. apply Nat2Z.inj_lt. apply nth_error_Some. congruence.
    - destruct G as [E _]. rewrite E in No. discriminate No. }
  destruct lb as [name st|name|name th|name th seg mx]; cbn [lb_known label_name label_ok] in *; subst name; try (apply Dense; [exact A|reflexivity]).
  destruct A as (c & -> & Sh & Wi). exists mx. split; auto. destruct i as [j|]; cbn [target_ok] in G.
  - destruct G as (_ & parts & nm & Ep & _). exfalso. unfold shape_parts in Ep. rewrite (In_dict_get _ _ (ShList [Some c])) in Ep by (auto; apply Inc; left; auto). discriminate Ep.
  - destruct G as (_ & l & El & En). rewrite (shape_list_In _ _ [Some c]) in El by (auto; apply Inc; left; auto). injection El as <-. cbn in En. injection En as <-. exact Wi.
Qed.

Lemma with_hyper_get lr dr l x : dict_get (with_hyper lr dr l) x =
  if str_eqb x n_dropout then Some (FedNumber dr) else if str_eqb x n_lr then Some (FedNumber lr) else dict_get l x.
Proof.
  unfold with_hyper. destruct (str_eqb x n_dropout) eqn:E1.
  - apply str_eqb_eq in E1. subst x. apply dict_get_set_same.
  - assert (x <> n_dropout) by (intros ->; rewrite (proj2 (str_eqb_eq _ _) eq_refl) in E1; discriminate). rewrite dict_get_set_other by auto.
    destruct (str_eqb x n_lr) eqn:E2.
    + apply str_eqb_eq in E2. subst x. apply dict_get_set_same.
    + assert (x <> n_lr) by (intros ->; rewrite (proj2 (str_eqb_eq _ _) eq_refl) in E2; discriminate). rewrite dict_get_set_other by auto. reflexivity.
Qed.

Lemma name_of_gold x t : In (x, t) (n_gold net) -> x = n_dropout \/ x = n_lr \/ exists lb, In lb (all_labels tcs) /\ label_name lb = x.
Proof.
  intros I. apply (in_map fst) in I. change (In x (dict_keys (n_gold net))) in I. rewrite (f_gold _ _ _ _ _ _ _ _ _ _ _ F) in I.
  destruct I as [<-|[<-|I]]; auto. apply in_map_iff in I. destruct I as (lb & E & I). eauto.
Qed.

Lemma label_differs lb : In lb (all_labels tcs) -> str_eqb (label_name lb) n_dropout = false /\ str_eqb (label_name lb) n_lr = false.
Proof. intros I. destruct (label_source tcs lb I) as (Kn & _). destruct lb; cbn [lb_known label_name] in *; subst; split; reflexivity. Qed.

Theorem fed_training lr dr : exists d l f, set_up_features V to_float zero lower ds sparsify su rate (batch ss) = Ok d /\
  set_up_labels lower ds su (batch ss) = Ok l /\ get_feed_dict tensor_eqb net (as_fed d) (Some (with_hyper lr dr (as_fed l))) = Ok f /\
  (forall t, In t (map fst f) <-> In t (map snd (n_inputs net) ++ map snd (n_gold net))) /\
  fits (su_graph su) (zlen ss) m f /\ on_target (su_graph su) f /\
  (exists t, In (of_string "learning_rate", t) (n_gold net) /\ In (t, FedNumber lr) f) /\
  (exists t, In (of_string "dropout_probability", t) (n_gold net) /\ In (t, FedNumber dr) f).
Proof.
  destruct (fed_features _ _ _ _ _ _ _ _ _ _ _ F sparsify rate ss m Dr Ne Nes Sg Hm) as (d & Ed & Od & Kd & Hd). destruct fed_labels as (l & El & Ol & Kl & Hl). exists d, l.
  assert (Oa : dict_ok (as_fed d)) by (unfold dict_ok; rewrite as_fed_keys; exact Od).
  assert (Og : dict_ok (with_hyper lr dr (as_fed l))).
  { unfold with_hyper. apply dict_set_ok, dict_set_ok. unfold dict_ok. rewrite as_fed_keys. exact Ol. }
  pose proof (gold_dict_ok _ _ _ _ _ _ _ _ _ _ _ F) as Ogd. pose proof (inputs_ok _ _ _ _ _ _ _ _ _ _ _ F) as Oi.
  set (g := with_hyper lr dr (as_fed l)) in *.
  assert (Gl : forall lb, In lb (all_labels tcs) -> exists y sh, dict_get g (label_name lb) = Some (FedValue y) /\ incl sh (su_shapes su) /\ label_ok lb sh ss m y).
  { intros lb I. destruct (Hl lb I) as (y & sh & Ey & R). exists y, sh. split; auto. unfold g. rewrite with_hyper_get. destruct (label_differs lb I) as [-> ->]. rewrite as_fed_get, Ey. reflexivity. }
  pose proof (feed_total tensor_eqb net (as_fed d) (Some g)) as T. destruct (get_feed_dict tensor_eqb net (as_fed d) (Some g)) as [f|e] eqn:Ef.
  - exists f. split; auto. split; auto. split; auto.
    destruct (feed_values tensor_eqb net (as_fed d) (Some g) f tensor_eqb_ok (placeholders_differ _ _ _ _ _ _ _ _ _ _ _ F) Oa) as (Nf & Hf); [intros g' Eg; injection Eg as <-; exact Og|auto|].
    assert (Hf' : forall t v, In (t, v) f <-> given (n_inputs net) (as_fed d) t v \/ given (n_gold net) g t v).
    { intros t v. rewrite Hf. split; [intros [H|(g' & H & J)]; [auto|injection H as <-; auto]|intros [H|H]; eauto]. }
    destruct (f_net _ _ _ _ _ _ _ _ _ _ _ F) as (op & inits & _ & I).
    assert (Key : forall x, In x (dict_keys (n_gold net)) -> exists t, dict_get (n_gold net) x = Some t).
    { intros x J. destruct (dict_get (n_gold net) x) eqn:E; eauto. apply dict_get_None in E. contradiction. }
    split; [|split; [|split; [|split]]].
    + intros t. rewrite in_app_iff. split; intros J.
      * apply in_map_iff in J. destruct J as ([t' v] & <- & J). apply Hf' in J. destruct J as [(x & E1 & _)|(x & E1 & _)]; apply dict_get_In in E1; apply (in_map snd) in E1; auto.
      * destruct J as [J|J]; apply in_map_iff in J; destruct J as ([x t'] & <- & J); cbn [snd].
        -- destruct (name_of_input _ _ _ _ _ _ _ _ _ _ _ F x t' J) as (fb & Jf & Ex). destruct (Hd fb Jf) as (y & sh & Ey & _).
           apply (in_map fst f (t', FedValue y)). apply Hf'. left. exists x. split; [apply In_dict_get; auto|]. rewrite as_fed_get, <- Ex, Ey. reflexivity.
        -- assert (X : exists v, dict_get g x = Some v).
           { destruct (name_of_gold x t' J) as [->|[->|(lb & Jl & <-)]]; [eexists; unfold g; rewrite with_hyper_get; reflexivity|eexists; unfold g; rewrite with_hyper_get; reflexivity|].
             destruct (Gl lb Jl) as (y & sh & Ey & _). eauto. }
           destruct X as (v & Ev). apply (in_map fst f (t', v)). apply Hf'. right. exists x. split; [apply In_dict_get; auto|exact Ev].
    + apply (feed_fits _ _ _ _ _ _ _ _ _ _ _ F ss m d f (given (n_gold net) g)); auto. intros t v (x & E1 & E2). apply dict_get_In in E1. pose proof (i_gold _ _ _ _ _ _ _ I _ _ E1) as G.
      destruct (name_of_gold x t E1) as [->|[->|(lb & Jl & <-)]].
      * unfold g in E2. rewrite with_hyper_get in E2. injection E2 as <-. exact G.
      * unfold g in E2. rewrite with_hyper_get in E2. injection E2 as <-. exact G.
      * destruct (Gl lb Jl) as (y & sh & Ey & Inc & A). rewrite Ey in E2. injection E2 as <-. eapply known_gold; eauto.
    + intros t i n J. destruct (i_targ _ _ _ _ _ _ _ I t i n J) as (x & J' & G).
      assert (X : exists lb, In lb (all_labels tcs) /\ label_name lb = x).
      { destruct (name_of_gold x t J') as [->|[->|X]]; auto; exfalso.
        - destruct i as [j|]; destruct G as [G _]; discriminate G.
        - destruct i as [j|]; destruct G as [G _]; discriminate G. }
      destruct X as (lb & Jl & <-). destruct (Gl lb Jl) as (y & sh & Ey & Inc & A). destruct (known_target lb i n y sh Jl Inc G A) as (a & b & w & Sh & M).
      exists y, a, b, w. split; auto. apply Hf'. right. exists (label_name lb). split; [apply In_dict_get; auto|exact Ey].
    + destruct (Key n_lr) as (t & Et). { rewrite (f_gold _ _ _ _ _ _ _ _ _ _ _ F). right. left. reflexivity. }
      exists t. split; [apply dict_get_In; exact Et|]. apply Hf'. right. exists n_lr. split; auto. unfold g. rewrite with_hyper_get. reflexivity.
    + destruct (Key n_dropout) as (t & Et). { rewrite (f_gold _ _ _ _ _ _ _ _ _ _ _ F). left. reflexivity. }
      exists t. split; [apply dict_get_In; exact Et|]. apply Hf'. right. exists n_dropout. split; auto. unfold g. rewrite with_hyper_get. reflexivity.
  - exfalso. destruct T as (_ & [(x & J & N)|(g' & x & H & J & N)]).
    + apply N. rewrite as_fed_keys in J. apply Kd in J. rewrite (f_inputs _ _ _ _ _ _ _ _ _ _ _ F). exact J.
    + injection H as <-. apply N. rewrite (f_gold _ _ _ _ _ _ _ _ _ _ _ F). assert (X : exists v, dict_get g x = Some v) by (destruct (dict_get g x) eqn:E; [eauto|]; apply dict_get_None in E; contradiction).
      destruct X as (v & Ev). unfold g in Ev. rewrite with_hyper_get in Ev.
      destruct (str_eqb x n_dropout) eqn:E1; [apply str_eqb_eq in E1; subst x; left; reflexivity|]. destruct (str_eqb x n_lr) eqn:E2; [apply str_eqb_eq in E2; subst x; right; left; reflexivity|].
      rewrite as_fed_get in Ev. destruct (dict_get l x) eqn:E; [|discriminate]. apply in_app_iff. right. apply Kl. apply dict_get_In in E. apply (in_map fst) in E. exact E.
Qed.
End Batch.
End SetUp.
