(* Configurations: feeding the network that is set up. *)
From Coq Require Import String Ascii ZArith NArith QArith Bool List Lia Permutation.
From Verif Require Import Base BaseFacts Proofs_Datamodel Model_Datamodel Spec_Datamodel Model_Vocab Model_Lemma Model_Features Spec_Features Model_Builder Spec_Builder
  Proofs_Features Proofs_Builder3 Proofs_Builder5 Model_Neural Spec_Neural Spec_Gold Proofs_Gold Proofs_Gold2 Model_Network Spec_Network Proofs_Network Proofs_Network2 Proofs_Network3
  Model_Config Spec_Config Proofs_Config Proofs_Config2 Proofs_Config3 Proofs_Config4 Proofs_Config5 Proofs_Config6 Proofs_Config7 Proofs_Config8 Proofs_Config9.
Import ListNotations.
Open Scope Z_scope.

Lemma tensor_eqb_ok : identity_test tensor_eqb.
Proof.
  intros [i d] [i' d']. unfold tensor_eqb. cbn [t_id t_dims]. rewrite andb_true_iff, Nat.eqb_eq.
  rewrite (list_eqb_eq (option_eqb Z.eqb) (option_eqb_eq Z.eqb Z.eqb_eq)). split; [intros [-> ->]; auto|intros H; injection H; auto].
Qed.

Lemma as_fed_get d k : dict_get (as_fed d) k = option_map FedValue (dict_get d k).
Proof. induction d as [|[k' v] d IH]; [reflexivity|]. unfold as_fed in *. cbn [map dict_get fst snd]. destruct (str_eqb k k'); auto. Qed.
Lemma as_fed_keys d : dict_keys (as_fed d) = dict_keys d.
Proof. unfold as_fed, dict_keys. rewrite map_map. apply map_ext. auto. Qed.

(* the builders of a configuration have the names of the placeholders *)
Definition fb_known (fb : feature_builder) : Prop :=
  match fb with
  | FBLength n => n = n_lengths
  | FBWords n i _ _ => n = n_words /\ i = n_word_embeddings
  | FBTrained n _ _ => n = n_trained_words
  | FBPretrained n i _ _ => i = n /\ In n [n_characters; n_bpe; n_morfessor; n_input]
  | FBSubwords n _ _ => In n [n_characters; n_bpe; n_morfessor; n_input]
  | FBApplicable n _ => n = n_applicable
  end.
Lemma subwords_known name c : In name [n_characters; n_bpe; n_morfessor; n_input] -> fb_known (subwords_builder name c).
Proof. unfold subwords_builder. destruct (sw_source c); cbn [fb_known]; auto. Qed.
Lemma all_known fc tcs fb : In fb (all_features fc tcs) -> fb_known fb.
Proof.
  unfold all_features, shared_features. rewrite !in_app_iff. intros [[[<-|[]]|H]|H]; [reflexivity| |].
  - destruct (fc_words fc), (fc_trained fc), (fc_characters fc), (fc_bpe fc), (fc_morfessor fc); cbn [given_part In] in H;
      repeat match goal with H : _ \/ _ |- _ => destruct H as [H|H] | H : False |- _ => destruct H end; subst fb;
      solve [cbn; auto | apply subwords_known; cbn; auto].
  - apply in_flat_map in H. destruct H as (tc & _ & J). unfold task_features in J. destruct (tc_kind tc); try destruct J.
    + destruct (tc_rules tc); cbn in J; [destruct J as [<-|[]]; reflexivity|destruct J].
    + destruct (tc_input tc) as [c|]; cbn in J; [destruct J as [<-|[]]|destruct J]. apply subwords_known. cbn. auto.
    + destruct (tc_rules tc); cbn in J; [destruct J as [<-|[]]; reflexivity|destruct J].
Qed.

Lemma segmentable_known fc tcs ss fb seg s x : segmentable fc tcs ss -> In fb (all_features fc tcs) -> fb_segment fb = Some seg -> In s ss -> In x s ->
  exists syms, seg (dt_text x) = Ok syms.
Proof.
  intros Sg H Es Is Ix.
  assert (G : exists c name, used_subwords fc tcs c /\ fb = subwords_builder name c).
  { unfold all_features, shared_features in H. rewrite !in_app_iff in H. destruct H as [[[<-|[]]|H]|H]; [discriminate| |].
    - destruct H as [H|[H|[H|[H|H]]]].
      + destruct (fc_words fc); cbn in H; [destruct H as [<-|[]]; discriminate|destruct H].
      + destruct (fc_trained fc); cbn in H; [destruct H as [<-|[]]; discriminate|destruct H].
      + destruct (fc_characters fc) eqn:E; cbn in H; [destruct H as [<-|[]]|destruct H]. eexists _, _. split; [|reflexivity]. unfold used_subwords. auto.
      + destruct (fc_bpe fc) eqn:E; cbn in H; [destruct H as [<-|[]]|destruct H]. eexists _, _. split; [|reflexivity]. unfold used_subwords. auto.
      + destruct (fc_morfessor fc) eqn:E; cbn in H; [destruct H as [<-|[]]|destruct H]. eexists _, _. split; [|reflexivity]. unfold used_subwords. auto.
    - apply in_flat_map in H. destruct H as (tc & It & J). unfold task_features in J. destruct (tc_kind tc) eqn:Ek; try destruct J.
      + destruct (tc_rules tc); cbn in J; [destruct J as [<-|[]]; discriminate|destruct J].
      + destruct (tc_input tc) as [c|] eqn:Ei; cbn in J; [destruct J as [<-|[]]|destruct J]. exists c, n_input. split; [|reflexivity]. do 3 right. eauto.
      + destruct (tc_rules tc); cbn in J; [destruct J as [<-|[]]; discriminate|destruct J]. }
  destruct G as (c & name & U & ->). assert (seg = sw_segment c) as -> by (unfold subwords_builder in Es; destruct (sw_source c); injection Es as <-; auto). eauto.
Qed.

Lemma shape_list_In shapes k l : dict_ok shapes -> In (k, ShList l) shapes -> shape_list shapes k = Ok l.
Proof. intros O I. unfold shape_list. rewrite (In_dict_get _ _ _ O I). reflexivity. Qed.
Lemma shape_parts_In shapes k l : dict_ok shapes -> In (k, ShParts l) shapes -> shape_parts shapes k = Ok l.
Proof. intros O I. unfold shape_parts. rewrite (In_dict_get _ _ _ O I). reflexivity. Qed.

Lemma known_dims shapes fb dims sh ss m y : dict_ok shapes -> incl sh shapes -> fb_known fb -> dims_ok shapes (fb_name fb) dims -> array_ok fb sh ss m y ->
  exists s, batch_shape (zlen ss) m s /\ shaped s y /\ admits dims s.
Proof.
  intros O Inc K D A. unfold batch_shape.
  assert (Adm : forall dims s, length dims = length s -> Forall (fun d => d = None) dims -> admits dims s).
  { clear. unfold admits. induction dims as [|d dims IH]; intros [|n s] L F; try discriminate; constructor; inversion F; subst; auto. }
  destruct fb as [name|name init lines lc|name th lc|name init lines seg|name th seg|name th]; cbn [fb_known fb_name array_ok] in *.
  - subst name. assert (dims = [None]) as -> by exact D. exists [zlen ss]. split; auto. split; [|apply Adm; [reflexivity|repeat constructor]].
    subst y. cbn [shaped]. split; [apply zlen_map|]. apply Forall_map, Forall_forall. intros; exact Logic.I.
  - destruct K as [-> ->]. assert (dims = [None; None]) as -> by exact D. destruct A as [Sh _]. exists [zlen ss; m]. split; [right; eauto|]. split; [exact Sh|apply Adm; [reflexivity|repeat constructor]].
  - subst name. assert (dims = [None; None]) as -> by exact D. destruct A as [Sh _]. exists [zlen ss; m]. split; [right; eauto|]. split; [exact Sh|apply Adm; [reflexivity|repeat constructor]].
  - destruct K as [-> K]. assert (dims = [None; None; None]) as -> by (cbn [In] in K; destruct K as [<-|[<-|[<-|[<-|[]]]]]; exact D).
    destruct A as [[w Sh] _]. exists [zlen ss; m; w]. split; [right; eauto|]. split; [exact Sh|apply Adm; [reflexivity|repeat constructor]].
  - assert (dims = [None; None; None]) as -> by (cbn [In] in K; destruct K as [<-|[<-|[<-|[<-|[]]]]]; exact D).
    destruct A as [[w Sh] _]. exists [zlen ss; m; w]. split; [right; eauto|]. split; [exact Sh|apply Adm; [reflexivity|repeat constructor]].
  - subst name. destruct A as (n & -> & Sh & _). destruct D as (l & n' & El & En & ->).
    rewrite (shape_list_In shapes n_applicable [Some n]) in El by (auto; apply Inc; left; auto). injection El as <-. cbn in En. injection En as <-.
    exists [zlen ss; m; n]. split; [right; eauto|]. split; [exact Sh|repeat constructor].
Qed.

Lemma known_rows shapes fb r sh ss m y : dict_ok shapes -> incl sh shapes -> fb_known fb -> looked (fb_name fb) = true -> rows_of shapes (fb_name fb) = Ok r ->
  array_ok fb sh ss m y -> within r y.
Proof.
  intros O Inc K L R A.
  assert (G : forall k n c, In (k, ShList (Some n :: c)) shapes -> (do l <- shape_list shapes k; dim l 0) = Ok r -> n = r).
  { intros k n c I E. rewrite (shape_list_In _ _ _ O I) in E. cbn in E. injection E as ->. reflexivity. }
  destruct fb as [name|name init lines lc|name th lc|name init lines seg|name th seg|name th]; cbn [fb_known fb_name array_ok] in *.
  - subst name. discriminate L.
  - destruct K as [-> ->]. destruct A as (_ & n & c & -> & W). assert (n = r) as <-; auto. eapply G; [apply Inc; left; reflexivity|exact R].
  - subst name. destruct A as (_ & n & -> & W). assert (n = r) as <-; auto. eapply G; [apply Inc; left; reflexivity|exact R].
  - destruct K as [-> K]. destruct A as (_ & n & c & -> & W). assert (n = r) as <-; auto. eapply (G name); [apply Inc; left; reflexivity|].
    cbn [In] in K; destruct K as [<-|[<-|[<-|[<-|[]]]]]; exact R.
  - destruct A as (_ & n & -> & W). assert (n = r) as <-; auto. eapply (G name); [apply Inc; left; reflexivity|].
    cbn [In] in K; destruct K as [<-|[<-|[<-|[<-|[]]]]]; exact R.
  - subst name. discriminate L.
Qed.

Section SetUp.
Variables (V : Type) (to_float : str -> result V) (zero : V) (lower : str -> str) (stack_dict : result unit).
Variables (known : bool) (k : shared_kind) (fc : features_config) (tcs : list task_config) (ds : list document) (su : set_up).
Hypothesis F : facts V to_float zero lower stack_dict known k fc tcs ds su.
Notation shapes_of := (feature_shapes V to_float zero lower).
Notation net := (su_network su).

Lemma feature_values_ok fb o d : feature_values V to_float zero lower ds fb o = Ok d -> dict_ok d.
Proof.
  destruct fb, o; cbn [feature_values]; try discriminate; intros H; repeat (apply bind_ok_iff in H; destruct H as (? & _ & H)); injection H as <-; apply dict_one.
Qed.
Lemma label_features_ok lb o d : label_features lower ds lb o = Ok d -> dict_ok d.
Proof. destruct o; cbn [label_features]; try discriminate; intros H. apply bind_ok_iff in H. destruct H as (? & _ & H). injection H as <-. apply dict_one. Qed.

Section Batch.
Variables (sparsify : obj -> str -> Q -> nested -> nested) (rate : Q) (ss : list (list dtoken)) (m : Z).
Hypotheses (Dr : draws_numbers sparsify) (Ne : ss <> []) (Nes : forall s, In s ss -> s <> []) (Sg : segmentable fc tcs ss) (Hm : max_length ss m).

Definition feature_is (d : dict nested) (fb : feature_builder) : Prop := exists y sh, dict_get d (fb_name fb) = Some y /\ shapes_of ds fb = Ok sh /\ incl sh (su_shapes su) /\ array_ok fb sh ss m y.

Lemma fed_features : exists d, set_up_features V to_float zero lower ds sparsify su rate (batch ss) = Ok d /\ dict_ok d /\
  (forall x, In x (dict_keys d) <-> In x (map fb_name (all_features fc tcs))) /\ forall fb, In fb (all_features fc tcs) -> feature_is d fb.
Proof.
  destruct (f_features _ _ _ _ _ _ _ _ _ _ _ F) as (bs & Nb & P & Em).
  destruct (parts_features _ feature_class wrap_of wrap_of_ok obj elements (feature_values V to_float zero lower ds) sparsify fb_name feature_values_ok bs _ (su_features su) rate (batch ss)
    (fun fb y => exists sh, shapes_of ds fb = Ok sh /\ incl sh (su_shapes su) /\ array_ok fb sh ss m y) Nb P (f_names _ _ _ _ _ _ _ _ _ _ _ F) Em) as (d & Ed & Od & Kd & Hd).
  - intros fb I. destruct (f_fsh _ _ _ _ _ _ _ _ _ _ _ F fb I) as (sh & Es & Inc).
    destruct (feature_array V to_float zero lower ds sparsify Dr fb sh rate ss m Ne Nes Hm) as (y & Ey & A); auto.
    + intros seg s x Eg Is Ix. eapply segmentable_known; eauto.
    + exists y. split; auto. exists sh. auto.
  - exists d. split; [exact Ed|]. split; auto. split; auto. intros fb I. destruct (Hd fb I) as (y & Ey & sh & Es). exists y, sh. auto.
Qed.

Lemma name_of_input x t : In (x, t) (n_inputs net) -> exists fb, In fb (all_features fc tcs) /\ fb_name fb = x.
Proof.
  intros I. apply (in_map fst) in I. change (In x (dict_keys (n_inputs net))) in I. rewrite (f_inputs _ _ _ _ _ _ _ _ _ _ _ F) in I.
  apply in_map_iff in I. destruct I as (fb & E & I). eauto.
Qed.
Lemma inputs_ok : dict_ok (n_inputs net).
Proof. unfold dict_ok. rewrite (f_inputs _ _ _ _ _ _ _ _ _ _ _ F). apply (f_names _ _ _ _ _ _ _ _ _ _ _ F). Qed.
Lemma gold_dict_ok : dict_ok (n_gold net).
Proof.
  unfold dict_ok. rewrite (f_gold _ _ _ _ _ _ _ _ _ _ _ F). apply NoDup_app_intro; [repeat constructor; cbn [In]; intuition discriminate|apply (f_lnames _ _ _ _ _ _ _ _ _ _ _ F)|].
  intros x J1 J2. rewrite (f_lof _ _ _ _ _ _ _ _ _ _ _ F) in J2. apply in_map_iff in J2. destruct J2 as (tc & <- & _). destruct (tc_kind tc); cbn [In label_of] in J1; intuition discriminate.
Qed.
Lemma placeholders_differ : NoDup (map snd (n_inputs net) ++ map snd (n_gold net)).
Proof.
  destruct (f_net _ _ _ _ _ _ _ _ _ _ _ F) as (op & inits & _ & I). pose proof (i_ids _ _ _ _ _ _ _ I) as N. rewrite <- map_app. rewrite <- (map_map snd t_id) in N.
  eapply NoDup_map_inv. exact N.
Qed.

(* a feed that holds the features fits *)
Lemma feed_fits d f (rest : tensor -> fed -> Prop) : dict_ok d -> (forall fb, In fb (all_features fc tcs) -> feature_is d fb) ->
  (forall t v, In (t, v) f <-> given (n_inputs net) (as_fed d) t v \/ rest t v) ->
  (forall t v, rest t v -> match v with FedNumber _ => t_dims t = [] | FedValue y => exists s, batch_shape (zlen ss) m s /\ shaped s y /\ admits (t_dims t) s end) ->
  fits (su_graph su) (zlen ss) m f.
Proof.
  intros Od Hd Hf Hr. destruct (f_net _ _ _ _ _ _ _ _ _ _ _ F) as (op & inits & _ & I). pose proof (f_shapes _ _ _ _ _ _ _ _ _ _ _ F) as Osh.
  assert (Gv : forall x t, In (x, t) (n_inputs net) -> forall fb, In fb (all_features fc tcs) -> fb_name fb = x -> exists y sh, In (t, FedValue y) f /\ incl sh (su_shapes su) /\ array_ok fb sh ss m y /\ shapes_of ds fb = Ok sh).
  { intros x t J fb Jf <-. destruct (Hd fb Jf) as (y & sh & Ey & Es & Inc & A). exists y, sh. split; auto. apply Hf. left. exists (fb_name fb). split; [apply In_dict_get; auto; apply inputs_ok|].
    rewrite as_fed_get, Ey. reflexivity. }
  split; [|split].
  - intros t v J. apply Hf in J. destruct J as [(x & E1 & E2)|J]; [|apply Hr in J; exact J]. apply dict_get_In in E1. destruct (name_of_input x t E1) as (fb & Jf & Ex).
    rewrite as_fed_get in E2. destruct (Hd fb Jf) as (y & sh & Ey & Es & Inc & A). rewrite Ex in Ey. rewrite Ey in E2. injection E2 as <-.
    eapply known_dims; eauto using all_known. rewrite Ex. apply (i_dims _ _ _ _ _ _ _ I). exact E1.
  - intros t r J. destruct (i_look _ _ _ _ _ _ _ I t r J) as (x & J' & Lk & R). destruct (name_of_input x t J') as (fb & Jf & Ex).
    destruct (Gv x t J' fb Jf Ex) as (y & sh & Jy & Inc & A & _). exists y. split; auto. rewrite <- Ex in Lk, R. eapply known_rows; eauto using all_known.
  - intros t n J. destruct (i_mask _ _ _ _ _ _ _ I t n J) as (J' & parts & nm & Ep & Jn). destruct (name_of_input _ t J') as (fb & Jf & Ex).
    destruct (Gv _ t J' fb Jf Ex) as (y & sh & Jy & Inc & A & Es). exists y. split; auto.
    assert (Kf : exists th, fb = FBApplicable n_applicable th /\ In (LBRule n_rule_labels th) (all_labels tcs)).
    { unfold all_features in Jf. apply in_app_iff in Jf. destruct Jf as [Jf|Jf].
      - exfalso. apply (in_map fb_name) in Jf. apply shared_known in Jf. rewrite Ex in Jf. cbn [In] in Jf. intuition discriminate.
      - apply in_flat_map in Jf. destruct Jf as (tc & It & Jf). unfold task_features in Jf.
        assert (Lb : In tc tcs -> incl (task_label tc) (all_labels tcs)) by (intros It' q Jq; apply in_flat_map; eauto). specialize (Lb It). unfold task_label in Lb.
        destruct (tc_kind tc); try destruct Jf.
        + destruct (tc_rules tc) as [th|]; cbn in Jf; [destruct Jf as [<-|[]]|destruct Jf]. exists th. split; auto. apply Lb. left; auto.
        + destruct (tc_input tc) as [c|]; cbn in Jf; [destruct Jf as [<-|[]]|destruct Jf]. exfalso. unfold subwords_builder in Ex. destruct (sw_source c); discriminate Ex.
        + destruct (tc_rules tc) as [th|]; cbn in Jf; [destruct Jf as [<-|[]]|destruct Jf]. exists th. split; auto. apply Lb. left; auto. }
    destruct Kf as (th & -> & Jl). destruct (f_lsh _ _ _ _ _ _ _ _ _ _ _ F _ Jl) as (lsh & El & Incl).
    cbn [label_shapes] in El. cbn [feature_shapes] in Es. apply bind_ok_iff in El. destruct El as (v & Ev & El). injection El as <-. rewrite Ev in Es. cbn [bind] in Es. injection Es as <-.
    rewrite (shape_parts_In _ _ [(n_LEMMA, zlen (snd v))]) in Ep by (auto; apply Incl; left; auto). injection Ep as <-. destruct Jn as [Jn|[]]. injection Jn as _ <-.
    cbn [array_ok] in A. destruct A as (n & En & Sh & W). injection En as <-. auto.
Qed.

Theorem fed_batch : exists d f, set_up_features V to_float zero lower ds sparsify su rate (batch ss) = Ok d /\
  get_feed_dict tensor_eqb net (as_fed d) None = Ok f /\
  dict_get d (of_string "sentences_lengths") = Some (NList (map (fun s => NInt (zlen s)) ss)) /\
  (forall t, In t (map fst f) <-> In t (map snd (n_inputs net))) /\
  fits (su_graph su) (zlen ss) m f.
Proof.
  destruct fed_features as (d & Ed & Od & Kd & Hd). exists d.
  assert (Oa : dict_ok (as_fed d)) by (unfold dict_ok; rewrite as_fed_keys; exact Od).
  pose proof (feed_total tensor_eqb net (as_fed d) None) as T. destruct (get_feed_dict tensor_eqb net (as_fed d) None) as [f|e] eqn:Ef.
  - exists f. split; auto. split; auto. destruct (feed_values tensor_eqb net (as_fed d) None f tensor_eqb_ok placeholders_differ Oa) as (Nf & Hf); [discriminate|auto|].
    assert (Hf' : forall t v, In (t, v) f <-> given (n_inputs net) (as_fed d) t v \/ False).
    { intros t v. rewrite Hf. split; [intros [H|(g & H & _)]; [auto|discriminate]|intros [H|[]]; auto]. }
    split; [|split].
    + assert (J : In (FBLength n_lengths) (all_features fc tcs)) by (left; reflexivity). destruct (Hd _ J) as (y & sh & Ey & _ & _ & A). cbn in A. subst y. exact Ey.
    + intros t. split; intros J.
      * apply in_map_iff in J. destruct J as ([t' v] & <- & J). apply Hf' in J. destruct J as [(x & E1 & _)|[]]. apply dict_get_In in E1. apply (in_map snd) in E1. exact E1.
      * apply in_map_iff in J. destruct J as ([x t'] & <- & J). destruct (name_of_input x t' J) as (fb & Jf & Ex). destruct (Hd fb Jf) as (y & sh & Ey & _).
        apply (in_map fst f (t', FedValue y)). apply Hf'. left. exists x. split; [apply In_dict_get; auto; apply inputs_ok|]. rewrite as_fed_get, <- Ex, Ey. reflexivity.
    + apply (feed_fits d f (fun _ _ => False)); auto. intros t v [].
  - exfalso. destruct T as (_ & [(x & J & N)|(g & x & H & _)]); [|discriminate]. apply N. rewrite as_fed_keys in J. apply Kd in J. rewrite (f_inputs _ _ _ _ _ _ _ _ _ _ _ F). exact J.
Qed.
End Batch.
End SetUp.
