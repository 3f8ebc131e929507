(* Configurations: the statements for all that is set up. *)
From Coq Require Import String Ascii ZArith NArith QArith Bool List Lia Permutation.
From Verif Require Import Base BaseFacts Proofs_Datamodel Model_Datamodel Spec_Datamodel Model_Vocab Model_Lemma Model_Features Spec_Features Model_Builder Spec_Builder
  Model_Neural Spec_Neural Spec_Gold Model_Network Spec_Network
  Model_Config Spec_Config Proofs_Config4 Proofs_Config7 Proofs_Config8 Proofs_Config9 Proofs_Config10 Proofs_Config11.
Import ListNotations.
Open Scope Z_scope.

Section SetUp.
Variables (V : Type) (to_float : str -> result V) (zero : V) (lower : str -> str) (stack_dict : result unit).
Variables (known : bool) (k : shared_kind) (fc : features_config) (tcs : list task_config) (ds : list document) (su : set_up).

Lemma fed_any sparsify rate ss m :
  train_set_up V to_float zero lower stack_dict known k fc tcs ds = Ok su ->
  draws_numbers sparsify -> ss <> [] -> (forall s, In s ss -> s <> []) -> segmentable fc tcs ss -> max_length ss m ->
  exists d f, set_up_features V to_float zero lower ds sparsify su rate (batch ss) = Ok d /\
    get_feed_dict tensor_eqb (su_network su) (as_fed d) None = Ok f /\
    dict_get d (of_string "sentences_lengths") = Some (NList (map (fun s => NInt (zlen s)) ss)) /\
    (forall t, In t (map fst f) <-> In t (map snd (n_inputs (su_network su)))) /\
    fits (su_graph su) (zlen ss) m f.
Proof.
  intros E Dr Ne Nes Sg Hm. destruct (fed_batch _ _ _ _ _ _ _ _ _ _ _ (set_up_facts _ _ _ _ _ _ _ _ _ _ _ E) sparsify rate ss m Dr Ne Nes Sg Hm) as (d & f & A & B & L & C & D).
  exists d, f. auto 6.
Qed.

Lemma trained_any sparsify rate ss m lr dropout :
  train_set_up V to_float zero lower stack_dict known k fc tcs ds = Ok su ->
  draws_numbers sparsify -> ss <> [] -> (forall s, In s ss -> s <> []) -> segmentable fc tcs ss -> max_length ss m ->
  training_batch ds ss -> Forall opt_pos_wf (dataset_poses ds) ->
  ((exists tc, In tc tcs /\ tc_kind tc = pos_dense pos_gran) -> no_reserved_feature (dataset_poses ds)) -> Forall sized_task tcs ->
  exists d l f, set_up_features V to_float zero lower ds sparsify su rate (batch ss) = Ok d /\
    set_up_labels lower ds su (batch ss) = Ok l /\
    get_feed_dict tensor_eqb (su_network su) (as_fed d) (Some (with_hyper lr dropout (as_fed l))) = Ok f /\
    (forall t, In t (map fst f) <-> In t (map snd (n_inputs (su_network su)) ++ map snd (n_gold (su_network su)))) /\
    fits (su_graph su) (zlen ss) m f /\ on_target (su_graph su) f /\
    (exists t, In (of_string "learning_rate", t) (n_gold (su_network su)) /\ In (t, FedNumber lr) f) /\
    (exists t, In (of_string "dropout_probability", t) (n_gold (su_network su)) /\ In (t, FedNumber dropout) f).
Proof.
  intros E Dr Ne Nes Sg Hm Tb W Nr Sz.
  exact (fed_training _ _ _ _ _ _ _ _ _ _ _ (set_up_facts _ _ _ _ _ _ _ _ _ _ _ E) sparsify rate ss m Dr Ne Nes Sg Hm Tb W Nr Sz lr dropout).
Qed.

Lemma tasks_any :
  train_set_up V to_float zero lower stack_dict known k fc tcs ds = Ok su ->
  tcs <> [] /\ NoDup (map (fun tc => label_of (tc_kind tc)) tcs) /\
  forall x, In x (dict_keys (n_gold (su_network su))) <->
    x = of_string "learning_rate" \/ x = of_string "dropout_probability" \/ exists tc, In tc tcs /\ x = label_of (tc_kind tc).
Proof.
  intros E. pose proof (set_up_facts _ _ _ _ _ _ _ _ _ _ _ E) as F. split; [apply (f_some _ _ _ _ _ _ _ _ _ _ _ F)|]. rewrite <- (f_lof _ _ _ _ _ _ _ _ _ _ _ F). split; [apply (f_lnames _ _ _ _ _ _ _ _ _ _ _ F)|].
  intros x. rewrite (f_gold _ _ _ _ _ _ _ _ _ _ _ F), (f_lof _ _ _ _ _ _ _ _ _ _ _ F), in_app_iff, in_map_iff. cbn [In]. split.
  - intros [[<-|[<-|[]]]|(tc & <- & It)]; eauto 6.
  - intros [->|[->|(tc & It & ->)]]; eauto 6.
Qed.

Lemma binary_never tc : In tc tcs -> tc_kind tc = lemma_binary -> train_set_up V to_float zero lower stack_dict known k fc tcs ds <> Ok su.
Proof.
  intros It Ek E. pose proof (set_up_facts _ _ _ _ _ _ _ _ _ _ _ E) as F. pose proof (f_binary _ _ _ _ _ _ _ _ _ _ _ F) as N. rewrite Forall_forall in N. exact (N tc It Ek).
Qed.
End SetUp.
