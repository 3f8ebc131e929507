(* Properties of what a configuration sets up. *)
From Coq Require Import String ZArith NArith QArith Bool Lia List.
From Verif Require Import Base Model_Datamodel Spec_Datamodel Model_Vocab Model_Lemma Model_Features Spec_Features
  Model_Builder Spec_Builder Model_Neural Spec_Neural Model_Network Spec_Network Model_Config Spec_Config Props_Features Props_UDEval Props_Neural
  Proofs_Config13 Proofs_Config14 Proofs_Config15 Proofs_Config18 Proofs_Config19.
Import ListNotations.
Open Scope Z_scope.

(* ---------------- C82 ---------------- *)

(* Tagging: for a batch of sentences whose words can be segmented, features are extracted and fed, to all inputs of the network
   and to nothing else; the values have the shapes of the placeholders, looked up ids are numbers of rows, and a mask has a
   truth value for every class. *)
Theorem C82_fed :
  forall V to_float zero lower stack_dict known k fc tcs ds su sparsify rate ss m,
    train_set_up V to_float zero lower stack_dict known k fc tcs ds = Ok su ->
    draws_numbers sparsify -> ss <> [] -> (forall s, In s ss -> s <> []) -> segmentable fc tcs ss -> max_length ss m ->
    exists d f, set_up_features V to_float zero lower ds sparsify su rate (batch ss) = Ok d /\
      get_feed_dict tensor_eqb (su_network su) (as_fed d) None = Ok f /\
      dict_get d (of_string "sentences_lengths") = Some (NList (map (fun s => NInt (zlen s)) ss)) /\
      (forall t, In t (map fst f) <-> In t (map snd (n_inputs (su_network su)))) /\
      fits (su_graph su) (zlen ss) m f.
Proof. exact fed_any. Qed.
Print Assumptions C82_fed.

(* Training: on sentences of the training set labels are extracted and fed as well, with the learning rate and the dropout
   probability; the labels are numbers of classes. *)
Theorem C82_trained :
  forall V to_float zero lower stack_dict known k fc tcs ds su sparsify rate ss m lr dropout,
    train_set_up V to_float zero lower stack_dict known k fc tcs ds = Ok su ->
    draws_numbers sparsify -> ss <> [] -> (forall s, In s ss -> s <> []) -> segmentable fc tcs ss -> max_length ss m ->
    training_batch ds ss -> Forall opt_pos_wf (dataset_poses ds) ->
    ((exists tc, In tc tcs /\ tc_kind tc = pos_dense pos_gran) -> no_reserved_feature (dataset_poses ds)) -> Forall sized_task tcs ->
    exists d l f, set_up_features V to_float zero lower ds sparsify su rate (batch ss) = Ok d /\
      set_up_labels lower ds su (batch ss) = Ok l /\
      get_feed_dict tensor_eqb (su_network su) (as_fed d) (Some (with_hyper lr dropout (as_fed l))) = Ok f /\
      (forall t, In t (map fst f) <-> In t (map snd (n_inputs (su_network su)) ++ map snd (n_gold (su_network su)))) /\
      fits (su_graph su) (zlen ss) m f /\ on_target (su_graph su) f /\
      (exists t, In (of_string "learning_rate", t) (n_gold (su_network su)) /\ In (t, FedNumber lr) f) /\
      (exists t, In (of_string "dropout_probability", t) (n_gold (su_network su)) /\ In (t, FedNumber dropout) f).
Proof. exact trained_any. Qed.
Print Assumptions C82_trained.

(* Initialization: if the files of lemma_combo have vectors of the configured size, every matrix gets the vectors of its file,
   each in the row of its word, and other rows but the first keep what they were created with. *)
Theorem C82_initialized :
  forall V to_float zero lower stack_dict known k fc tcs ds su,
    train_set_up V to_float zero lower stack_dict known k fc tcs ds = Ok su -> fitting_files to_float zero tcs ->
    exists vals, set_up_values V to_float zero su = Ok vals /\
      (forall p ix vs up, In (IMatrix p ix vs up) (n_initializers (su_network su)) ->
         exists first lines R C rows, configured_file fc tcs p first lines /\
           In (up, (R, C)) (g_updates (su_graph su)) /\ t_dims ix = [None] /\ t_dims vs = [None; Some C] /\
           dict_get vals p = Some rows /\ rows <> [] /\ NoDup (map fst rows) /\ forall r vec, In (r, vec) rows -> 0 <= r < R /\ zlen vec = C) /\
      forall fresh st0, exists st, model_initialize tensor_eqb (fun t => t) fresh (su_network su) vals st0 = Ok st /\
        forall p first lines, configured_file fc tcs p first lines ->
          exists ix vs up ids shape init, In (IMatrix p ix vs up) (n_initializers (su_network su)) /\
            build_embeddings V to_float zero first lines = Ok (ids, shape, init) /\
            (forall w vec, last_vector to_float lines w vec -> exists i, dict_get ids w = Some i /\ st up i = vec) /\
            (forall i, i <> 0 -> (forall w, dict_get ids w <> Some i) -> st up i = fresh up i).
Proof. exact initialized. Qed.
Print Assumptions C82_initialized.

(* What is set up has tasks, and they have different labels. *)
Theorem C82_tasks :
  forall V to_float zero lower stack_dict known k fc tcs ds su,
    train_set_up V to_float zero lower stack_dict known k fc tcs ds = Ok su ->
    tcs <> [] /\ NoDup (map (fun tc => label_of (tc_kind tc)) tcs) /\
    forall x, In x (dict_keys (n_gold (su_network su))) <->
      x = of_string "learning_rate" \/ x = of_string "dropout_probability" \/ exists tc, In tc tcs /\ x = label_of (tc_kind tc).
Proof. exact tasks_any. Qed.
Print Assumptions C82_tasks.

(* What is fed is used: the ids of every input but the lengths are looked up, the applicable rules are a mask, and all labels
   are learned. *)
Theorem C82_used :
  forall V to_float zero lower stack_dict known k fc tcs ds su,
    train_set_up V to_float zero lower stack_dict known k fc tcs ds = Ok su ->
    (forall x t, In (x, t) (n_inputs (su_network su)) -> x = of_string "sentences_lengths" \/
       (x <> of_string "applicable_rules" /\ exists n, In (t, n) (g_lookups (su_graph su))) \/
       (x = of_string "applicable_rules" /\ exists n, In (t, n) (g_masks (su_graph su)))) /\
    (forall x t, In (x, t) (n_gold (su_network su)) -> x = of_string "learning_rate" \/ x = of_string "dropout_probability" \/ learned (su_graph su) t).
Proof. exact set_up_used. Qed.
Print Assumptions C82_used.

(* ---------------- C83 ---------------- *)

(* Every task that has a name in the configuration can be trained: refuted, the network of lemma_binary is never built, because
   its builder inherits initializers() without a result. *)
Theorem C83_tasks_refuted :
  forall V to_float zero lower stack_dict known k fc tcs ds su tc,
    In tc tcs -> tc_kind tc = lemma_binary -> train_set_up V to_float zero lower stack_dict known k fc tcs ds <> Ok su.
Proof. exact binary_never. Qed.
Print Assumptions C83_tasks_refuted.

(* Which configurations are set up, exactly: those with a known optimizer, tasks with different labels, at least one feature of
   words, and complete parts.  A task is not complete if it is lemma_binary; without that case this would be the property. *)
Theorem C83_tasks_partial :
  forall V to_float zero lower stack_dict ds known k fc tcs,
    (exists su, train_set_up V to_float zero lower stack_dict known k fc tcs ds = Ok su) <->
    known = true /\ tcs <> [] /\ NoDup (map (fun tc => label_of (tc_kind tc)) tcs) /\ shared_kind_ok k /\ shared_complete to_float zero fc ds /\
    forall tc, In tc tcs -> task_complete to_float zero stack_dict k fc ds tc.
Proof. exact set_up_iff. Qed.
Print Assumptions C83_tasks_partial.

(* ---------------- a configuration ---------------- *)
(* as in resources/hyperparams.json: word embeddings, characters, BiLSTM with concat, pos_dense and lemma_combo; vectors of
   whole numbers *)
Definition ex_chars : subwords := mkSubwords (Learned 1) (fun s => Ok (char_segment s)) 5.
Definition ex_file : list str := map of_string ["2 2"; "dogs 1 2"; "cats 3 4"]%string.
Definition ex_char_file : list str := map of_string ["d 1 2 3"; "o 4 5 6"]%string.
Definition ex_fc : features_config := mkFeatures (Some (ex_file, true)) None (Some ex_chars) None None.
Definition ex_tcs : list task_config :=
  [mkTaskConfig (pos_dense pos_gran) (of_string "bilstm") (Some [of_string "default"]) None None None;
   mkTaskConfig lemma_combo (of_string "bilstm_and_word_features") (Some [of_string "LEMMA"]) None
     (Some (mkSubwords (Pretrained ex_char_file) (fun s => Ok (char_segment s)) 3)) (Some (1, fun s => Ok (char_segment s), 7))].
Definition ex_set_up (tcs : list task_config) : result set_up :=
  train_set_up Z parse_int 0 ascii_lower (Err EType) true (BiLSTM 2 SkipConcat) ex_fc tcs [ex_feat_doc].
Definition ex_su : set_up := Eval vm_compute in
  match ex_set_up ex_tcs with Ok s => s | Err _ => mkSetUp (BEmpty _) (BEmpty _) [] (mkNetwork [] [] [] O (mkTensor O []) []) empty_graph end.
Definition ex_ss : list (list dtoken) := [map (mkDT (dtext ex_feat_doc)) (dtokens ex_feat_doc); map (mkDT (dtext ex_feat_doc)) (firstn 1 (dtokens ex_feat_doc))].
Definition ex_keep (o : obj) (k : str) (rate : Q) (v : nested) : nested := v.

Example C82_case : ex_set_up ex_tcs = Ok ex_su /\ fitting_files parse_int 0 ex_tcs /\ segmentable ex_fc ex_tcs ex_ss /\ max_length ex_ss 3 /\
  training_batch [ex_feat_doc] ex_ss /\
  map fst (n_inputs (su_network ex_su)) = map of_string ["sentences_lengths"; "words"; "characters"; "input_subwords"]%string /\
  map fst (n_gold (su_network ex_su)) = map of_string ["dropout_probability"; "learning_rate"; "pos_labels"; "output_subwords"]%string /\
  match set_up_features Z parse_int 0 ascii_lower [ex_feat_doc] ex_keep ex_su 0 (batch ex_ss) with
  | Ok d => dict_get d (of_string "words") = Some (NList [NList [NInt 2; NInt 1; NInt 3]; NList [NInt 2; NInt 0; NInt 0]]) /\
            exists f, get_feed_dict tensor_eqb (su_network ex_su) (as_fed d) None = Ok f /\ length f = 4%nat
  | Err _ => False
  end /\
  match set_up_values Z parse_int 0 ex_su with
  | Ok v => dict_get v (of_string "word_embeddings") = Some [(0, [0; 0]); (2, [1; 2]); (3, [3; 4])] /\
            dict_get v (of_string "input_subwords") = Some [(0, [0; 0; 0]); (4, [1; 2; 3]); (5, [4; 5; 6])]
  | Err _ => False
  end.
Proof.
  split; [vm_compute; reflexivity|]. split; [|split; [|split; [|split]]].
  - intros tc c lines [<-|[<-|[]]] Ek Ec Es; [discriminate|]. injection Ec as <-. injection Es as <-. vm_compute. eauto.
  - intros c s x [E|[E|[E|(tc & [<-|[<-|[]]] & _ & E)]]]; try discriminate; injection E as <-; intros _ _; eexists; reflexivity.
  - split; [eexists; split; [left; reflexivity|reflexivity]|]. intros s [<-|[<-|[]]]; vm_compute; discriminate.
  - intros s x Is Ix.
    assert (J : In x (map (mkDT (dtext ex_feat_doc)) (dtokens ex_feat_doc))).
    { destruct Is as [<-|[<-|[]]]; auto. destruct Ix as [<-|[]]. left. reflexivity. }
    split; [revert J; vm_compute; tauto|]. apply in_map_iff in J. destruct J as (t & <- & J). cbn [dt_tok].
    repeat (destruct J as [<-|J]; [unfold token_wf; vm_compute; repeat split; try discriminate; auto|]). destruct J.
  - vm_compute. repeat split; eauto.
Qed.

(* the same label twice, a task without loss weights where tf.stack does not take dictionaries, no tasks *)
Example C82_not_set_up :
  ex_set_up (ex_tcs ++ ex_tcs) = Err EValue /\
  ex_set_up [mkTaskConfig (pos_dense pos_gran) (of_string "bilstm") None None None None] = Err EType /\
  ex_set_up [] = Err EValue.
Proof. vm_compute. auto. Qed.

(* a file with vectors of another size than configured is set up; its vectors do not fit the matrix *)
Example C82_size : let tcs := [mkTaskConfig lemma_combo (of_string "bilstm") (Some [of_string "LEMMA"]) None
     (Some (mkSubwords (Pretrained ex_char_file) (fun s => Ok (char_segment s)) 4)) (Some (1, fun s => Ok (char_segment s), 7))] in
  match ex_set_up tcs with
  | Ok su => map snd (g_updates (su_graph su)) = [(6, 4); (4, 2)]
  | Err _ => False
  end.
Proof. vm_compute. auto. Qed.

(* lemma_binary alone, where lemma_suffix is set up *)
Definition ex_rules (k : task_kind) : list task_config := [mkTaskConfig k (of_string "bilstm") (Some [of_string "default"]) (Some 0) None None].
Example C83_case : ex_set_up (ex_rules lemma_binary) = Err EType /\ match ex_set_up (ex_rules lemma_suffix) with Ok _ => True | Err _ => False end /\
  match ex_set_up (ex_rules lemma_dense) with Ok _ => True | Err _ => False end.
Proof. vm_compute. auto. Qed.

(* the configuration meets the conditions, and does not without what they ask for *)
Example C83_conditions :
  (NoDup (map (fun tc => label_of (tc_kind tc)) ex_tcs) /\ shared_kind_ok (BiLSTM 2 SkipConcat) /\ shared_complete parse_int 0 ex_fc [ex_feat_doc] /\
   forall tc, In tc ex_tcs -> task_complete parse_int 0 (Err EType) (BiLSTM 2 SkipConcat) ex_fc [ex_feat_doc] tc) /\
  ~ task_complete parse_int 0 (Err EType) (BiLSTM 2 SkipNone) ex_fc [ex_feat_doc] (nth 1 ex_tcs (nth 0 ex_tcs (mkTaskConfig lemma_dense [] None None None None))) /\
  ~ shared_complete parse_int 0 (mkFeatures None None None None None) [ex_feat_doc].
Proof.
  split; [|split].
  - assert (X : train_set_up Z parse_int 0 ascii_lower (Err EType) true (BiLSTM 2 SkipConcat) ex_fc ex_tcs [ex_feat_doc] = Ok ex_su) by (vm_compute; reflexivity).
    destruct (proj1 (C83_tasks_partial _ _ _ _ _ _ _ _ _ _) (ex_intro _ _ X)) as (_ & _ & H). exact H.
  - intros [H _]. unfold shared_layer in H. cbn [nth ex_tcs tc_shared_name] in H. repeat match goal with H : _ \/ _ |- _ => destruct H as [H|H] | H : _ /\ _ |- _ => destruct H as [H ?] end; try discriminate; congruence.
  - intros [H _]. cbn [fc_words fc_trained fc_characters fc_bpe fc_morfessor] in H. intuition congruence.
Qed.
