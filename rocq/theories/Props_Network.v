(* Properties of networks: C71, C76 - C79. *)
From Coq Require Import String Ascii ZArith NArith QArith Bool List Lia Permutation Sorted.
From Verif Require Import Base BaseFacts Spec_Harness Spec_Labels Model_Network Spec_Network Proofs_Network Proofs_Network2 Proofs_Network3 Proofs_Network4.
Import ListNotations.
Open Scope Z_scope.

(* ------------------------------------------------------------------ *)
(* C71 *)

(* Attaching gives the one network over the graph that has the names of the mapping, and nothing else. *)
Theorem C71_attach : forall (T O : Type) (tname : T -> str) (oname : O -> str) (gt : list T) (go : list O),
  uniquely_named tname gt -> uniquely_named oname go ->
  forall (T' O' : Type) (tname' : T' -> str) (oname' : O' -> str) (n' : network T' O') (n : network T O),
  attach (by_name tname gt) (by_name oname go) (mapping tname' oname' n') = Ok n
  <-> same_network tname oname tname' oname' n n' /\ incl (tensors_of n) gt /\ incl (ops_of n) go.
Proof.
  intros T O tname oname gt go Ut Uo T' O' tname' oname' n' n. rewrite attach_iff by auto. rewrite same_network_iff. tauto.
Qed.
Print Assumptions C71_attach.

(* In the graph it was built in a network is found again. *)
Theorem C71_round_trip : forall (T O : Type) (tname : T -> str) (oname : O -> str) (gt : list T) (go : list O) (n : network T O),
  uniquely_named tname gt -> uniquely_named oname go -> incl (tensors_of n) gt -> incl (ops_of n) go ->
  attach (by_name tname gt) (by_name oname go) (mapping tname oname n) = Ok n.
Proof. intros. apply attach_iff; auto. Qed.
Print Assumptions C71_round_trip.

(* Attaching fails only with a KeyError for a name that the graph does not have. *)
Theorem C71_missing_name : forall (T O : Type) (tname : T -> str) (oname : O -> str) (gt : list T) (go : list O)
  (m : network str str) (e : exn),
  attach (by_name tname gt) (by_name oname go) m = Err e ->
  e = EKey /\ ((exists nm, In nm (tensors_of m) /\ ~ In nm (map tname gt))
               \/ (exists nm, In nm (ops_of m) /\ ~ In nm (map oname go))).
Proof. intros T O tname oname gt go m e. exact (attach_err tname oname gt go m e). Qed.
Print Assumptions C71_missing_name.

(* Feeding fails exactly if a name is unknown, with a KeyError. *)
Theorem C71_feed_rejects : forall (T O V : Type) (teqb : T -> T -> bool) (n : network T O) (input : dict V) (gold : option (dict V)),
  match get_feed_dict teqb n input gold with
  | Ok _ => incl (dict_keys input) (dict_keys (n_inputs n))
            /\ (forall g, gold = Some g -> incl (dict_keys g) (dict_keys (n_gold n)))
  | Err e => e = EKey /\ ((exists k, In k (dict_keys input) /\ ~ In k (dict_keys (n_inputs n)))
                          \/ (exists g k, gold = Some g /\ In k (dict_keys g) /\ ~ In k (dict_keys (n_gold n))))
  end.
Proof. intros. apply feed_total. Qed.
Print Assumptions C71_feed_rejects.

(* Every given value is fed to the placeholder of its name, once, and nothing else is fed; without gold values no gold
   placeholder is fed. *)
Theorem C71_feed_values : forall (T O V : Type) (teqb : T -> T -> bool) (n : network T O) (input : dict V) (gold : option (dict V)) f,
  identity_test teqb -> NoDup (map snd (n_inputs n) ++ map snd (n_gold n)) -> dict_ok input ->
  (forall g, gold = Some g -> dict_ok g) ->
  get_feed_dict teqb n input gold = Ok f ->
  NoDup (map fst f)
  /\ forall t v, In (t, v) f <-> given (n_inputs n) input t v \/ (exists g, gold = Some g /\ given (n_gold n) g t v).
Proof. intros T O V teqb n input gold f. exact (feed_values teqb n input gold f). Qed.
Print Assumptions C71_feed_values.

(* A network and its copy in another graph are fed the same values under the same names, or fail alike. *)
Theorem C71_same_feed : forall (T O T' O' V : Type) (tname : T -> str) (oname : O -> str) (tname' : T' -> str) (oname' : O' -> str)
  (teqb : T -> T -> bool) (teqb' : T' -> T' -> bool) (n : network T O) (n' : network T' O') (input : dict V) (gold : option (dict V)),
  identity_test teqb -> identity_test teqb' ->
  (forall a b, In a (tensors_of n) -> In b (tensors_of n) -> tname a = tname b -> a = b) ->
  (forall a b, In a (tensors_of n') -> In b (tensors_of n') -> tname' a = tname' b -> a = b) ->
  same_network tname oname tname' oname' n n' ->
  match get_feed_dict teqb n input gold, get_feed_dict teqb' n' input gold with
  | Ok f, Ok f' => Forall2 (fun tv tv' => tname (fst tv) = tname' (fst tv') /\ snd tv = snd tv') f f'
  | Err e, Err e' => e = e'
  | _, _ => False
  end.
Proof. intros T O T' O' V. exact feed_alike. Qed.
Print Assumptions C71_same_feed.

(* Model.train runs the loss and the optimizer of the network on all given values, Model.predict the outputs on the features
   alone; a value without placeholder is a KeyError. *)
Theorem C71_train_predict : forall (T O V S L W : Type) (teqb : T -> T -> bool) (run_train : S -> T * O -> feed T V -> result (S * L))
  (run_outputs : S -> dict T -> feed T V -> result W) (n : network T O) (s : S) (features labels : dict V),
  identity_test teqb -> NoDup (map snd (n_inputs n) ++ map snd (n_gold n)) -> dict_ok features -> dict_ok labels ->
  (incl (dict_keys features) (dict_keys (n_inputs n)) -> incl (dict_keys labels) (dict_keys (n_gold n)) ->
     exists f, NoDup (map fst f) /\ (forall t v, In (t, v) f <-> given (n_inputs n) features t v \/ given (n_gold n) labels t v) /\
       model_train teqb run_train n s features labels = run_train s (n_loss n, n_optimizer n) f) /\
  (incl (dict_keys features) (dict_keys (n_inputs n)) ->
     exists f, NoDup (map fst f) /\ (forall t v, In (t, v) f <-> given (n_inputs n) features t v) /\
       model_predict teqb run_outputs n s features = run_outputs s (n_outputs n) f) /\
  (~ (incl (dict_keys features) (dict_keys (n_inputs n)) /\ incl (dict_keys labels) (dict_keys (n_gold n))) ->
     model_train teqb run_train n s features labels = Err EKey) /\
  (~ incl (dict_keys features) (dict_keys (n_inputs n)) -> model_predict teqb run_outputs n s features = Err EKey).
Proof. exact train_predict. Qed.
Print Assumptions C71_train_predict.

(* a graph of tensors and operations that are numbers; the name of tensor i is "t" and i *)
Definition ex_name (p : string) (i : Z) : str := of_string p ++ print_Z i.
Definition ex_net : network Z Z :=
  mkNetwork [(of_string "words", 3); (of_string "sentences_lengths", 1)] [(of_string "pos_labels", 5)]
            [(of_string "pos_labels", 4); (of_string "learning_rate", 2)] 7 6
            [IGlobal 8; IMatrix (of_string "word_embeddings") 9 10 11].
Definition ex_tensors : list Z := [1; 2; 3; 4; 5; 6; 9; 10; 11; 12].
Definition ex_ops : list Z := [7; 8].
Example ex_unique : uniquely_named (ex_name "t") ex_tensors /\ uniquely_named (ex_name "op") ex_ops.
Proof. split; vm_compute; repeat (constructor; [simpl; intuition discriminate|]); constructor. Qed.
Example ex_inside : incl (tensors_of ex_net) ex_tensors /\ incl (ops_of ex_net) ex_ops.
Proof. split; intros x; vm_compute; intuition. Qed.
Example ex_attached :
  attach (by_name (ex_name "t") ex_tensors) (by_name (ex_name "op") ex_ops) (mapping (ex_name "t") (ex_name "op") ex_net) = Ok ex_net.
Proof. vm_compute. reflexivity. Qed.
Example ex_unattached :
  attach (by_name (ex_name "t") (tl ex_tensors)) (by_name (ex_name "op") ex_ops) (mapping (ex_name "t") (ex_name "op") ex_net) = Err EKey.
Proof. vm_compute. reflexivity. Qed.
Example ex_fed :
  get_feed_dict Z.eqb ex_net [(of_string "sentences_lengths", 20); (of_string "words", 21)]
                (Some [(of_string "pos_labels", 22)]) = Ok [(1, 20); (3, 21); (4, 22)]
  /\ get_feed_dict Z.eqb ex_net [(of_string "characters", 20)] None = Err EKey.
Proof. split; vm_compute; reflexivity. Qed.

(* With one placeholder under two names a value is lost: different placeholders are needed. *)
Theorem C71_distinct_needed : exists (n : network Z Z) (input : dict Z) f name v t,
  get_feed_dict Z.eqb n input None = Ok f /\ dict_ok input /\ dict_get (n_inputs n) name = Some t
  /\ dict_get input name = Some v /\ ~ In (t, v) f.
Proof.
  exists (mkNetwork [(of_string "a", 1); (of_string "b", 1)] [] [] 0 0 []), [(of_string "a", 5); (of_string "b", 6)],
         [(1, 6)], (of_string "a"), 5, 1.
  split; [vm_compute; reflexivity|]. split; [repeat (constructor; [simpl; intuition discriminate|]); constructor|].
  split; [reflexivity|]. split; [reflexivity|]. intros [H|[]]. discriminate.
Qed.
Print Assumptions C71_distinct_needed.

(* ------------------------------------------------------------------ *)
(* C76 *)

(* After initialization every given vector is in its row and every other row has its initial contents, whatever the matrices
   contained before. *)
Theorem C76_initialized : forall (T O M V : Type) (meqb : M -> M -> bool) (matrix : T -> M) (fresh : M -> Z -> V)
  (n : network T O) (op : O) (l : list (initializer T O)) (params : dict (list (Z * V))) (st0 st : M -> Z -> V),
  identity_test meqb -> n_initializers n = IGlobal op :: l -> only_matrices l -> NoDup (written matrix l) ->
  (forall p ps, dict_get params p = Some ps -> NoDup (map fst ps)) ->
  model_initialize meqb matrix fresh n params st0 = Ok st ->
  (forall p ix vs up r v ps, In (IMatrix p ix vs up) l -> dict_get params p = Some ps -> In (r, v) ps ->
                             st (matrix up) r = v)
  /\ (forall m r, (forall p ix vs up ps v, In (IMatrix p ix vs up) l -> matrix up = m -> dict_get params p = Some ps ->
                                           ~ In (r, v) ps) -> st m r = fresh m r).
Proof.
  intros T O M V meqb matrix fresh n op l params st0 st D E OM ND NP H.
  destruct (initialize_store meqb D matrix fresh n op l params st0 st E OM ND NP H) as (A & B & _). split; assumption.
Qed.
Print Assumptions C76_initialized.

(* Initialization fails exactly if the vectors of a matrix are missing or none are given. *)
Theorem C76_needs_vectors : forall (T O M V : Type) (meqb : M -> M -> bool) (matrix : T -> M) (fresh : M -> Z -> V)
  (n : network T O) (params : dict (list (Z * V))) (st0 : M -> Z -> V),
  (exists st, model_initialize meqb matrix fresh n params st0 = Ok st)
  <-> (forall p ix vs up, In (IMatrix p ix vs up) (n_initializers n) -> exists ps, dict_get params p = Some ps /\ ps <> []).
Proof.
  intros T O M V meqb matrix fresh n params st0. unfold model_initialize. split.
  - intros [st H]. destruct (init_calls params (n_initializers n)) as [rs [e|]] eqn:E; [discriminate|]. clear H.
    revert rs E. induction (n_initializers n) as [|i l IH]; intros rs E p ix vs up J; [destruct J|].
    cbn [init_calls] in E. destruct (init_call params i) as [c|] eqn:C; [|discriminate].
    destruct (init_calls params l) as [rs' e'] eqn:E2. injection E as <- ->. destruct J as [->|J]; [|eapply IH; eauto].
    unfold init_call in C. destruct (dict_get params p) as [ps|]; cbn [of_option bind] in C; [|discriminate].
    exists ps. split; auto. intros ->. discriminate.
  - intros H. destruct (init_calls_total params (n_initializers n) H) as [rs E]. rewrite E. eauto.
Qed.
Print Assumptions C76_needs_vectors.

(* The exception is that of a matrix: KeyError without an entry for it, ValueError without vectors. *)
Theorem C76_exception : forall (T O M V : Type) (meqb : M -> M -> bool) (matrix : T -> M) (fresh : M -> Z -> V)
  (n : network T O) (params : dict (list (Z * V))) (st0 : M -> Z -> V) e,
  model_initialize meqb matrix fresh n params st0 = Err e ->
  exists p ix vs up, In (IMatrix p ix vs up) (n_initializers n) /\
    ((dict_get params p = None /\ e = EKey) \/ (dict_get params p = Some [] /\ e = EValue)).
Proof. exact initialize_exception. Qed.
Print Assumptions C76_exception.

(* The order matters: a network whose global initializer comes last loses the vectors. *)
Theorem C76_order_matters : exists (n : network Z Z) (params : dict (list (Z * Z))) st,
  n_initializers n = [IMatrix (of_string "words") 1 2 3; IGlobal 4]
  /\ model_initialize Z.eqb (fun t => t) (fun _ _ => 0) n params (fun _ _ => 0) = Ok st
  /\ dict_get params (of_string "words") = Some [(5, 7)] /\ st 3 5 <> 7.
Proof.
  exists (mkNetwork [] [] [] 0 0 [IMatrix (of_string "words") 1 2 3; IGlobal 4]), [(of_string "words", [(5, 7)])].
  eexists. split; [reflexivity|]. split; [reflexivity|]. split; [reflexivity|]. vm_compute. discriminate.
Qed.
Print Assumptions C76_order_matters.

Example ex_initialized :
  exists st, model_initialize Z.eqb (fun t => t) (fun m r => -m) ex_net [(of_string "word_embeddings", [(4, 40); (2, 20)])] (fun _ _ => 99) = Ok st
             /\ st 11 4 = 40 /\ st 11 2 = 20 /\ st 11 3 = -11 /\ st 5 4 = -5.
Proof. eexists. split; [reflexivity|]. vm_compute. auto. Qed.

Example ex_exception :
  model_initialize Z.eqb (fun t => t) (fun m r => -m) ex_net ([] : dict (list (Z * Z))) (fun _ _ => 99) = Err EKey /\
  model_initialize Z.eqb (fun t => t) (fun m r => -m) ex_net [(of_string "word_embeddings", [])] (fun _ _ => 99) = Err EValue.
Proof. split; reflexivity. Qed.

(* ------------------------------------------------------------------ *)
(* C77 *)

(* What a built network consists of: the parts are called one after another; names are looked up in the last task that has
   them and then in the shared part; the global initializer comes first. *)
Theorem C77_built : forall (T O G SH P : Type) (placeholders : G -> G * (T * T)) (sum_losses : list T -> G -> G * T)
  (optimize : T -> T -> G -> result (G * O)) (global_init : G -> G * O)
  (sb : shared T O G SH P) (tasks : list (task T O G SH P)) (shapes : SH) (g g' : G) (n : network T O),
  shared_ok sb -> Forall task_ok tasks ->
  build placeholders sum_losses optimize global_init sb tasks shapes g = Ok (n, g') ->
  exists g0 dropout lr g1 sh_inputs g2 sh sh_inits cs g3 g4 g5 init,
    placeholders g = (g0, (dropout, lr))
    /\ s_inputs sb shapes g0 = Ok (g1, sh_inputs)
    /\ s_build sb shapes sh_inputs dropout g1 = Ok (g2, (sh, sh_inits))
    /\ tasks_called shapes sh_inputs sh dropout g2 tasks cs g3
    /\ cs <> []
    /\ sum_losses (map c_loss cs) g3 = (g4, n_loss n)
    /\ optimize (n_loss n) lr g4 = Ok (g5, n_optimizer n)
    /\ global_init g5 = (g', init)
    /\ n_initializers n = IGlobal init :: sh_inits ++ flat_map c_inits cs
    /\ (forall k, dict_get (n_inputs n) k = last_binding (sh_inputs :: map c_inputs cs) k)
    /\ (forall k, dict_get (n_outputs n) k = last_binding (map c_output cs) k)
    /\ (forall k, dict_get (n_gold n) k
                  = if str_eqb k (of_string "dropout_probability") then Some dropout
                    else if str_eqb k (of_string "learning_rate") then Some lr
                    else last_binding (map c_gold cs) k)
    /\ dict_ok (n_inputs n) /\ dict_ok (n_outputs n) /\ dict_ok (n_gold n).
Proof. intros T O G SH P. exact build_spec_net. Qed.
Print Assumptions C77_built.

(* If the parts use different names, every placeholder a part was built on can be fed and every output fetched. *)
Theorem C77_every_placeholder : forall (T O G SH P : Type) (placeholders : G -> G * (T * T)) (sum_losses : list T -> G -> G * T)
  (optimize : T -> T -> G -> result (G * O)) (global_init : G -> G * O)
  (sb : shared T O G SH P) (tasks : list (task T O G SH P)) (shapes : SH) (g g' : G) (n : network T O),
  shared_ok sb -> Forall task_ok tasks ->
  build placeholders sum_losses optimize global_init sb tasks shapes g = Ok (n, g') ->
  exists g0 dropout lr g1 sh_inputs g2 sh sh_inits cs g3,
    placeholders g = (g0, (dropout, lr))
    /\ s_inputs sb shapes g0 = Ok (g1, sh_inputs)
    /\ s_build sb shapes sh_inputs dropout g1 = Ok (g2, (sh, sh_inits))
    /\ tasks_called shapes sh_inputs sh dropout g2 tasks cs g3
    /\ (disjoint_names (sh_inputs :: map c_inputs cs) ->
        forall k t, (dict_get sh_inputs k = Some t \/ exists c seen, In c cs /\ prefers seen sh_inputs (c_inputs c)
                                                                      /\ dict_get seen k = Some t) ->
                    dict_get (n_inputs n) k = Some t)
    /\ (disjoint_names (map c_gold cs) ->
        forall c k t, In c cs -> dict_get (c_gold c) k = Some t -> dict_get (n_gold n) k = Some t)
    /\ (disjoint_names (map c_output cs) ->
        forall c k t, In c cs -> dict_get (c_output c) k = Some t -> dict_get (n_outputs n) k = Some t).
Proof. intros T O G SH P. exact every_placeholder. Qed.
Print Assumptions C77_every_placeholder.

(* a graph is the number of the next tensor *)
Definition ex_placeholders (g : Z) : Z * (Z * Z) := (g + 2, (g, g + 1)).
Definition ex_sum (l : list Z) (g : Z) : Z * Z := (g + 1, g).
Definition ex_optimize (loss lr g : Z) : result (Z * Z) := Ok (g + 1, 1000 + g).
Definition ex_global (g : Z) : Z * Z := (g + 1, 2000 + g).
Definition ex_shared (name : string) : shared Z Z Z unit Z :=
  mkShared [1] (fun _ g => Ok (g + 1, [(of_string name, g)]))
           (fun _ _ _ g => Ok (g + 1, ([(of_string "word_features", g)], [IMatrix (of_string "words") g g g]))).
Definition ex_task (input label : string) : task Z Z Z unit Z :=
  mkTask [2] (fun _ g => Ok (g + 1, [(of_string input, g)])) (fun _ g => Ok (g + 1, [(of_string label, g)]))
         (fun _ _ _ _ _ g => Ok (g + 2, ([(of_string label, g)], g + 1, Some [IMatrix (of_string label) g g g]))).

Lemma ex_task_ok input label : of_string label <> of_string "dropout_probability" -> of_string label <> of_string "learning_rate" ->
  task_ok (ex_task input label).
Proof.
  intros N1 N2. unfold task_ok. cbn [k_inputs k_gold k_build ex_task].
  assert (X : forall (s : str) (x : Z), dict_ok [(s, x)]) by (intros s x; constructor; [simpl; tauto|constructor]).
  split; [|split].
  - intros shapes g g' d H. injection H as <- <-. apply X.
  - intros shapes g g' d H. injection H as <- <-. split; [apply X|]. split; intros [H|[]]; auto.
  - intros shapes i s gold p g g' d l x H. injection H as <- <- <- <-. apply X.
Qed.
Lemma ex_shared_ok name : shared_ok (ex_shared name).
Proof.
  intros shapes g g' d H. cbn in H. injection H as <- <-. constructor; [simpl; tauto|constructor].
Qed.

Example ex_built :
  shared_ok (ex_shared "sentences_lengths")
  /\ Forall task_ok [ex_task "input_subwords" "output_subwords"; ex_task "applicable_rules" "lemma_rule_labels"]
  /\ build ex_placeholders ex_sum ex_optimize ex_global (ex_shared "sentences_lengths")
       [ex_task "input_subwords" "output_subwords"; ex_task "applicable_rules" "lemma_rule_labels"] tt 0
     = Ok (mkNetwork [(of_string "sentences_lengths", 2); (of_string "input_subwords", 4); (of_string "applicable_rules", 8)]
                     [(of_string "output_subwords", 6); (of_string "lemma_rule_labels", 10)]
                     [(of_string "dropout_probability", 0); (of_string "learning_rate", 1); (of_string "output_subwords", 5);
                      (of_string "lemma_rule_labels", 9)]
                     1013 12
                     [IGlobal 2014; IMatrix (of_string "words") 3 3 3; IMatrix (of_string "output_subwords") 6 6 6;
                      IMatrix (of_string "lemma_rule_labels") 10 10 10], 15).
Proof.
  split; [apply ex_shared_ok|]. split; [|vm_compute; reflexivity].
  constructor; [apply ex_task_ok; discriminate|]. constructor; [apply ex_task_ok; discriminate|constructor].
Qed.

(* Without different names a placeholder is lost: a task with an input that is named like a shared one.  Shared part and task
   are built on the shared placeholder, but the network feeds the other one. *)
Theorem C77_names_needed : exists (sb : shared Z Z Z unit Z) tasks n g',
  shared_ok sb /\ Forall task_ok tasks
  /\ build ex_placeholders ex_sum ex_optimize ex_global sb tasks tt 0 = Ok (n, g')
  /\ exists k t g0 g1, s_inputs sb tt g0 = Ok (g1, [(k, t)]) /\ g0 = fst (ex_placeholders 0)
                       /\ ~ In t (map snd (n_inputs n)).
Proof.
  exists (ex_shared "words"), [ex_task "words" "pos_labels"]. eexists. eexists.
  split; [apply ex_shared_ok|]. split; [constructor; [apply ex_task_ok; discriminate|constructor]|].
  split; [vm_compute; reflexivity|]. exists (of_string "words"), 2, 2, 3.
  split; [reflexivity|]. split; [reflexivity|]. vm_compute. intuition discriminate.
Qed.
Print Assumptions C77_names_needed.

(* No network contains a task builder whose initializers() returns None, as that of LemmaSuffixBinaryTaskNetworkBuilder does. *)
Theorem C77_no_initializers : forall (T O G SH P : Type) (placeholders : G -> G * (T * T)) (sum_losses : list T -> G -> G * T)
  (optimize : T -> T -> G -> result (G * O)) (global_init : G -> G * O)
  (sb : shared T O G SH P) (tasks : list (task T O G SH P)) (shapes : SH) (g : G) (t : task T O G SH P) r,
  In t tasks ->
  (forall a b c d e g g' out l x, k_build t a b c d e g = Ok (g', (out, l, x)) -> x = None) ->
  build placeholders sum_losses optimize global_init sb tasks shapes g <> Ok r.
Proof. intros T O G SH P. exact none_never_builds. Qed.
Print Assumptions C77_no_initializers.

Example ex_binary :
  build ex_placeholders ex_sum ex_optimize ex_global (ex_shared "words")
        [mkTask [2] (fun _ g => Ok (g, [])) (fun _ g => Ok (g, [])) (fun _ _ _ _ _ g => Ok (g + 1, ([], g, None)))] tt 0 = Err EType
  /\ build ex_placeholders ex_sum ex_optimize ex_global (ex_shared "words") [] tt 0 = Err EValue.
Proof. split; vm_compute; reflexivity. Qed.

(* ------------------------------------------------------------------ *)
(* C78 *)

(* Every directory below the model directory is tested exactly once, in the order of the paths, up to the first failing test. *)
Theorem C78_models_partial : forall (R : Type) (model_dir : str) (d : dir) (test : str -> result R) ys e,
  dir_ok d -> pretrained_train model_dir d (Some test) = (ys, e) ->
  exists paths, (forall x, In x paths <-> exists p, below d p /\ x = based model_dir (join (of_string "/") p))
    /\ StronglySorted str_before paths
    /\ Forall (fun y => test (snd y) = Ok (fst y)) ys
    /\ match e with
       | None => map snd ys = paths
       | Some e => exists m rest, paths = map snd ys ++ m :: rest /\ test m = Err e
       end.
Proof.
  intros R model_dir d test ys e OK H. unfold pretrained_train in H. exists (isort Model_Features.str_le (walk model_dir d)).
  split.
  - intros x. rewrite <- (walk_In d OK model_dir x). split; intros J.
    + eapply Permutation_in; [symmetry; apply isort_perm|exact J].
    + eapply Permutation_in; [apply isort_perm|exact J].
  - split; [apply sorted_strict, walk_nodup, OK|]. apply test_all_spec, H.
Qed.
Print Assumptions C78_models_partial.

(* The models of at most ten epochs are tested in the order of the epochs. *)
Theorem C78_few_epochs_partial : forall (R : Type) (model_dir : str) (k : nat) (order : list nat) (test : str -> result R) ys,
  Permutation order (seq 0 k) -> (k <= 10)%nat ->
  pretrained_train model_dir (epochs_of order) (Some test) = (ys, None) -> map snd ys = epoch_paths model_dir k.
Proof.
  intros R model_dir k order test ys P K H. unfold pretrained_train in H. rewrite few_epochs with (k := k) in H by auto.
  apply test_all_spec in H. apply H.
Qed.
Print Assumptions C78_few_epochs_partial.

(* With more epochs the order is another one. *)
Theorem C78_order_refuted : forall (R : Type) (model_dir : str) (k : nat) (order : list nat) (test : str -> result R) ys,
  Permutation order (seq 0 k) -> (10 < k)%nat ->
  pretrained_train model_dir (epochs_of order) (Some test) = (ys, None) -> map snd ys <> epoch_paths model_dir k.
Proof.
  intros R model_dir k order test ys P K H. unfold pretrained_train in H. apply test_all_spec in H. destruct H as [_ ->].
  apply many_epochs; auto.
Qed.
Print Assumptions C78_order_refuted.

(* Without a tester nothing is yielded. *)
Example ex_no_tester : pretrained_train (R := nat) (of_string "m") (epochs_of [0; 1]%nat) None = ([], None).
Proof. reflexivity. Qed.

Example ex_pretrained :
  map snd (fst (pretrained_train (of_string "models") (epochs_of [10; 2; 1; 0]%nat) (Some (fun p => Ok (length p)))))
  = map of_string ["models/epoch-0"; "models/epoch-1"; "models/epoch-10"; "models/epoch-2"]%string
  /\ dir_ok (epochs_of [10; 2; 1; 0]%nat).
Proof.
  split; [vm_compute; reflexivity|]. unfold epochs_of. constructor.
  - vm_compute. repeat (constructor; [simpl; intuition discriminate|]). constructor.
  - apply Forall_forall. intros [name d] J. apply in_map_iff in J. destruct J as (i & E & _). injection E as <- <-.
    cbn [fst snd]. split; [apply epoch_simple|]. constructor; constructor.
Qed.
(* subdirectories of a model are taken for models *)
Example ex_nested :
  map snd (fst (pretrained_train (of_string "m") (Dir [(of_string "epoch-0", Dir [(of_string "vars", Dir [])])]) (Some (fun p => Ok tt))))
  = map of_string ["m/epoch-0"; "m/epoch-0/vars"]%string.
Proof. vm_compute. reflexivity. Qed.

(* ------------------------------------------------------------------ *)
(* C79 *)

(* The first call gives the providers of the shared part and then those of the tasks. *)
Theorem C79_first_call_partial : forall (T O G SH P : Type) (sb : shared T O G SH P) (tasks : list (task T O G SH P)),
  fst (feature_providers sb tasks) = s_providers sb ++ flat_map k_providers tasks.
Proof. intros T O G SH P. exact providers_once. Qed.
Print Assumptions C79_first_call_partial.

(* A second call gives the same only if no task has a provider. *)
Theorem C79_second_call_refuted : forall (T O G SH P : Type) (sb : shared T O G SH P) (tasks : list (task T O G SH P)),
  fst (feature_providers (snd (feature_providers sb tasks)) tasks) = fst (feature_providers sb tasks)
  <-> flat_map k_providers tasks = [].
Proof.
  intros T O G SH P sb tasks. rewrite providers_once, providers_kept, providers_once. split.
  - intros H. apply (f_equal (@length P)) in H. rewrite !app_length in H. apply length_zero_iff_nil. lia.
  - intros ->. rewrite !app_nil_r. reflexivity.
Qed.
Print Assumptions C79_second_call_refuted.

Example ex_providers :
  let sb := ex_shared "words" in let ts := [ex_task "a" "b"] in
  fst (feature_providers sb ts) = [1; 2] /\ fst (feature_providers (snd (feature_providers sb ts)) ts) = [1; 2; 2].
Proof. split; reflexivity. Qed.
