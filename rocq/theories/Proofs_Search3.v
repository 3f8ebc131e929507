(* What is read from the settings *)
From Coq Require Import String Ascii ZArith NArith QArith Bool Lia List.
From Verif Require Import Base BaseFacts Model_Datamodel Model_UDEval Model_Harness Spec_Harness Model_Training Model_Grid Spec_Grid Proofs_Grid
  Model_Experiment Spec_Experiment Model_Search Spec_Search Proofs_Search Proofs_Search2.
Import ListNotations.
Open Scope Z_scope.

Ltac inv H :=
  match type of H with
  | (do _ <- ?e; _) = Ok _ => let E := fresh "E" in let x := fresh "x" in destruct e as [x|] eqn:E; [cbn [bind] in H; inv H|discriminate H]
  | _ => idtac
  end.

Lemma at_item k p s : at_path (k :: p) s = match item s k with Ok v => at_path p v | Err _ => None end.
Proof. destruct s as [x|d]; [reflexivity|]. cbn [at_path item]. destruct (dict_get d k); reflexivity. Qed.

Lemma strings_of_map (ss : list str) : strings_of (JLeaf (LList (map LStr ss))) = Ok ss.
Proof. cbn [strings_of]. induction ss as [|x ss IH]; [reflexivity|]. cbn [map mapM]. rewrite IH. reflexivity. Qed.
Lemma ints_of_map (zs : list Z) : mapM (fun x => int_of (JLeaf x)) (map LInt zs) = Ok zs.
Proof. induction zs as [|x zs IH]; [reflexivity|]. cbn [map mapM]. rewrite IH. reflexivity. Qed.
Lemma attr_of_name a : attr_of (attr_name a) = Ok a.
Proof. destruct a; vm_compute; reflexivity. Qed.

(* what is at a path that was followed *)
Ltac found := unfold at_keys; cbn [map]; repeat (rewrite at_item; match goal with E : item ?s ?k = Ok _ |- context [item ?s ?k] => rewrite E end); reflexivity.

Section Read.
Context {M R : Type}.
Variables (predict : str -> M -> result str) (score : str -> str -> result table).
Variable data : str -> result (list document).
Variables (seed_of : Z -> R) (below : R -> Z -> Z * R).
Notation read := (read_settings predict score data seed_of below).

(* the parts of the settings that were read *)
Definition has_read (clock : Z) (delete : bool) (s : json leaf) (fs : files M) (c : settings M) (ds : str * option (Z * Z)) : Prop :=
  (exists j, at_keys ["model_dir"]%string s = Some j /\ string_of j = Ok (model_dir c)) /\
  (exists j, at_keys ["metric_printer"; "fields"]%string s = Some j /\ strings_of j = Ok (printed c)) /\
  (exists j, at_keys ["cmp_metric"; "fields"]%string s = Some j /\ strings_of j = Ok (fields c)) /\
  (exists j m, at_keys ["cmp_metric"; "metric"]%string s = Some j /\ string_of j = Ok m /\ attr_of m = Ok (compared c)) /\
  (exists j, at_keys ["train_set"]%string s = Some j /\ build_dataset clock j = Ok ds) /\
  (exists j, at_keys ["dev_set"]%string s = Some j /\ build_tester predict score j = Ok (dev_set c)) /\
  (exists j, at_keys ["random_seed"]%string s = Some j /\ seeding_from j = Ok (random_seed c)) /\
  delete_after c = delete /\ test_set c = None /\ train_set c = nth_pass data seed_of below ds 0 /\
  (delete = true -> is_filled (model_dir c) fs = false).

Lemma read_inv clock delete name s fs c ds : read clock delete name s fs = Ok (c, ds) ->
  has_read clock delete s fs c ds /\ exists t, get_trainer name = Ok t.
Proof.
  intros H. assert (D : delete = true -> forall j d, item s (of_string "model_dir") = Ok j -> string_of j = Ok d -> is_filled d fs = false).
  { intros -> j d Ej Ed. unfold read_settings in H. rewrite Ej in H. cbn [bind] in H. rewrite Ed in H. cbn [bind] in H.
    unfold raise_if in H. destruct (is_filled d fs); [discriminate|reflexivity]. }
  unfold read_settings in H. inv H. injection H as <- <-. clear E.
  unfold has_read. cbn [model_dir printed fields compared random_seed train_set dev_set test_set delete_after].
  split; [|eauto].
  split; [eexists; split; [found|eassumption]|]. split; [eexists; split; [found|eassumption]|]. split; [eexists; split; [found|eassumption]|].
  split; [eexists; eexists; split; [found|split; eassumption]|]. split; [eexists; split; [found|eassumption]|].
  split; [eexists; split; [found|eassumption]|]. split; [eexists; split; [found|eassumption]|].
  split; [reflexivity|]. split; [reflexivity|]. split; [reflexivity|]. eauto.
Qed.

(* any key that is missing is noticed before the search *)
Lemma read_missing clock delete name s fs keys : In keys required -> at_keys keys s = None -> exists e, read clock delete name s fs = Err e.
Proof.
  intros I N. destruct (read clock delete name s fs) as [(c & ds)|e] eqn:E; [|eauto]. exfalso.
  destruct (read_inv _ _ _ _ _ _ _ E) as ((( j1 & A1 & _) & (j2 & A2 & _) & (j3 & A3 & _) & (j4 & m & A4 & _) & (j5 & A5 & B5) & (j6 & A6 & B6) & (j7 & A7 & _) & _) & _).
  unfold required in I. cbn [In] in I. destruct I as [<-|[<-|[<-|[<-|[<-|[<-|[<-|[]]]]]]]]; try congruence.
  - unfold build_dataset in B5. inv B5. unfold at_keys in *. cbn [map] in *. rewrite at_item in N, A5.
    destruct (item s (of_string "train_set")); [|discriminate]. injection A5 as ->. rewrite at_item, E0 in N. discriminate.
  - unfold build_tester in B6. inv B6. unfold at_keys in *. cbn [map] in *. rewrite at_item in N, A6.
    destruct (item s (of_string "dev_set")); [|discriminate]. injection A6 as ->. rewrite at_item, E0 in N. discriminate.
Qed.

Lemma read_agree clock clock' delete delete' name name' s fs fs' c ds c' ds' t :
  read clock delete name s fs = Ok (c, ds) -> read clock' delete' name' s fs' = Ok (c', ds') -> agree (with_test c t) (with_test c' t).
Proof.
  intros H H'. apply read_inv in H. apply read_inv in H'.
  destruct H as ((_ & (j2 & A2 & B2) & (j3 & A3 & B3) & (j4 & m & A4 & B4 & C4) & _ & (j6 & A6 & B6) & (j7 & A7 & B7) & _) & _).
  destruct H' as ((_ & (i2 & A2' & B2') & (i3 & A3' & B3') & (i4 & m' & A4' & B4' & C4') & _ & (i6 & A6' & B6') & (i7 & A7' & B7') & _) & _).
  unfold agree, with_test. cbn [printed fields compared random_seed dev_set test_set].
  split; [congruence|]. split; [congruence|]. split; [congruence|]. split; [congruence|]. split; [congruence|reflexivity].
Qed.

Lemma under (k k' : string) s j : at_keys [k] s = Some j -> at_keys [k; k'] s = match item j (of_string k') with Ok v => Some v | Err _ => None end.
Proof.
  unfold at_keys. cbn [map]. rewrite !at_item. destruct (item s (of_string k)); [|discriminate]. intros H. cbn [at_path] in H. injection H as ->.
  rewrite at_item. destruct (item j (of_string k')); reflexivity.
Qed.

Lemma build_unshuffled clock delete name s fs c ds : unshuffled s -> read clock delete name s fs = Ok (c, ds) -> snd ds = None.
Proof.
  intros U H. apply read_inv in H. destruct H as ((_ & _ & _ & _ & (j & A & B) & _) & _). unfold build_dataset in B. inv B.
  unfold unshuffled in U. rewrite (under "train_set" "shuffler" s j A) in U. destruct (item j (of_string "shuffler")); [discriminate|]. injection B as <-. reflexivity.
Qed.

Lemma build_timeless clock clock' delete delete' name name' s fs fs' c ds c' ds' : timeless s ->
  read clock delete name s fs = Ok (c, ds) -> read clock' delete' name' s fs' = Ok (c', ds') -> ds = ds'.
Proof.
  intros T H H'. apply read_inv in H. apply read_inv in H'. destruct H as ((_ & _ & _ & _ & (j & A & B) & _) & _).
  destruct H' as ((_ & _ & _ & _ & (j' & A' & B') & _) & _). assert (j' = j) as -> by congruence.
  assert (build_dataset clock j = build_dataset clock' j); [|congruence]. unfold build_dataset.
  destruct (item j (of_string "path")) as [v|]; [|reflexivity]. cbn [bind]. destruct (string_of v); [|reflexivity]. cbn [bind].
  destruct T as [U|(z & T)].
  - unfold unshuffled in U. rewrite (under "train_set" "shuffler" s j A) in U. destruct (item j (of_string "shuffler")); [discriminate|reflexivity].
  - unfold at_keys in *. cbn [map] in *. rewrite at_item in T, A. destruct (item s (of_string "train_set")); [|discriminate]. cbn [at_path] in A. injection A as ->.
    rewrite at_item in T. destruct (item j (of_string "shuffler")) as [sh|]; [|discriminate]. destruct sh as [x|d]; [discriminate|]. cbn [at_path] in T.
    unfold shuffler_of. destruct (dict_get d (of_string "seed")); [|discriminate]. injection T as ->. reflexivity.
Qed.

Lemma read_seeds clock delete name s fs c ds zs : seeds_are s zs -> read clock delete name s fs = Ok (c, ds) -> runs_of (random_seed c) = zs.
Proof.
  intros S H. apply read_inv in H. destruct H as ((_ & _ & _ & _ & _ & _ & (j & A & B) & _) & _). destruct S as [(z & -> & S)|S].
  - assert (j = JLeaf (LInt z)) as -> by congruence. cbn in B. injection B as <-. reflexivity.
  - assert (j = JLeaf (LList (map LInt zs))) as -> by congruence. cbn [seeding_from] in B. rewrite ints_of_map in B. cbn in B. injection B as <-. reflexivity.
Qed.

Lemma read_prints clock delete name s fs c ds : prints s -> read clock delete name s fs = Ok (c, ds) -> printed c <> [].
Proof.
  intros (x & l & P) H. apply read_inv in H. destruct H as ((_ & (j & A & B) & _) & _). assert (j = JLeaf (LList (x :: l))) as -> by congruence.
  cbn [strings_of mapM] in B. inv B. injection B as <-. discriminate.
Qed.

Lemma read_judged clock delete name s fs c ds sc q : judged s sc q -> read clock delete name s fs = Ok (c, ds) -> worth (fields c) (compared c) sc q.
Proof.
  intros (fs0 & a & F & A & W) H. apply read_inv in H. destruct H as ((_ & _ & (j & A1 & B1) & (j' & m & A2 & B2 & C2) & _) & _).
  rewrite F in A1. injection A1 as <-. rewrite strings_of_map in B1. injection B1 as <-. rewrite A in A2. injection A2 as <-. cbn in B2. injection B2 as <-.
  rewrite attr_of_name in C2. injection C2 as <-. exact W.
Qed.

(* where the testers write *)
Lemma read_no_result clock delete name s fs c ds t p : no_result s p -> read clock delete name s fs = Ok (c, ds) -> read_test predict score s = Ok t ->
  ~ results_file (with_test c t) p.
Proof.
  intros N H T (te & nm & O & E & ->). apply read_inv in H. destruct H as ((_ & _ & _ & _ & _ & (j & A & B) & _) & _).
  cbn [with_test dev_set test_set] in O.
  assert (X : forall (k : string) j, at_keys [k] s = Some j -> build_tester predict score j = Ok te -> at_keys [k; "results_path"%string] s = Some (JLeaf (LStr (t_results te)))).
  { clear -E. intros k j A B. rewrite (under k _ s j A). unfold build_tester in B. inv B. injection B as <-. cbn [t_results] in *.
    destruct (item j (of_string "results_path")) as [r|]; [|injection E2 as <-; congruence]. destruct r as [r|d]; [|discriminate].
    destruct r; try discriminate; cbn in E2; injection E2 as <-; [congruence|reflexivity]. }
  destruct O as [->|O].
  - apply (N "dev_set"%string (t_results (dev_set c)) nm); auto; [left; reflexivity|]. eapply X; eauto.
  - unfold read_test in T. destruct (item s (of_string "test_set")) as [j'|] eqn:Ej; [|injection T as <-; discriminate]. inv T. injection T as <-. injection O as ->.
    apply (N "test_set"%string (t_results te) nm); auto; [right; left; reflexivity|]. eapply X; eauto. unfold at_keys. cbn [map]. rewrite at_item, Ej. reflexivity.
Qed.
End Read.
