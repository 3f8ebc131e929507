(* What tasks and whole networks declare *)
From Coq Require Import String Ascii ZArith NArith Bool Lia List.
From Verif Require Import Base BaseFacts Model_Graph Spec_Graph Proofs_Graph Proofs_Graph2 Proofs_Graph3.
Import ListNotations.
Open Scope Z_scope.

Lemma NoDup_app_intro {A} (l m : list A) : NoDup l -> NoDup m -> (forall x, In x l -> ~ In x m) -> NoDup (l ++ m).
Proof.
  induction 1 as [|x l N _ IH]; cbn [app]; intros M D; auto. constructor.
  - rewrite in_app_iff. intros [I|I]; [auto|]. apply (D x); [left; auto|auto].
  - apply IH; auto. intros y Y. apply D. right; auto.
Qed.
Lemma NoDup_app_r {A} (l m : list A) : NoDup (l ++ m) -> NoDup m.
Proof. induction l; cbn; auto. intros H. inversion H; auto. Qed.
Lemma NoDup_app_disjoint {A} (l m : list A) : NoDup (l ++ m) -> forall x, In x l -> ~ In x m.
Proof.
  induction l as [|y l IH]; cbn [app In]; intros H x; [tauto|]. inversion H; subst. intros [<-|I]; [|apply IH; auto].
  intros M. apply H2. apply in_or_app; auto.
Qed.

(* ---- what the encoder provides ---- *)

Lemma get_In (d : dict Z) k v : NoDup (map fst d) -> (dict_get d k = Some v <-> In (k, v) d).
Proof.
  induction d as [|[k1 v1] d IH]; cbn [map fst dict_get In]; intros N; [split; [discriminate|tauto]|]. inversion N; subst.
  destruct (str_eqb k k1) eqn:E.
  - apply str_eqb_eq in E. subst k1. split; [intros X; injection X as ->; auto|]. intros [X|X]; [congruence|].
    exfalso. apply H1. apply (in_map fst) in X. auto.
  - rewrite IH by auto. split; auto. intros [X|X]; auto. injection X as -> ->. rewrite str_eqb_refl in E. discriminate.
Qed.

Definition extra (f : features) (e : encoder) : dict Z :=
  match e with
  | WE_charCNN => []
  | BiLSTM cell layers sk => (of_string "bilstm", 2 * cell) :: skip_dict "bilstm_and_word_features" sk (2 * cell) (word_size f)
  | BiLSTM_CNN cell layers sk ks => ((of_string "bilstm", 2 * cell) :: skip_dict "bilstm_and_word_features" sk (2 * cell) (word_size f)) ++
      [(of_string "bilstm_cnn", out_channels ks 0)]
  | Dilated_CNN None sk => []
  | Dilated_CNN (Some ks) sk => (of_string "dilated_cnn", out_channels ks 0) ::
      skip_dict "dilated_cnn_and_word_features" sk (out_channels ks 0) (word_size f)
  end.
Lemma enc_dict_eq f e : enc_cond f e -> enc_dict f e = pieces_dict (pieces f) ++ [(of_string "word_features", word_size f)] ++ extra f e.
Proof.
  destruct e as [|cell layers sk|cell layers sk ks|[ks|] sk]; cbn [enc_cond enc_dict extra]; unfold bil_dict, word_dict; intros C; try tauto;
    rewrite <- ?app_assoc; reflexivity.
Qed.

Lemma extra_NoDup f e : NoDup (map fst ([(of_string "word_features", word_size f)] ++ extra f e)).
Proof.
  destruct e as [|cell layers sk|cell layers sk ks|[ks|] sk]; try destruct sk; cbn [extra skip_dict app map fst];
    repeat (constructor; [cbn [In]; intros H; repeat (destruct H as [H|H]; [discriminate|]); exact H|]); constructor.
Qed.
Lemma extra_names f e : incl (map fst ([(of_string "word_features", word_size f)] ++ extra f e))
  [of_string "word_features"; of_string "bilstm"; of_string "bilstm_and_word_features"; of_string "bilstm_cnn"; of_string "dilated_cnn"; of_string "dilated_cnn_and_word_features"].
Proof.
  intros x. destruct e as [|cell layers sk|cell layers sk ks|[ks|] sk]; try destruct sk; cbn [extra skip_dict app map fst In]; intuition auto.
Qed.
Lemma enc_NoDup f e : enc_cond f e -> NoDup (map fst (enc_dict f e)).
Proof.
  intros C. rewrite enc_dict_eq by auto. rewrite map_app. apply NoDup_app_intro.
  - unfold pieces_dict. rewrite map_map. apply names_NoDup.
  - apply extra_NoDup.
  - intros x I J. apply feature_names in I. apply extra_names in J. cbn [In] in I, J.
    repeat (destruct I as [I|I]; [subst x; repeat (destruct J as [J|J]; [discriminate|]); exact J|]). exact I.
Qed.

Lemma pieces_dict_In f name m : Forall p_cond (pieces f) -> (In (name, m) (pieces_dict (pieces f)) <-> feature_of f name m).
Proof.
  intros C. rewrite feature_of_iff. unfold pieces_dict. rewrite in_map_iff. rewrite Forall_forall in C. split.
  - intros (p & E & I). injection E as <- <-. exists p. auto.
  - intros (p & I & _ & <- & <-). eauto.
Qed.

Lemma skip_dict_In name sk out words k n : In (k, n) (skip_dict name sk out words) <-> k = of_string name /\ skipped sk out words n.
Proof.
  destruct sk; cbn [skip_dict skipped In]; try tauto.
  - split; [intros [E|[]]; injection E as <- <-; auto|intros [-> ->]; auto].
  - split; [intros [E|[]]; injection E as <- <-; auto|intros [-> ->]; auto].
Qed.

Lemma provides_iff f e name n : Forall p_cond (pieces f) -> enc_cond f e -> (provides f e name n <-> dict_get (enc_dict f e) name = Some n).
Proof.
  intros C D. rewrite get_In by (apply enc_NoDup; auto). rewrite enc_dict_eq by auto. rewrite !in_app_iff, pieces_dict_In by auto.
  assert (W : forall w, words_size f w <-> w = word_size f) by (intros w; apply words_size_iff; auto).
  split.
  - intros H. inversion H; subst; cbn [extra In]; rewrite ?in_app_iff; cbn [In]; rewrite ?skip_dict_In;
      repeat match goal with
      | X : words_size f _ |- _ => apply W in X; subst
      | X : ends_with _ _ |- _ => apply ends_with_iff in X; destruct X as [? ->]
      end; auto 8.
  - intros [H|[[H|[]]|H]]; [apply provides_feature; auto|injection H as <- <-; apply provides_words; apply W; auto|].
    destruct e as [|cell layers sk|cell layers sk ks|[ks|] sk]; cbn [extra] in H; cbn [enc_cond] in D; try destruct H as [].
    + injection H as <- <-. apply provides_bilstm.
    + apply skip_dict_In in H. destruct H as [-> H]. apply provides_bilstm_skip with (w := word_size f); auto. apply W; auto.
    + injection H as <- <-. apply provides_bilstm2.
    + apply in_app_iff in H. destruct H as [H|[H|[]]].
      * apply skip_dict_In in H. destruct H as [-> H]. apply provides_bilstm_skip2 with (w := word_size f); auto. apply W; auto.
      * injection H as <- <-. apply provides_cnn. apply ends_with_iff. tauto.
    + injection H as <- <-. apply provides_dilated. apply ends_with_iff. tauto.
    + apply skip_dict_In in H. destruct H as [-> H]. apply provides_dilated_skip with (w := word_size f) (n := out_channels ks 0); auto.
      * apply ends_with_iff. tauto.
      * apply W; auto.
Qed.

(* ---- tasks ---- *)

Definition rsize (shared : dict Z) (name : str) : Z := match dict_get shared name with Some n => n | None => 0 end.
Lemma meets_read shared name : meets (read_shared shared name) (exists n, dict_get shared name = Some n) (rsize shared name) (fun _ => []) 0.
Proof.
  intros g n I. unfold read_shared, rsize. destruct (dict_get shared name) as [m|].
  - pose proof (meets_ret m g n I) as H. cbn in H. intuition eauto.
  - intros [(m & E) _]. discriminate.
Qed.

Lemma part_scope_default i (r : string) k j : part_scope (Z.of_nat i) r k <> default_scope j.
Proof.
  unfold part_scope. destruct (print_digit i) as (c & rest & -> & D). intros E. cbn [app] in E.
  assert (c = 100%N) by (destruct j; unfold default_scope in E; spell E; cbn [app] in E; injection E; auto). subst c. unfold is_digit in D. lia.
Qed.

Fixpoint parts_decl (k : label_kind) (input dense_size : Z) (i : nat) (parts : list Z) : decl :=
  match parts with
  | [] => []
  | n :: rest => (KPart i k false false, [input; dense_size]) :: (KPart i k false true, [dense_size]) ::
                 (KPart i k true false, [dense_size; n]) :: (KPart i k true true, [n]) :: parts_decl k input dense_size (S i) rest
  end.
Lemma meets_parts k shared name ds parts : forall i,
  meets (dense_parts k shared name ds (Z.of_nat i) parts) (parts = [] \/ exists n, dict_get shared name = Some n) tt
        (fun _ => parts_decl k (rsize shared name) ds i parts) 0.
Proof.
  induction parts as [|p parts IH]; intros i; cbn [dense_parts].
  - eapply meets_eq; [apply meets_ret|tauto|auto].
  - replace (Z.of_nat i + 1) with (Z.of_nat (S i)) by lia.
    eapply meets_eq; [eapply meets_bind; [apply meets_read|intros _; eapply meets_bind;
      [apply (meets_named _ (KPart i k false false) (KPart i k false true)); [apply part_scope_default|reflexivity|reflexivity]|intros _; eapply meets_bind;
      [apply (meets_named _ (KPart i k true false) (KPart i k true true)); [apply part_scope_default|reflexivity|reflexivity]|intros _; apply IH]]]|..].
    + split; [tauto|]. intros [H|H]; [discriminate|tauto].
    + intros _. cbn. auto.
Qed.

Definition exists_in (shared : dict Z) (name : str) : Prop := exists n, dict_get shared name = Some n.
Definition task_cond (shared : dict Z) (t : task) : Prop :=
  match t with
  | Dense _ name _ parts => parts <> [] /\ exists_in shared name
  | Combo name _ embed ds ks hw _ => exists_in shared name /\ (hw = true -> combines embed (out_channels ks (embed + ds)))
  | Binary _ _ _ => False
  end.
Definition task_bump (t : task) : nat := match t with Combo _ _ _ _ _ true _ => 1%nat | _ => 0%nat end.
Definition task_decl (shared : dict Z) (t : task) (n : nat) : decl :=
  match t with
  | Dense k name ds parts => parts_decl k (rsize shared name) ds 0 parts
  | Combo name rows embed ds ks hw outputs =>
      let m := out_channels ks (embed + ds) in
      (KInputE, [rows; embed]) :: (KDenseCnn false, [rsize shared name; ds]) :: (KDenseCnn true, [ds]) :: conv_decl KKernel 0 ks (embed + ds) ++
      (if hw then unnamed_decl embed embed n else []) ++ [(KOutput, [1; 1; (if hw then bsize (bsize embed m) embed else m); outputs])]
  | Binary _ _ _ => []
  end.

Lemma dense_cnn_default i : of_string "dense_cnn" <> default_scope i.
Proof.
  destruct i as [|i]; unfold default_scope; intros E; [discriminate|]. destruct (print_digit (S i)) as (c & r & P & D). rewrite P in E.
  spell E. cbn [app] in E. injection E as <- _. unfold is_digit in D. lia.
Qed.

Lemma meets_task shared t : meets (build_task shared t) (task_cond shared t) tt (task_decl shared t) (task_bump t).
Proof.
  destruct t as [k name ds parts|name rows embed ds ks hw outputs|name ds rules]; cbn [build_task task_cond].
  - eapply meets_eq; [eapply meets_bind; [apply (meets_parts k shared name ds parts 0)|intros _]|..].
    + instantiate (1 := 0%nat). instantiate (1 := fun _ => []). instantiate (1 := tt). instantiate (1 := parts <> []).
      destruct parts; [eapply meets_eq; [apply (meets_raise EValue tt (fun _ => []) 0)|tauto|tauto]|].
      eapply meets_eq; [apply meets_ret|split; [discriminate|auto]|auto].
    + unfold exists_in. tauto.
    + intros _. split; auto. split; auto. intros n. apply app_nil_r.
  - set (m := out_channels ks (embed + ds)).
    eapply meets_eq; [eapply meets_bind; [apply meets_read|intros _; eapply meets_bind; [apply (meets_var KInputE); reflexivity|intros _; eapply meets_bind;
      [apply (meets_named _ (KDenseCnn false) (KDenseCnn true)); [apply dense_cnn_default|reflexivity|reflexivity]|intros _; eapply meets_bind;
      [apply (meets_conv KKernel _ 0); reflexivity|intros _; eapply meets_bind; [|intros _; apply (meets_var KOutput); reflexivity]]]]]|..].
    + fold m. instantiate (1 := if hw then 1%nat else 0%nat).
      instantiate (1 := fun n => if hw then unnamed_decl embed embed n else []).
      instantiate (1 := if hw then bsize (bsize embed m) embed else m). instantiate (1 := hw = true -> combines embed m).
      destruct hw.
      * eapply meets_eq; [apply meets_highway|split; auto|auto].
      * eapply meets_eq; [apply meets_ret|split; [discriminate|auto]|auto].
    + unfold exists_in. tauto.
    + intros _. split; auto. split; [destruct hw; reflexivity|]. intros n. cbn [app]. rewrite !Nat.add_0_r. reflexivity.
  - eapply meets_eq; [eapply meets_bind; [apply meets_read|intros _; eapply meets_bind;
      [apply (meets_named _ (KBinary false) (KBinary true)); [|reflexivity|reflexivity]|intros _; apply (meets_raise EType tt (fun _ => []) 0)]]|tauto|tauto].
    intros i E. destruct i as [|i]; unfold default_scope in E; [discriminate|]. destruct (print_digit (S i)) as (c & r & P & D). rewrite P in E.
    spell E. cbn [app] in E. injection E as <- _. unfold is_digit in D. lia.
Qed.

Fixpoint tasks_decl (shared : dict Z) (ts : list task) (n : nat) : decl :=
  match ts with [] => [] | t :: ts' => task_decl shared t n ++ tasks_decl shared ts' (n + task_bump t) end.
Definition tasks_bump (ts : list task) : nat := fold_right (fun t n => (task_bump t + n)%nat) 0%nat ts.
Lemma meets_tasks shared ts : meets (build_tasks shared ts) (Forall (task_cond shared) ts) tt (tasks_decl shared ts) (tasks_bump ts).
Proof.
  induction ts as [|t ts IH]; cbn [build_tasks].
  - eapply meets_eq; [apply meets_ret|split; constructor|auto].
  - eapply meets_eq; [eapply meets_bind; [apply meets_task|intros _; apply IH]|..].
    + rewrite Forall_cons_iff. tauto.
    + intros _. auto.
Qed.

(* ---- the whole network ---- *)

Definition all_decl (f : features) (e : encoder) (ts : list task) : decl :=
  (pieces_decl (pieces f) 0 ++ enc_decl f e) ++ tasks_decl (enc_dict f e) ts (pieces_bump (pieces f)).
Definition all_cond (known : bool) (f : features) (e : encoder) (ts : list task) : Prop :=
  known = true /\ (pieces f <> [] /\ Forall p_cond (pieces f)) /\ enc_cond f e /\ ts <> [] /\ Forall (task_cond (enc_dict f e)) ts.

Lemma meets_build (known : bool) f e ts :
  meets (let! shared := shared_layers f e in let! _ := build_tasks shared ts in
                     match ts with [] => raise EValue | _ => if known then ret tt else raise EValue end)
                    (all_cond known f e ts) tt (fun n => (pieces_decl (pieces f) n ++ enc_decl f e) ++ tasks_decl (enc_dict f e) ts (n + pieces_bump (pieces f)))
                    (pieces_bump (pieces f) + tasks_bump ts).
Proof.
  eapply meets_eq; [eapply meets_bind; [apply meets_shared|intros _; eapply meets_bind; [apply meets_tasks|intros _]]|..].
  - instantiate (1 := 0%nat). instantiate (1 := fun _ => []). instantiate (1 := tt). instantiate (1 := ts <> [] /\ known = true).
    destruct ts as [|t ts]; [eapply meets_eq; [apply (meets_raise EValue tt (fun _ => []) 0)|tauto|tauto]|]. destruct known.
    + eapply meets_eq; [apply meets_ret|split; [split; [discriminate|auto]|auto]|auto].
    + eapply meets_eq; [apply (meets_raise EValue tt (fun _ => []) 0)|split; [tauto|intros [_ X]; discriminate]|auto].
  - unfold all_cond. tauto.
  - intros _. split; auto. split; [lia|]. intros n. rewrite app_nil_r. reflexivity.
Qed.

Lemma build_iff known f e ts g : build known f e ts = Ok g ->
  all_cond known f e ts /\ variables g = vars_of (all_decl f e ts) /\ NoDup (names_of (all_decl f e ts)).
Proof.
  unfold build. intros H.
  pose proof (meets_build known f e ts) as M.
  assert (I : inv (mkGraph [] []) 0).
  { split; [constructor|]. split; [|cbn; lia]. intros k. cbn. lia. }
  specialize (M _ _ I). match type of M with match ?x with _ => _ end => destruct x as [[u g']|err] end; cbn in H; [|discriminate].
  injection H as ->. destruct M as (C & _ & V & N & _). cbn in V, N. auto.
Qed.

Lemma build_possible known f e ts : all_cond known f e ts -> NoDup (names_of (all_decl f e ts)) -> exists g, build known f e ts = Ok g.
Proof.
  unfold build. intros C N.
  pose proof (meets_build known f e ts) as M.
  assert (I : inv (mkGraph [] []) 0).
  { split; [constructor|]. split; [|cbn; lia]. intros k. cbn. lia. }
  specialize (M _ _ I). match type of M with match ?x with _ => _ end => destruct x as [[u g']|err] end; cbn; [eauto|].
  destruct M. split; auto.
Qed.
