(* Files and their names in an experiment *)
From Coq Require Import String Ascii ZArith NArith QArith Bool Lia Permutation List.
From Verif Require Import Base BaseFacts Proofs_Datamodel Proofs_Conllu3 Model_UDEval Model_Harness Spec_Harness Proofs_Harness
  Proofs_Harness2 Proofs_Harness3 Proofs_Harness4 Model_Experiment Spec_Experiment.
Import ListNotations.
Open Scope Z_scope.

(* ---- removing ---- *)

Lemma dict_get_filter {A} (f : str -> bool) (d : dict A) k :
  dict_get (filter (fun e => f (fst e)) d) k = if f k then dict_get d k else None.
Proof.
  induction d as [|[k1 v] d IH]; cbn [filter dict_get fst]; [destruct (f k); reflexivity|].
  destruct (str_eqb k k1) eqn:E.
  - apply str_eqb_eq in E. subst k1. destruct (f k) eqn:F; cbn [dict_get]; [rewrite str_eqb_refl; reflexivity|exact IH].
  - destruct (f k1); cbn [dict_get]; rewrite ?E; exact IH.
Qed.

Lemma rmtree_get {M} d (fs : files M) p : d <> [] -> dict_get (rmtree d fs) p = if in_tree d p then None else dict_get fs p.
Proof.
  intros N. unfold rmtree. destruct d as [|x d]; [congruence|].
  rewrite (dict_get_filter (fun q => negb (in_tree (x :: d) q))). destruct (in_tree (x :: d) p); reflexivity.
Qed.

Lemma rmtree_nil {M} (fs : files M) : rmtree [] fs = fs.
Proof. reflexivity. Qed.

Lemma plain_start s : plain s -> startswith s [slash] = false.
Proof.
  intros P. destruct (startswith s [slash]) eqn:E; auto. apply startswith_iff in E. destruct E as (r & E). destruct (P r) as [N _]. exfalso; apply N; exact E.
Qed.

Lemma path_join_plain a s : plain s -> path_join a s = based a s.
Proof.
  intros P. unfold path_join. rewrite (plain_start _ P). unfold based, endswith. destruct a as [|x a]; [reflexivity|].
  destruct (rev (x :: a)) as [|c r] eqn:R; [apply (f_equal (@rev char)) in R; rewrite rev_involutive in R; discriminate|].
  rewrite ends_slash. destruct (c =? 47)%N; reflexivity.
Qed.

Lemma based_nonnil a s : s <> [] -> based a s <> [].
Proof. intros N. destruct (based_prefix a) as (b & ->). destruct b; auto. discriminate. Qed.

(* a name that does not end with a slash *)
Definition closed (s : str) : Prop := s <> [] /\ forall d, s <> d ++ of_string "/".

Lemma closed_app a s : closed s -> closed (a ++ s).
Proof.
  intros [N H]. split; [destruct a; [auto|discriminate]|]. intros d E.
  destruct (exists_last N) as (s' & x & ->). rewrite app_assoc in E. apply app_inj_tail in E. destruct E as [_ ->]. apply (H s'). reflexivity.
Qed.
Lemma closed_based a s : closed s -> closed (based a s).
Proof. intros H. destruct (based_prefix a) as (b & ->). apply closed_app; auto. Qed.
Lemma slashless_closed s : s <> [] -> slashless s -> closed s.
Proof. intros N H. split; auto. intros d ->. apply H. apply in_app_iff. right. left. reflexivity. Qed.

Lemma closed_dir d : closed d -> path_join d [] = d ++ of_string "/".
Proof.
  intros [N H]. unfold path_join. cbn [startswith]. change (startswith [] [slash]) with false. cbv iota.
  unfold endswith. destruct d as [|x d]; [congruence|].
  destruct (rev (x :: d)) as [|c r] eqn:R; [apply (f_equal (@rev char)) in R; rewrite rev_involutive in R; discriminate|].
  rewrite ends_slash. destruct (N.eqb_spec c 47) as [->|]; [|reflexivity].
  exfalso. apply (H (rev r)). apply (f_equal (@rev char)) in R. rewrite rev_involutive in R. exact R.
Qed.

Lemma in_tree_closed d p : closed d -> in_tree d p = true <-> at_or_below d p.
Proof.
  intros C. unfold in_tree, at_or_below. rewrite orb_true_iff, str_eqb_eq, (closed_dir _ C). split.
  - intros [->|H]; [left; auto|]. right. apply startswith_iff in H. destruct H as (r & ->). exists r. rewrite <- app_assoc. auto.
  - intros [->|(r & ->)]; [left; auto|]. right. apply startswith_iff. exists r. rewrite <- app_assoc. auto.
Qed.

Lemma based_slash d r : based d r = (if match d with [] => true | _ => endswith d [slash] end then d else d ++ of_string "/") ++ r.
Proof.
  unfold based, endswith. destruct d as [|x d]; [reflexivity|].
  destruct (rev (x :: d)) as [|c l] eqn:R; [apply (f_equal (@rev char)) in R; rewrite rev_involutive in R; discriminate|].
  rewrite ends_slash. destruct (c =? 47)%N; [reflexivity|rewrite <- app_assoc; reflexivity].
Qed.

Lemma in_tree_within d p : d <> [] -> in_tree d p = true <-> within d p.
Proof.
  intros N. unfold in_tree, within. rewrite orb_true_iff, str_eqb_eq.
  assert (J : path_join d [] = based d []) by (apply path_join_based; intros []). rewrite J.
  assert (E : forall r, based d r = based d [] ++ r) by (intros r; rewrite !based_slash, app_nil_r; reflexivity).
  rewrite startswith_iff. split.
  - intros [->|(r & ->)]; (split; [auto|]); [left; auto|]. right. exists r. symmetry. apply E.
  - intros [_ [->|(r & ->)]]; auto. right. exists r. apply E.
Qed.

Lemma rmtree_within {M} d (fs : files M) p : ~ within d p -> dict_get (rmtree d fs) p = dict_get fs p.
Proof.
  intros H. destruct d as [|x d]; [reflexivity|]. rewrite rmtree_get by discriminate.
  destruct (in_tree (x :: d) p) eqn:E; auto. apply in_tree_within in E; [contradiction|discriminate].
Qed.
Lemma rmtree_gone {M} d (fs : files M) p : within d p -> dict_get (rmtree d fs) p = None.
Proof.
  intros H. assert (N : d <> []) by apply H. rewrite rmtree_get by auto. apply in_tree_within in H; auto. rewrite H. auto.
Qed.

(* what is disposed: the directory of a candidate or of an epoch *)
Definition candidate_path (d : str) : Prop := exists k, d = params_dir k \/ exists z e, d = epoch_dir (params_dir k) z e.

Lemma params_nonnil k : params_dir k <> [].
Proof. discriminate. Qed.

Lemma candidate_path_plain d : candidate_path d -> plain d /\ closed d.
Proof.
  intros (k & [->|(z & e & ->)]).
  - split; [apply plain_slashless, params_slashless|apply slashless_closed; [discriminate|apply params_slashless]].
  - assert (C : closed (epoch_dir (params_dir k) z e)).
    { rewrite epoch_dir_params. change (47%N :: print_Z z ++ 47%N :: of_string "epoch-" ++ print_Z (Z.of_nat e)) with
        (([47%N] ++ print_Z z) ++ [47%N] ++ of_string "epoch-" ++ print_Z (Z.of_nat e)).
      do 3 apply closed_app. apply slashless_closed; [discriminate|apply epoch_slashless]. }
    split; auto. intros d. split; [|apply C]. rewrite epoch_dir_params. discriminate.
Qed.

Lemma dispose_path {M} base d (fs : files M) p : candidate_path d -> ~ at_or_below (based base d) p ->
  dict_get (rmtree (path_join base d) fs) p = dict_get fs p.
Proof.
  intros G H. destruct (candidate_path_plain _ G) as [PL CL]. rewrite path_join_plain by auto.
  rewrite rmtree_get by (apply based_nonnil, CL). destruct (in_tree (based base d) p) eqn:E; auto.
  apply in_tree_closed in E; [contradiction|]. apply closed_based; auto.
Qed.

Lemma dispose_list {M} base l : forall (fs : files M) p, Forall candidate_path l -> ~ gone base l p ->
  dict_get (fold_left (fun fs d => rmtree (path_join base d) fs) l fs) p = dict_get fs p.
Proof.
  induction l as [|d l IH]; intros fs p F H; cbn [fold_left]; auto. inversion F; subst.
  rewrite IH; auto.
  - apply dispose_path; auto. intros B. apply H. exists d. split; [left; auto|auto].
  - intros (d' & I & B). apply H. exists d'. split; [right; auto|auto].
Qed.

(* ---- names ---- *)

Lemma seed_dir_path k z : seed_path (params_name (Z.of_nat k)) z = seed_dir k z.
Proof.
  rewrite <- params_dir_name, seed_path_inside by (apply plain_slashless, params_slashless). unfold inside, seed_dir.
  pose proof (params_nonnil k). destruct (params_dir k); [congruence|]. reflexivity.
Qed.

Lemma inside_params k s : inside (params_dir k) s = params_dir k ++ of_string "/" ++ s.
Proof. unfold inside. pose proof (params_nonnil k). destruct (params_dir k); [congruence|]. reflexivity. Qed.

Lemma seed_dir_join k z s : slashless s -> path_join (seed_dir k z) s = seed_dir k z ++ of_string "/" ++ s.
Proof.
  intros S. rewrite path_join_based by auto. unfold seed_dir. rewrite app_assoc, based_end by (apply print_Z_nonnil || apply print_slashless).
  rewrite <- !app_assoc. reflexivity.
Qed.

Lemma seed_dir_plain k z s : s <> [] -> slashless s -> plain (seed_dir k z ++ of_string "/" ++ s).
Proof.
  intros N S d. split; intros H.
  - unfold seed_dir, params_dir in H. discriminate.
  - destruct (exists_last N) as (s' & x & ->). rewrite !app_assoc in H. apply app_inj_tail in H. destruct H as [_ ->].
    apply S. apply in_app_iff. right. left. reflexivity.
Qed.

Lemma dev_slashless e : slashless (epoch_name e ++ of_string "-dev.conll").
Proof. apply slashless_app; [apply epoch_slashless|]. intros H. cbn in H. repeat (destruct H as [H|H]; [discriminate|]). destruct H. Qed.
Lemma best_slashless : slashless (of_string "best-test.conll").
Proof. intros H. cbn in H. repeat (destruct H as [H|H]; [discriminate|]). destruct H. Qed.

Lemma app_nonnil {A} (a b : list A) : b <> [] -> a ++ b <> [].
Proof. destruct a; auto. discriminate. Qed.

Lemma dev_name_file {M} (c : settings M) k z e : path_join (t_results (dev_set c)) (dev_name (seed_dir k z) (Z.of_nat e)) = dev_file c k z e.
Proof.
  unfold dev_name, dev_file. rewrite seed_dir_join by apply dev_slashless. rewrite path_join_plain.
  - reflexivity.
  - apply seed_dir_plain; [discriminate|apply dev_slashless].
Qed.

Lemma test_name_file {M} (t : tester M) k z : path_join (t_results t) (path_join (seed_dir k z) (of_string "best-test.conll")) = test_file t k z.
Proof.
  rewrite seed_dir_join by apply best_slashless. rewrite path_join_plain; [reflexivity|]. apply seed_dir_plain; [discriminate|apply best_slashless].
Qed.

Lemma save_file {M} (c : settings M) k z e : save_path (model_dir c) (params_name (Z.of_nat k)) z (Z.of_nat e) = model_file c k z e.
Proof. rewrite <- params_dir_name. apply save_is_removed. apply plain_slashless, params_slashless. Qed.

Lemma based_inj d a b : based d a = based d b -> a = b.
Proof. destruct (based_prefix d) as (x & H). rewrite !H. apply app_inv_head. Qed.

Lemma epoch_dir_all_inj k z e k' z' e' : epoch_dir (params_dir k) z e = epoch_dir (params_dir k') z' e' -> k = k' /\ z = z' /\ e = e'.
Proof.
  intros H. assert (B : at_or_below (epoch_dir (params_dir k') z' e') (epoch_dir (params_dir k) z e)) by (left; auto).
  apply below_epoch in B. intuition auto.
Qed.

Lemma model_file_inj {M} (c : settings M) k z e k' z' e' : model_file c k z e = model_file c k' z' e' -> k = k' /\ z = z' /\ e = e'.
Proof. intros H. apply based_inj in H. apply epoch_dir_all_inj in H. auto. Qed.

Lemma seed_dir_inj k z k' z' r r' : seed_dir k z ++ of_string "/" ++ r = seed_dir k' z' ++ of_string "/" ++ r' -> k = k' /\ z = z' /\ r = r'.
Proof.
  unfold seed_dir. rewrite <- !app_assoc. intros H.
  apply seg_inj in H; try apply params_slashless. destruct H as [H1 H]. apply seg_inj in H; try apply print_slashless. destruct H as [H2 H].
  apply params_dir_inj in H1. apply BaseFacts.print_Z_inj in H2. auto.
Qed.

Lemma dev_file_inj {M} (c : settings M) k z e k' z' e' : dev_file c k z e = dev_file c k' z' e' -> k = k' /\ z = z' /\ e = e'.
Proof.
  intros H. apply based_inj in H. change (of_string "/epoch-") with (of_string "/" ++ of_string "epoch-") in H.
  rewrite <- !app_assoc in H. apply seed_dir_inj in H. destruct H as (-> & -> & H). apply app_inv_head in H.
  apply app_inv_tail in H. apply BaseFacts.print_Z_inj in H. split; [|split]; auto. lia.
Qed.

Lemma test_file_inj {M} (t : tester M) k z k' z' : test_file t k z = test_file t k' z' -> k = k' /\ z = z'.
Proof. intros H. apply based_inj in H. change (of_string "/best-test.conll") with (of_string "/" ++ of_string "best-test.conll") in H. apply seed_dir_inj in H. tauto. Qed.

(* models end with a digit, predictions do not *)
Lemma app_last {A} (a b : list A) x y : a ++ [x] = b ++ [y] -> x = y.
Proof. intros H. apply app_inj_tail in H. tauto. Qed.

Lemma model_last {M} (c : settings M) k z e : exists s x, model_file c k z e = s ++ [x] /\ x <> 108%N.
Proof.
  unfold model_file. rewrite epoch_dir_params. destruct (exists_last (print_Z_nonnil (Z.of_nat e))) as (s & x & E).
  destruct (based_prefix (model_dir c)) as (b & HB). rewrite HB, E.
  exists (b ++ params_dir k ++ 47%N :: print_Z z ++ 47%N :: of_string "epoch-" ++ s), x. split.
  - rewrite <- !app_assoc. f_equal. f_equal. cbn [app]. rewrite <- !app_assoc. reflexivity.
  - pose proof (print_Z_chars (Z.of_nat e)) as H. rewrite E in H. apply Forall_app in H. destruct H as [_ H]. inversion H as [|? ? D _]; subst.
    intros ->. unfold is_digit in D. destruct D as [D|D]; [lia|discriminate].
Qed.

Definition prediction (p : str) : Prop := exists s, p = s ++ [108%N].

Lemma model_no_prediction {M} (c : settings M) k z e : ~ prediction (model_file c k z e).
Proof.
  intros (s & H). destruct (model_last c k z e) as (s' & x & E & N). rewrite E in H. apply N. eapply app_last; eauto.
Qed.
Lemma dev_prediction {M} (c : settings M) k z e : prediction (dev_file c k z e).
Proof.
  unfold dev_file. destruct (based_prefix (t_results (dev_set c))) as (b & ->).
  exists (b ++ seed_dir k z ++ of_string "/epoch-" ++ print_Z (Z.of_nat e) ++ of_string "-dev.conl").
  change (of_string "-dev.conll") with (of_string "-dev.conl" ++ [108%N]). rewrite <- !app_assoc. reflexivity.
Qed.
Lemma test_prediction {M} (t : tester M) k z : prediction (test_file t k z).
Proof.
  unfold test_file. destruct (based_prefix (t_results t)) as (b & ->). exists (b ++ seed_dir k z ++ of_string "/best-test.conl").
  change (of_string "/best-test.conll") with (of_string "/best-test.conl" ++ [108%N]). rewrite <- !app_assoc. reflexivity.
Qed.
