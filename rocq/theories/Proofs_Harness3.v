(* Paths, the best epoch and the directories that are left *)
From Coq Require Import String Ascii ZArith NArith QArith Bool Lia Lqa Permutation List.
From Verif Require Import Base BaseFacts Proofs_Datamodel Proofs_Conllu3 Model_UDEval Model_Harness Spec_Harness Proofs_Harness Proofs_Harness2.
Import ListNotations.
Open Scope Z_scope.

(* ---- paths ---- *)

Definition slashless (s : str) : Prop := ~ In 47%N s.

Lemma print_slashless z : slashless (print_Z z).
Proof.
  intros I. pose proof (print_Z_chars z) as H. rewrite Forall_forall in H. apply H in I. unfold is_digit in I. destruct I; [lia|discriminate].
Qed.

Lemma slashless_app a b : slashless a -> slashless b -> slashless (a ++ b).
Proof. unfold slashless. rewrite in_app_iff. tauto. Qed.

Lemma params_slashless i : slashless (params_dir i).
Proof. apply slashless_app; [|apply print_slashless]. intros H. cbn in H. repeat (destruct H as [H|H]; [discriminate|]). destruct H. Qed.

Lemma epoch_slashless e : slashless (of_string "epoch-" ++ print_Z e).
Proof. apply slashless_app; [|apply print_slashless]. intros H. cbn in H. repeat (destruct H as [H|H]; [discriminate|]). destruct H. Qed.

Lemma seg_inj a b r r' : slashless a -> slashless b -> a ++ 47%N :: r = b ++ 47%N :: r' -> a = b /\ r = r'.
Proof.
  revert b. induction a as [|c a IH]; intros [|c' b] A B H.
  - cbn in H. injection H as ->. auto.
  - exfalso. cbn in H. injection H as <- _. apply B. left. reflexivity.
  - exfalso. cbn in H. injection H as -> _. apply A. left. reflexivity.
  - cbn in H. injection H as <- H. apply IH in H; [|intros I; apply A; right; auto|intros I; apply B; right; auto].
    destruct H as [-> ->]. auto.
Qed.

Lemma seg_end a b r : slashless b -> a ++ 47%N :: r <> b.
Proof. intros B <-. apply B. apply in_app_iff. right. left. reflexivity. Qed.

Lemma ends_slash c r : prefixb N.eqb (rev [slash]) (c :: r) = (c =? 47)%N.
Proof. cbn [rev app prefixb]. rewrite andb_true_r. apply N.eqb_sym. Qed.

Lemma path_join_based a b : slashless b -> path_join a b = based a b.
Proof.
  intros B. unfold path_join, based.
  assert (E : startswith b [slash] = false).
  { destruct (startswith b [slash]) eqn:E; auto. exfalso. apply startswith_iff in E. destruct E as (r & ->). apply B. left. reflexivity. }
  rewrite E. unfold endswith. destruct a as [|x a]; [reflexivity|].
  destruct (rev (x :: a)) as [|c r] eqn:R; [apply (f_equal (@rev char)) in R; rewrite rev_involutive in R; discriminate|].
  rewrite ends_slash. destruct (c =? 47)%N; reflexivity.
Qed.

Lemma based_plain a b : plain a -> based a b = inside a b.
Proof.
  intros P. unfold based, inside. destruct a as [|x a]; [reflexivity|].
  destruct (rev (x :: a)) as [|c r] eqn:R; [apply (f_equal (@rev char)) in R; rewrite rev_involutive in R; discriminate|].
  destruct (N.eqb_spec c 47) as [->|]; auto. exfalso. destruct (P (rev r)) as [_ H]. apply H.
  apply (f_equal (@rev char)) in R. rewrite rev_involutive in R. exact R.
Qed.

Lemma based_prefix base : exists b, forall p, based base p = b ++ p.
Proof.
  unfold based. destruct (rev base) as [|c r].
  - exists []. auto.
  - destruct (c =? 47)%N; [exists base; auto|]. exists (base ++ of_string "/"). intros p. rewrite <- app_assoc. reflexivity.
Qed.

Lemma plain_slashless s : slashless s -> plain s.
Proof.
  intros H d. split; intros ->; apply H.
  - left. reflexivity.
  - apply in_app_iff. right. left. reflexivity.
Qed.

(* a path that does not end with a slash *)
Lemma based_end a s b : s <> [] -> slashless s -> based (a ++ s) b = a ++ s ++ of_string "/" ++ b.
Proof.
  intros N H. unfold based. rewrite rev_app_distr. destruct (rev s) as [|c r] eqn:R.
  - exfalso. apply N. apply (f_equal (@rev char)) in R. rewrite rev_involutive in R. exact R.
  - cbn [app]. destruct (N.eqb_spec c 47) as [->|]; [|rewrite <- app_assoc; reflexivity].
    exfalso. apply H. apply (proj2 (in_rev s 47%N)). rewrite R. left. reflexivity.
Qed.

Lemma seed_path_inside dir seed : plain dir -> seed_path dir seed = inside dir (print_Z seed).
Proof. intros P. unfold seed_path. rewrite path_join_based by apply print_slashless. apply based_plain; auto. Qed.

Lemma based_inside dir seed b : plain dir -> based (inside dir (print_Z seed)) b = inside dir (print_Z seed) ++ of_string "/" ++ b.
Proof.
  intros P. unfold inside. destruct dir as [|c d].
  - change (print_Z seed) with ([] ++ print_Z seed) at 1. rewrite based_end; [reflexivity|apply print_Z_nonnil|apply print_slashless].
  - rewrite app_assoc, based_end by (apply print_Z_nonnil || apply print_slashless). rewrite <- !app_assoc. reflexivity.
Qed.

Lemma inside_nonnil dir name : name <> [] -> inside dir name <> [].
Proof. unfold inside. destruct dir; auto. discriminate. Qed.

Lemma epoch_dir_eq dir seed e : plain dir ->
  epoch_dir dir seed e = inside dir (print_Z seed) ++ of_string "/" ++ of_string "epoch-" ++ print_Z (Z.of_nat e).
Proof.
  intros P. unfold epoch_dir. pose proof (inside_nonnil dir _ (print_Z_nonnil seed)) as N.
  destruct (inside dir (print_Z seed)) as [|c r]; [congruence|]. reflexivity.
Qed.

Lemma epoch_path_dir dir seed e : plain dir -> epoch_path dir seed (Z.of_nat e) = epoch_dir dir seed e.
Proof.
  intros P. unfold epoch_path, epoch_name. rewrite seed_path_inside by auto.
  rewrite path_join_based by apply epoch_slashless. rewrite based_inside by auto. symmetry. apply epoch_dir_eq; auto.
Qed.

Lemma epoch_dir_inj dir seed e e' : plain dir -> epoch_dir dir seed e = epoch_dir dir seed e' -> e = e'.
Proof.
  intros P. rewrite !epoch_dir_eq by auto. intros H. do 3 apply app_inv_head in H. apply BaseFacts.print_Z_inj in H. lia.
Qed.

(* where the trainer saves is what is removed when the epoch is disposed *)
Lemma save_is_removed base dir seed e : plain dir ->
  save_path base dir seed (Z.of_nat e) = based base (epoch_dir dir seed e) /\
  removed_path base (epoch_dir dir seed e) = based base (epoch_dir dir seed e).
Proof.
  intros P. assert (PJ : forall a s, plain s -> path_join a s = based a s).
  { intros a s Ps. unfold path_join. destruct (startswith s [slash]) eqn:E.
    - apply startswith_iff in E. destruct E as (r & E). destruct (Ps r) as [N _]. exfalso; apply N; exact E.
    - unfold based, endswith. destruct a as [|x a]; [reflexivity|].
      destruct (rev (x :: a)) as [|c r] eqn:R; [apply (f_equal (@rev char)) in R; rewrite rev_involutive in R; discriminate|].
      rewrite ends_slash. destruct (c =? 47)%N; reflexivity. }
  assert (ins_plain : forall d n, plain d -> n <> [] -> slashless n -> plain (inside d n)).
  { intros d n Pd N Sn. unfold inside. destruct d as [|c d]; [apply plain_slashless; auto|]. intros x. split; intros H.
    - cbn in H. injection H as -> H. apply (proj1 (Pd d)). reflexivity.
    - rewrite app_assoc in H. destruct (exists_last N) as (n' & y & ->). rewrite app_assoc in H. apply app_inj_tail in H.
      destruct H as [_ ->]. apply Sn. apply in_app_iff. right. left. reflexivity. }
  pose proof (ins_plain _ _ P (print_Z_nonnil seed) (print_slashless seed)) as P1.
  assert (P2 : plain (epoch_dir dir seed e)) by (apply ins_plain; [auto|discriminate|apply epoch_slashless]).
  split; [|apply PJ; auto].
  unfold save_path. rewrite seed_path_inside by auto. rewrite (PJ base) by auto.
  rewrite path_join_based by apply epoch_slashless. rewrite epoch_dir_eq by auto.
  destruct (based_prefix base) as (b & Hb). rewrite !Hb.
  assert (G : exists u v, inside dir (print_Z seed) = u ++ v /\ v <> [] /\ slashless v).
  { unfold inside. destruct dir as [|c d].
    - exists [], (print_Z seed). split; [reflexivity|]. split; [apply print_Z_nonnil|apply print_slashless].
    - exists ((c :: d) ++ of_string "/"), (print_Z seed). split; [rewrite <- app_assoc; reflexivity|]. split; [apply print_Z_nonnil|apply print_slashless]. }
  destruct G as (u & v & -> & N & SV). rewrite app_assoc, based_end by auto. unfold epoch_name. rewrite <- !app_assoc. reflexivity.
Qed.

(* ---- the best epoch ---- *)

Definition kept_epoch {T} (dir : str) (seed : Z) (ys : list (table * T)) (m : nat) (d : list str) (best : option (T * table)) : Prop :=
  match best with
  | None => m = 0%nat /\ d = []
  | Some (x, sc) => exists i, (i < m)%nat /\ nth_error ys i = Some (sc, x) /\
      Permutation (epoch_dir dir seed i :: d) (map (epoch_dir dir seed) (seq 0 m))
  end.

Lemma loop_kept {T} metrics fields a dir seed (ys : list (table * T)) s e : plain dir ->
  epochs_loop metrics fields a (epoch_path dir seed) 0 ys (mkSel None []) = (s, e) ->
  exists m best, (m <= length ys)%nat /\ (e = None <-> m = length ys) /\
    kept_epoch dir seed ys m (sel_disposed s) best /\
    sel_best s = match best with None => None | Some (x, sc) => Some (x, Some sc, snd (match sel_best s with Some z => z | None => (x, Some sc, []) end)) end /\
    (forall qs, Forall2 (fun y q => worth fields a (fst y) q) ys qs -> m = length ys -> ys <> [] ->
       exists i x sc, best = Some (x, sc) /\ first_best qs i /\ nth_error ys i = Some (sc, x) /\
       Permutation (epoch_dir dir seed i :: sel_disposed s) (map (epoch_dir dir seed) (seq 0 (length ys)))).
Proof.
  intros PL H.
  destruct (epochs_loop_inv _ _ _ _ ys 0 _ s e [] [] 0%nat H (inv_start _) ltac:(intros q _; left; reflexivity))
    as (m & i & L & N & I & B). cbn [app] in I, B.
  assert (LF : length (firstn m ys) = m) by (apply firstn_length_le; lia).
  assert (PE : map i_path (eitems (epoch_path dir seed) 0 (firstn m ys)) = map (epoch_dir dir seed) (seq 0 m)).
  { rewrite eitems_paths, LF. apply map_ext. intros j. cbn [Z.add]. apply epoch_path_dir; auto. }
  unfold inv in I. destruct (sel_best s) as [[[x sc] p]|] eqn:SB.
  - destruct I as [NE PM]. rewrite eitems_nth in NE. destruct (nth_error (firstn m ys) i) as [[sc1 x1]|] eqn:E1; [|discriminate].
    cbn [option_map fst snd Z.add] in NE. injection NE as <- <- <-.
    assert (Li : (i < m)%nat) by (rewrite <- LF; apply nth_error_Some; congruence).
    rewrite nth_error_firstn_lt in E1 by auto. rewrite app_nil_r, PE in PM.
    rewrite epoch_path_dir in PM by auto.
    exists m, (Some (x1, sc1)). split; auto. split; auto. split; [exists i; split; auto; split; auto; symmetry; auto|]. split; [reflexivity|].
    intros qs F -> NE. rewrite firstn_all in B. destruct (B qs (worths_eitems _ _ _ _ _ 0 F)) as [E|FB].
    + exfalso. apply (f_equal (@length _)) in E. rewrite eitems_length in E. destruct ys; [congruence|discriminate].
    + exists i, x1, sc1. split; auto. split; auto. split; auto. symmetry. auto.
  - destruct I as [E PM]. apply (f_equal (@length _)) in E. rewrite eitems_length, LF in E. cbn in E. subst m.
    apply Permutation_nil in PM. exists 0%nat, None. split; auto. split; auto. split; [split; auto|]. split; auto.
    intros qs F E NE. destruct ys; [congruence|discriminate].
Qed.

Lemma seed_best {T} metrics fields a dir seed (ys : list (table * T)) qs : plain dir -> ys <> [] ->
  Forall2 (fun y q => printable metrics (fst y) /\ worth fields a (fst y) q) ys qs ->
  exists i sc tagger d,
    evaluate_seed metrics fields a dir seed (ys, None) = (d, Ok (Some tagger, inside dir (print_Z seed), Some sc)) /\
    first_best qs i /\ nth_error ys i = Some (sc, tagger) /\
    Permutation (epoch_dir dir seed i :: d) (map (epoch_dir dir seed) (seq 0 (length ys))).
Proof.
  intros PL NE F.
  assert (F' : Forall2 (fun y q => worth fields a (fst y) q) ys qs) by (eapply Forall2_impl; [|exact F]; cbn; tauto).
  destruct (epochs_loop_ok metrics fields a (epoch_path dir seed) ys 0 (mkSel None []) [] [] 0%nat [] qs (inv_start _)
     ltac:(intros q _; left; reflexivity) ltac:(constructor) F) as (s & E).
  destruct (loop_kept _ _ _ _ _ _ _ _ PL E) as (m & best & L & N & K & SB & B).
  assert (m = length ys) by (apply N; auto). subst m. destruct (B qs F' eq_refl NE) as (i & x & sc & -> & FB & EI & PM).
  exists i, sc, x, (sel_disposed s). split; [|auto].
  unfold evaluate_seed. cbn [fst snd]. rewrite E. cbn [bind]. unfold best_scores. rewrite SB. cbn [bind option_map fst snd].
  destruct (Forall2_nth _ _ _ _ _ F EI) as (q & _ & PR & _). cbn [fst] in PR. apply printable_ok in PR. rewrite PR. cbn [bind].
  rewrite seed_path_inside by auto. reflexivity.
Qed.

Lemma seed_any {T} metrics fields a dir seed (trained : gen (table * T)) d r : plain dir ->
  evaluate_seed metrics fields a dir seed trained = (d, r) ->
  exists m best, (m <= length (fst trained))%nat /\ kept_epoch dir seed (fst trained) m d best /\
    (forall tagger path scores, r = Ok (tagger, path, scores) ->
       m = length (fst trained) /\ tagger = option_map fst best /\ path = inside dir (print_Z seed) /\ scores = option_map snd best).
Proof.
  intros PL H. unfold evaluate_seed in H.
  destruct (epochs_loop metrics fields a (epoch_path dir seed) 0 (fst trained) (mkSel None [])) as [s e] eqn:E.
  injection H as <- <-. destruct (loop_kept _ _ _ _ _ _ _ _ PL E) as (m & best & L & N & K & SB & _).
  exists m, best. split; auto. split; auto. intros tagger path scores R. destruct e as [x|]; [discriminate|].
  destruct (snd trained); [discriminate|]. cbn [bind] in R. apply bind_ok_iff in R. destruct R as (u & _ & R). injection R as <- <- <-.
  split; [apply N; auto|]. rewrite seed_path_inside by auto. unfold best_scores.
  destruct best as [[x sc]|]; rewrite SB; cbn; auto.
Qed.

(* ---- what is left of a candidate ---- *)

Definition run_kept {T} (dir : str) (run : Z * gen (table * T)) (dm : list str * (option T * str)) : Prop :=
  (fst (snd run) = [] /\ fst dm = [] /\ snd dm = (None, inside dir (print_Z (fst run)))) \/
  exists i sc t, nth_error (fst (snd run)) i = Some (sc, t) /\ snd dm = (Some t, inside dir (print_Z (fst run))) /\
    Permutation (epoch_dir dir (fst run) i :: fst dm) (map (epoch_dir dir (fst run)) (seq 0 (length (fst (snd run))))).

Lemma seed_kept {T} metrics fields a dir seed (trained : gen (table * T)) d tg p sc : plain dir ->
  evaluate_seed metrics fields a dir seed trained = (d, Ok (tg, p, sc)) -> run_kept dir (seed, trained) (d, (tg, p)).
Proof.
  intros PL E. destruct (seed_any _ _ _ _ _ _ _ _ PL E) as (m & best & L & K & R).
  destruct (R _ _ _ eq_refl) as (-> & -> & -> & ->). unfold run_kept. cbn [fst snd]. destruct best as [[x sc1]|]; cbn [option_map fst].
  - right. destruct K as (i & _ & EI & PM). exists i, sc1, x. auto.
  - left. destruct K as [E0 ->]. apply length_zero_iff_nil in E0. auto.
Qed.

Lemma candidate_kept {T} metrics fields a dir (runs : seeding (Z * gen (table * T))) d models sc : plain dir ->
  evaluate_candidate metrics fields a dir runs = (d, Ok (models, sc)) ->
  exists pairs, Forall2 (run_kept dir) (runs_of runs) pairs /\ d = concat (map fst pairs) /\ models = map snd pairs.
Proof.
  intros PL H. destruct runs as [[seed trained]|l]; cbn [evaluate_candidate runs_of] in *.
  - destruct (evaluate_seed metrics fields a dir seed trained) as [d0 [[[tg p] sc0]|e]] eqn:E; [|discriminate].
    cbn [bind fst snd] in H. injection H as <- <- <-. exists [(d0, (tg, p))]. split; [|cbn; rewrite app_nil_r; auto].
    constructor; [|constructor]. eapply seed_kept; eauto.
  - unfold evaluate_average in H. destruct (evaluate_seeds metrics fields a dir l) as [d0 r] eqn:E.
    injection H as <- H. apply bind_ok_iff in H. destruct H as (xs & -> & H).
    apply bind_ok_iff in H. destruct H as (avg & _ & H). apply bind_ok_iff in H. destruct H as (u & _ & H). injection H as <- _.
    revert d0 xs E. induction l as [|[seed trained] l IH]; cbn [evaluate_seeds]; intros d0 xs E.
    + injection E as <- <-. exists []. cbn. split; [constructor|]. auto.
    + destruct (evaluate_seed metrics fields a dir seed trained) as [d1 [[[tg p] sc0]|e]] eqn:E1; [|discriminate].
      destruct (evaluate_seeds metrics fields a dir l) as [d2 r2] eqn:E2. injection E as <- E.
      apply bind_ok_iff in E. destruct E as (ys & -> & E). injection E as <-.
      destruct (IH _ _ eq_refl) as (pairs & F & -> & M). exists ((d1, (tg, p)) :: pairs). split; [|cbn; rewrite M; auto].
      constructor; auto. eapply seed_kept; eauto.
Qed.
