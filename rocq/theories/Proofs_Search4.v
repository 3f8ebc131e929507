(* Hyperparameters alone and among others, and grids *)
From Coq Require Import String Ascii ZArith NArith QArith Bool Lia List.
From Verif Require Import Base BaseFacts Proofs_Datamodel Model_Datamodel Model_UDEval Model_Harness Spec_Harness Proofs_Harness Model_Training
  Model_Grid Spec_Grid Proofs_Grid Proofs_Grid2 Proofs_Grid3 Proofs_Grid4 Proofs_Grid5
  Model_Experiment Spec_Experiment Proofs_Experiment4 Model_Search Spec_Search Proofs_Search Proofs_Search2 Proofs_Search3.
Import ListNotations.
Open Scope Z_scope.

(* ---- what a grid consists of ---- *)

Lemma keys_values {V} (d : list (str * V)) : forall d', NoDup (map fst d) -> map fst d = map fst d' -> (forall k, dict_get d k = dict_get d' k) -> d = d'.
Proof.
  induction d as [|(k & v) d IH]; intros [|(k' & v') d'] N E G; try discriminate; auto. cbn [map fst] in *. injection E as <- E. inversion N as [|? ? N1 N2]; subst.
  assert (v = v') as <-. { specialize (G k). rewrite !dict_get_cons, str_eqb_refl in G. congruence. }
  f_equal. apply IH; auto. intros k'. specialize (G k'). rewrite !dict_get_cons in G. destruct (str_eqb k' k) eqn:Ek; auto.
  apply str_eqb_eq in Ek. subst k'. assert (dict_get d k = None) as -> by (apply dict_get_None; exact N1).
  symmetry. apply dict_get_None. unfold dict_keys. rewrite <- E. exact N1.
Qed.

Lemma applied_fun {L} (base : json L) : json_ok base -> forall (f : list str -> L -> L) r r',
  let ap r := forall p, match at_path p base with
              | None => at_path p r = None
              | Some (JLeaf x) => at_path p r = Some (JLeaf (f p x))
              | Some (JDict e) => exists d, at_path p r = Some (JDict d) /\ map fst d = map fst e
              end in ap r -> ap r' -> r = r'.
Proof.
  induction base as [x|e IH] using json_ind2; intros O f r r' ap A A'.
  - specialize (A []). specialize (A' []). cbn [at_path] in *. congruence.
  - assert (A0 := A []). assert (A0' := A' []). cbn [at_path] in A0, A0'. destruct A0 as (d & E & K), A0' as (d' & E' & K'). injection E as ->. injection E' as ->.
    f_equal. apply json_ok_dict in O. destruct O as (N & O). apply keys_values; [congruence|congruence|]. intros k.
    destruct (dict_get e k) as [b|] eqn:Ek.
    + assert (I := dict_get_In _ _ _ Ek). rewrite Forall_forall in IH. specialize (IH (k, b) I). cbn [snd] in IH.
      assert (exists w, dict_get d k = Some w) as (w & Hw).
      { destruct (dict_get d k) eqn:X; eauto. apply dict_get_None in X. exfalso. apply X. unfold dict_keys. rewrite K. apply (in_map fst) in I. exact I. }
      assert (exists w, dict_get d' k = Some w) as (w' & Hw').
      { destruct (dict_get d' k) eqn:X; eauto. apply dict_get_None in X. exfalso. apply X. unfold dict_keys. rewrite K'. apply (in_map fst) in I. exact I. }
      rewrite Hw, Hw'. f_equal. apply (IH (O k b I) (fun p => f (k :: p))).
      * intros p. specialize (A (k :: p)). cbn [at_path] in A. rewrite Ek, Hw in A. exact A.
      * intros p. specialize (A' (k :: p)). cbn [at_path] in A'. rewrite Ek, Hw' in A'. exact A'.
    + assert (B := A [k]). assert (B' := A' [k]). cbn [at_path] in B, B'. rewrite Ek in B, B'.
      destruct (dict_get d k), (dict_get d' k); congruence.
Qed.

Lemma combined_fun {L} (base : json L) alts r r' : json_ok base -> applied base alts r -> applied base alts r' -> r = r'.
Proof. intros O A A'. exact (applied_fun base O (fun p x => latest p alts x) r r' A A'). Qed.

Lemma chosen_fun {A} c (ls : list (list A)) xs ys : Spec_Grid.chosen c ls xs -> Spec_Grid.chosen c ls ys -> xs = ys.
Proof.
  intros H. revert ys. induction H as [|i c l ls x xs Hx _ IH]; intros ys H'; inversion H'; subst; auto. f_equal; [congruence|auto].
Qed.
Lemma chosen_range {A} c (ls : list (list A)) xs : Spec_Grid.chosen c ls xs -> in_range c ls.
Proof. induction 1; constructor; auto. apply nth_error_Some. congruence. Qed.

Lemma grid_sets e g : json_ok (JDict e) -> fitting e g -> exists vs params h, grid_main (JDict e) g = Ok (vs, params, h) /\ vs <> [] /\
  (forall v, In v vs -> exists r, stands h v r /\ combination (JDict e) g r) /\
  (forall r, combination (JDict e) g r -> exists i v, nth_error vs i = Some v /\ stands h v r).
Proof.
  intros O (C & F). destruct (grid_product e g C F) as (cs & vs & params & h & E & _ & R & B & _ & _). exists vs, params, h. split; auto.
  assert (X : exists c, in_range c (map snd g)).
  { assert (D : dicts g).
    { unfold dicts. eapply Forall_impl; [|exact F]. intros kv. apply Forall_impl. intros j (_ & K). apply fits_kind in K. destruct j; [destruct K|eauto]. }
    destruct (check_iff g D) as ((I & _) & _). destruct (I C) as (ps & _ & Fp). clear -Fp. induction Fp as [|kv p g ps (Hn & _) _ (c & IH)]; [exists []; constructor|].
    exists (0%nat :: c). cbn [map]. constructor; auto. destruct (snd kv); [congruence|cbn; lia]. }
  split; [|split].
  - intros ->. inversion B; subst. destruct X as (c & X). apply R in X. destruct X.
  - intros v I. apply In_nth_error in I. destruct I as (i & I). destruct (Forall2_nth_r _ _ _ _ _ B I) as (c & _ & alts & r & Ch & A & S).
    exists r. split; auto. exists c, alts. auto.
  - intros r (c & alts & Ch & A). assert (I : In c cs) by (apply R; eapply chosen_range; eauto). apply In_nth_error in I. destruct I as (i & I).
    destruct (Forall2_nth _ _ _ _ _ B I) as (v & Hv & alts' & r' & Ch' & A' & S). exists i, v. split; auto.
    assert (alts' = alts) as -> by (eapply chosen_fun; eauto). assert (r' = r) as -> by (eapply combined_fun; eauto). exact S.
Qed.

Lemma loaded (js : list (json leaf)) : exists vs h, load_list js [] = (vs, h) /\ Forall2 (stands h) vs js.
Proof.
  destruct (load_list_held js []) as (ext & E & F). destruct (load_list js []) as (vs & h). cbn [fst snd] in *. exists vs, h. split; auto. rewrite E.
  clear E. induction F; constructor; auto. apply held_stands. auto.
Qed.

Section Search.
Context {M R : Type}.
Variables (predict : str -> M -> result str) (score : str -> str -> result table).
Variable data : str -> result (list document).
Variables (seed_of : Z -> R) (below : R -> Z -> Z * R).
Variable l : learner M.
Variable dirs : files M -> str -> list str.
Notation read := (read_settings predict score data seed_of below).
Notation eval_main clock := (evaluation_main predict score data seed_of below clock l dirs).

Lemma main_read clock delete name s h vs fs fs' rep : eval_main clock delete name s h vs fs = (fs', Ok rep) ->
  exists c ds t, read clock delete name s fs = Ok (c, ds) /\ read_test predict score s = Ok t /\
    main (with_test c t) (training_of l (nth_pass data seed_of below ds) h vs (runs_of (random_seed c))) dirs name vs fs = (fs', Ok rep).
Proof.
  unfold evaluation_main. destruct (read clock delete name s fs) as [(c & ds)|e]; [|discriminate]. destruct (read_test predict score s) as [t|e].
  - intros H. exists c, ds, t. split; auto.
  - destruct (get_trainer name); [|discriminate]. destruct (search_params _ _ _ _ _ _ _ _) as (fs1 & se). discriminate.
Qed.

(* ---- the reported hyperparameters are among the given ---- *)

Lemma search_in {P} (c : settings M) nt t : forall (hyper : list P) k s fs fs1 s1, search_params c nt dirs t k hyper s fs = (fs1, (s1, None)) ->
  (hyper = [] /\ s1 = s) \/
  exists b, sel_best s1 = Some b /\ (In (fst (fst (fst b))) hyper \/ sel_best s = Some b).
Proof.
  induction hyper as [|p ps IH]; intros k s fs fs1 s1 H; cbn [search_params] in H; [left; split; congruence|]. right.
  destruct (evaluate_params c nt dirs t k _ fs) as (fs0 & dr).
  destruct (do ms <- snd dr; _) as [s2|e] eqn:E; [|discriminate].
  destruct (snd dr) as [ms|]; [|discriminate]. cbn [bind] in E. unfold consider in E.
  destruct (is_better _ _ _ _) as [b|] eqn:B; [|discriminate]. cbn [bind] in E.
  assert (X : exists b, sel_best s2 = Some b /\ (fst (fst (fst b)) = p \/ sel_best s = Some b)).
  { destruct b; injection E as <-; cbn [sel_best]; [eexists; split; [reflexivity|left; reflexivity]|].
    unfold best_scores in B. cbn [sel_best] in *. destruct (sel_best s) as [b|]; [eexists; split; [reflexivity|right; reflexivity]|discriminate]. }
  destruct X as (b0 & X & Y). apply IH in H. destruct H as [(-> & ->)|(b1 & H & Z)].
  - exists b0. split; auto. destruct Y as [<-|Y]; [left; left; reflexivity|right; auto].
  - exists b1. split; auto. destruct Z as [Z|Z]; [left; right; exact Z|]. assert (b0 = b1) as <- by congruence.
    destruct Y as [<-|Y]; [left; left; reflexivity|right; auto].
Qed.

Lemma reported {P} (c : settings M) nt name (hyper : list P) fs fs' rep : hyper <> [] -> main c nt dirs name hyper fs = (fs', Ok rep) ->
  exists p, r_params rep = Some p /\ In p hyper.
Proof.
  intros N H. unfold main in H. destruct (delete_after c && is_filled (model_dir c) fs); [discriminate|].
  destruct (get_trainer name) as [t|]; [|discriminate].
  destruct (search_params c nt dirs t 0 hyper (mkSel None []) fs) as (fs1 & (s & e)) eqn:E. cbn [fst snd] in H. destruct e; [discriminate|].
  destruct (search_in c nt t hyper _ _ _ _ _ E) as [(-> & _)|(b & B & D)]; [congruence|]. cbn [sel_best] in D. destruct D as [D|D]; [|discriminate].
  rewrite B in H. cbn [option_map] in H. destruct (print_metrics _ _); [|discriminate].
  match type of H with context [let (_, _) := ?x in _] => destruct x as (fs2 & tested) end. destruct tested; [|discriminate].
  injection H as _ <-. cbn [r_params]. eauto.
Qed.

(* ---- the same training ---- *)

Lemma constant_passes (pass : nat -> result (list document)) n : (forall a b, pass a = pass b) -> forall a b, mapM pass (seq a n) = mapM pass (seq b n).
Proof.
  intros C. induction n as [|n IH]; intros a b; [reflexivity|]. cbn [seq mapM]. rewrite (C a b). destruct (pass b); [|reflexivity]. cbn [bind].
  rewrite (IH (S a) (S b)). reflexivity.
Qed.

Lemma same_alone pass h h' vs v v' i r zs : faithful l -> (forall a b, pass a = pass b) -> nth_error vs i = Some v ->
  stands h v r -> stands h' v' r -> same_training (length zs) (training_of l pass h vs zs) i (training_of l pass h' [v'] zs) 0.
Proof.
  intros F C V S S'. destruct (F h h' v v' r S S') as (F1 & F2 & F3 & F4 & F5). unfold same_training, training_of. cbn [epochs set_up learn adapt nth_error].
  rewrite V. split; [congruence|]. intros j J. destruct (nth_error zs j) as [z|] eqn:Z; [|apply nth_error_None in Z; lia]. cbn [of_option bind].
  split; [|split].
  - rewrite F1, (constant_passes pass _ C _ (passes_before l h vs (length zs) i j)). destruct (mapM _ _); auto. cbn [bind]. congruence.
  - intros seen. rewrite F1, (constant_passes pass _ C _ (passes_before l h vs (length zs) i j)). destruct (mapM _ _); auto. cbn [bind]. congruence.
  - intros seen. congruence.
Qed.

Lemma same_refl n nt k : same_training (M := M) n nt k nt k.
Proof. split; [reflexivity|]. intros. auto. Qed.

Lemma main_alone clock clock' delete delete' s zs h vs h' v' r fs fs1 fs2 fs3 rep rep' :
  faithful l -> unshuffled s -> prints s -> seeds_are s zs -> NoDup zs -> vs <> [] -> stands h' v' r ->
  eval_main clock delete (of_string "neural") s h vs fs = (fs1, Ok rep) ->
  eval_main clock' delete' (of_string "neural") s h' [v'] fs2 = (fs3, Ok rep') ->
  (forall i v, nth_error vs i = Some v -> stands h v r -> at_least s rep rep') /\
  (forall v, r_params rep = Some v -> stands h v r -> same_scores rep rep').
Proof.
  intros F U P Sd ND N S' H H'. destruct (main_read _ _ _ _ _ _ _ _ _ H) as (c & ds & t & Rd & Te & Mn).
  destruct (main_read _ _ _ _ _ _ _ _ _ H') as (c' & ds' & t' & Rd' & Te' & Mn'). assert (t' = t) as -> by congruence.
  assert (ds' = ds) as -> by (symmetry; eapply build_timeless; [left; exact U|exact Rd|exact Rd']).
  assert (Z := read_seeds _ _ _ _ _ _ _ _ _ _ _ _ _ Sd Rd). assert (Z' := read_seeds _ _ _ _ _ _ _ _ _ _ _ _ _ Sd Rd'). rewrite Z in Mn. rewrite Z' in Mn'.
  assert (C : forall a b, nth_pass data seed_of below ds a = nth_pass data seed_of below ds b).
  { intros a b. unfold nth_pass. rewrite (build_unshuffled _ _ _ _ _ _ _ _ _ _ _ _ U Rd). reflexivity. }
  assert (A := read_agree _ _ _ _ _ _ _ _ _ _ _ _ _ _ _ _ _ _ t Rd Rd').
  destruct (alone (P' := jval leaf) dirs (with_test c t) (training_of l (nth_pass data seed_of below ds) h vs zs) vs fs fs1 rep N) as (k & K & Pk & Al); [cbn [with_test random_seed]; congruence| |exact Mn|].
  { cbn [with_test printed]. eapply read_prints; eauto. }
  destruct (Al (with_test c' t) _ v' fs2 fs3 rep' A Mn') as (Al1 & Al2). cbn [with_test random_seed fields compared] in *. rewrite Z in *. split.
  - intros i v V S. destruct (Al1 i) as (sc & sc' & D & D' & Q); [apply nth_error_Some; congruence|eapply same_alone; eauto|].
    exists sc, sc'. split; auto. split; auto. intros q q' Jq Jq'. apply Q; eapply read_judged; eauto.
  - intros v V S. assert (X : nth_error vs k = Some v) by congruence. apply Al2. eapply same_alone; eauto.
Qed.

Lemma main_repeated clock clock' delete delete' s zs h vs fs fs1 fs2 fs3 rep rep' :
  timeless s -> prints s -> seeds_are s zs -> NoDup zs -> vs <> [] ->
  eval_main clock delete (of_string "neural") s h vs fs = (fs1, Ok rep) ->
  eval_main clock' delete' (of_string "neural") s h vs fs2 = (fs3, Ok rep') -> rep = rep'.
Proof.
  intros U P Sd ND N H H'. destruct (main_read _ _ _ _ _ _ _ _ _ H) as (c & ds & t & Rd & Te & Mn).
  destruct (main_read _ _ _ _ _ _ _ _ _ H') as (c' & ds' & t' & Rd' & Te' & Mn'). assert (t' = t) as -> by congruence.
  assert (ds' = ds) as -> by (symmetry; eapply build_timeless; [exact U|exact Rd|exact Rd']).
  assert (Z := read_seeds _ _ _ _ _ _ _ _ _ _ _ _ _ Sd Rd). assert (Z' := read_seeds _ _ _ _ _ _ _ _ _ _ _ _ _ Sd Rd'). rewrite Z in Mn. rewrite Z' in Mn'.
  assert (A := read_agree _ _ _ _ _ _ _ _ _ _ _ _ _ _ _ _ _ _ t Rd Rd').
  eapply (repeated dirs (with_test c t) (with_test c' t)); [exact N| | |exact A| |exact Mn|exact Mn'].
  - cbn [with_test random_seed]. congruence.
  - cbn [with_test printed]. eapply read_prints; eauto.
  - intros. apply same_refl.
Qed.

Lemma main_files clock name s h vs fs fs1 rep d : eval_main clock true name s h vs fs = (fs1, Ok rep) ->
  at_keys ["model_dir"]%string s = Some (JLeaf (LStr d)) -> d <> [] ->
  (forall p, within d p -> dict_get fs1 p = None) /\ forall p, no_result s p -> dict_get fs1 p = dict_get fs p.
Proof.
  intros H D N. destruct (main_read _ _ _ _ _ _ _ _ _ H) as (c & ds & t & Rd & Te & Mn).
  destruct (read_inv _ _ _ _ _ _ _ _ _ _ _ _ Rd) as (((j & A & B) & _ & _ & _ & _ & _ & _ & De & _) & _).
  rewrite D in A. injection A as <-. cbn in B. injection B as ->.
  destruct (restored (with_test c t) (training_of l (nth_pass data seed_of below ds) h vs (runs_of (random_seed c))) dirs name vs fs fs1 (Ok rep)) as (_ & X); auto. destruct (X rep eq_refl) as (X1 & X2). split; auto.
  intros p Np. apply X2. eapply read_no_result; eauto.
Qed.

(* ---- a test set that cannot be read ---- *)

Lemma get_app_other {V} (d : dict V) k v k' : k' <> k -> dict_get (d ++ [(k, v)]) k' = dict_get d k'.
Proof.
  intros N. induction d as [|(a & b) d IH]; [|].
  - cbn [app]. rewrite dict_get_cons. destruct (str_eqb k' k) eqn:E; [apply str_eqb_eq in E; congruence|reflexivity].
  - cbn [app]. rewrite !dict_get_cons, IH. reflexivity.
Qed.
Lemma get_app_new {V} (d : dict V) k v : dict_get d k = None -> dict_get (d ++ [(k, v)]) k = Some v.
Proof.
  induction d as [|(a & b) d IH]; cbn [app]; rewrite !dict_get_cons; [rewrite str_eqb_refl; reflexivity|]. destruct (str_eqb k a); [discriminate|]. exact IH.
Qed.

Lemma read_more clock delete name d v fs : read clock delete name (JDict (d ++ [(of_string "test_set", v)])) fs = read clock delete name (JDict d) fs.
Proof.
  assert (I : forall k, k <> of_string "test_set" -> item (JDict (d ++ [(of_string "test_set", v)])) k = item (JDict d) k).
  { intros k N. unfold item. rewrite get_app_other by exact N. reflexivity. }
  unfold read_settings. rewrite !I by (intros E; vm_compute in E; discriminate). reflexivity.
Qed.

Lemma late_test_set clock name d hs fs fs' x : dict_get d (of_string "test_set") = None ->
  evaluation predict score data seed_of below clock l dirs false name (JDict d) hs fs = (fs', Ok x) ->
  evaluation predict score data seed_of below clock l dirs false name (JDict (d ++ [(of_string "test_set", JDict [])])) hs fs = (fs', Err EKey).
Proof.
  intros N H. unfold evaluation in *. destruct (load_list hs []) as (vs & h).
  destruct (eval_main clock false name (JDict d) h vs fs) as (fs1 & [rep|e]) eqn:E; [|discriminate]. cbn [bind] in H. assert (fs1 = fs') as -> by congruence. clear H.
  assert (eval_main clock false name (JDict (d ++ [(of_string "test_set", JDict [])])) h vs fs = (fs', Err EKey)) as ->; [|reflexivity].
  unfold evaluation_main in *. rewrite read_more.
  destruct (read clock false name (JDict d) fs) as [(c & ds)|] eqn:Rd; [|discriminate].
  destruct (read_inv _ _ _ _ _ _ _ _ _ _ _ _ Rd) as ((_ & _ & _ & _ & _ & _ & _ & De & _) & _).
  unfold read_test, item in *. rewrite N in E. rewrite (get_app_new _ _ _ N). cbn [of_option] in *.
  change (build_tester predict score (JDict [])) with (@Err (tester M) EKey). cbn [bind].
  unfold main in E. cbn [with_test delete_after model_dir printed test_set] in E. rewrite De in E. cbn [andb] in E.
  destruct (get_trainer name) as [t|]; [|discriminate].
  match goal with |- context [search_params c ?nt dirs t 0 vs ?s0 fs] => 
    change (search_params (with_test c None) nt dirs t 0 vs s0 fs) with (search_params c nt dirs t 0 vs s0 fs) in E end.
  destruct (search_params c _ dirs t 0 vs _ fs) as (fs1 & (s & e)). cbn [fst snd] in *. destruct e; [discriminate|].
  destruct (print_metrics (printed c) (best_scores s)); [|discriminate]. congruence.
Qed.
End Search.
