(* Files and sessions: programs. *)
From Coq Require Import String Ascii ZArith NArith Bool Permutation List Lia.
From Verif Require Import Base BaseFacts Model_Resources Spec_Resources Proofs_Resources.
Import ListNotations.

Lemma nth_set_same {A} (l : list A) i x y : nth_error l i = Some x -> nth_error (set_nth l i y) i = Some y.
Proof. revert i. induction l as [|z l IH]; intros [|i]; cbn; intros H; try discriminate; auto. Qed.
Lemma nth_set_other {A} (l : list A) i j y : i <> j -> nth_error (set_nth l i y) j = nth_error l j.
Proof. revert i j. induction l as [|z l IH]; intros [|i] [|j] H; cbn; auto; try congruence. Qed.
Lemma Forall_set {A} (P : A -> Prop) l i y : Forall P l -> P y -> Forall P (set_nth l i y).
Proof. intros F. revert i. induction F as [|z l H F IH]; intros [|i] Y; cbn; constructor; auto. Qed.

Section Runs.
Variables (V S : Type) (proceed : S -> progress V S).
Notation generator := (generator S).
Notation machine := (machine S).
Notation action := (action S).
Notation act := (act V S proceed).
Notation run := (run V S proceed).
Notation inv := (inv S).

Definition calm_machine (m : machine) : Prop := Forall (calm_generator S) (generators _ m).

Lemma act_inv m l a m' o : inv m l -> act m a = (m', o) ->
  exists extra, inv m' (extra ++ l) /\ (next_number (the_world _ m) <= next_number (the_world _ m'))%nat /\
    (calm_machine m -> calm_action a -> calm_machine m' /\ Forall file extra).
Proof.
  intros [O P] H. destruct a as [ld s|o1 s|[e|] s|[e|] body|i|i e]; cbn [Model_Resources.act] in H.
  - injection H as <- <-. exists []. split; [split; [exact O|]|]. { cbn [generators the_world]. unfold held in *. rewrite flat_map_app. cbn. rewrite app_nil_r. exact P. }
    split; [auto|]. intros C A. split; [|constructor]. unfold calm_machine in *. cbn [generators]. apply Forall_app. split; auto.
  - injection H as <- <-. exists []. split; [split; [exact O|]|]. { cbn [generators the_world]. unfold held in *. rewrite flat_map_app. cbn. rewrite app_nil_r. exact P. }
    split; [auto|]. intros C A. split; [|constructor]. unfold calm_machine in *. cbn [generators]. apply Forall_app. split; [exact C|]. constructor; [first [exact Logic.I|reflexivity]|constructor].
  - injection H as <- <-. exists []. split; [split; auto|]. split; auto.
  - cbn [acquire] in H. injection H as <- <-. exists []. split; [split|].
    + apply (acquire_orderly File _ O).
    + cbn [generators the_world opened]. unfold held in *. rewrite flat_map_app. cbn [flat_map holds app]. rewrite <- app_assoc. cbn [app]. apply Permutation_cons_app. exact P.
    + split; [cbn; lia|]. intros C A. split; [|constructor]. unfold calm_machine in *. cbn [generators]. apply Forall_app. split; [exact C|]. constructor; [first [exact Logic.I|reflexivity]|constructor].
  - injection H as <- <-. exists []. split; [split; auto|]. split; auto.
  - cbn [acquire] in H. injection H as <- <-. exists [(File, next_number (the_world _ m))]. split; [split|].
    + apply (acquire_orderly File _ O).
    + cbn [generators the_world opened app]. apply Permutation_cons_app. exact P.
    + split; [cbn; lia|]. intros C A. split; [exact C|]. repeat constructor.
  - destruct (nth_error (generators _ m) i) as [g|] eqn:Eg.
    + destruct (advance V S proceed g (the_world _ m)) as [[g' w'] o'] eqn:Ea. cbn [update] in H. injection H as <- <-.
      destruct (held_set S (generators _ m) i g g' Eg) as (rest & P1 & P2).
      assert (Lc : local S g (the_world _ m) (rest ++ l)). { split; [exact O|]. rewrite P, P1, app_assoc. reflexivity. }
      destruct (advance_local V S proceed g _ _ g' w' o' Lc Ea) as (extra & (O' & P') & N & X & Sh). exists extra. split; [split; [exact O'|]|].
      * cbn [generators the_world]. rewrite P', P2. rewrite <- !app_assoc. apply Permutation_app_head. rewrite !app_assoc. apply Permutation_app_tail. apply Permutation_app_comm.
      * split; [exact N|]. intros C A. assert (Cg : calm_generator S g) by (unfold calm_machine in C; rewrite Forall_forall in C; apply C; eapply nth_error_In; eauto).
        destruct X as [->|(_ & X)]; [|contradiction]. split; [|constructor]. apply Forall_set; auto. destruct Sh as [(r & s' & -> & _)| ->]; exact Logic.I.
    + injection H as <- <-. exists []. split; [split; auto|]. split; auto.
  - destruct (nth_error (generators _ m) i) as [g|] eqn:Eg.
    + destruct (leave V S e g (the_world _ m)) as [[g' w'] o'] eqn:Ea. cbn [update] in H. injection H as <- <-.
      destruct (held_set S (generators _ m) i g g' Eg) as (rest & P1 & P2).
      assert (Lc : local S g (the_world _ m) (rest ++ l)). { split; [exact O|]. rewrite P, P1, app_assoc. reflexivity. }
      destruct (leave_local V S e g _ _ g' w' o' Lc Ea) as (-> & N & extra & (O' & P') & X). exists extra. split; [split; [exact O'|]|].
      * cbn [generators the_world]. rewrite P', P2. cbn [holds app]. rewrite !app_assoc. apply Permutation_app_tail. apply Permutation_app_comm.
      * split; [cbn [the_world]; lia|]. intros C A. split; [apply Forall_set; [auto|exact Logic.I]|].
        destruct X as [->|(f & s & -> & ->)]; [constructor|]. constructor; [|constructor].
        unfold calm_machine in C. rewrite Forall_forall in C. apply (C _ (nth_error_In _ _ Eg)).
    + injection H as <- <-. exists []. split; [split; auto|]. split; auto.
Qed.

Lemma run_inv : forall acts m l m' os, inv m l -> run m acts = (m', os) ->
  exists extra, inv m' (extra ++ l) /\ (calm_machine m -> Forall calm_action acts -> calm_machine m' /\ Forall file extra).
Proof.
  induction acts as [|a acts IH]; intros m l m' os I H; cbn [Model_Resources.run] in H.
  - injection H as <- <-. exists []. split; auto.
  - destruct (act m a) as [m1 o] eqn:Ea. destruct (run m1 acts) as [m2 os2] eqn:Er. injection H as <- <-.
    destruct (act_inv _ _ _ _ _ I Ea) as (x1 & I1 & _ & C1). destruct (IH _ _ _ _ I1 Er) as (x2 & I2 & C2).
    exists (x2 ++ x1). rewrite <- app_assoc. split; auto. intros C F. inversion F; subst. destruct (C1 C) as [C1' F1]; auto. destruct (C2 C1') as [C2' F2]; auto.
    split; auto. apply Forall_app. auto.
Qed.

Lemma start_inv w : orderly w -> inv (mkMachine _ [] w) (opened w).
Proof. intros O. split; [exact O|reflexivity]. Qed.

Lemma sessions_files l : Forall file l -> sessions l = [].
Proof. induction 1 as [|[k n] l H _ IH]; [reflexivity|]. unfold file in H. cbn in H. subst k. exact IH. Qed.
Lemma sessions_app a b : sessions (a ++ b) = sessions a ++ sessions b.
Proof. apply filter_app. Qed.

Lemma sessions_held gs : Forall (calm_generator S) gs -> sessions (held S gs) = sessions (in_use gs).
Proof.
  unfold held, in_use. induction 1 as [|g gs H _ IH]; [reflexivity|]. cbn [flat_map]. rewrite !sessions_app, IH. f_equal. destruct g; try reflexivity.
  destruct f as [k n]. cbn in H. subst k. reflexivity.
Qed.

Theorem sessions_open w acts m : reached V S proceed w acts m -> Forall calm_action acts ->
  Permutation (sessions (opened (the_world _ m))) (sessions (in_use (generators _ m)) ++ sessions (opened w)).
Proof.
  intros [O E] F. destruct (run (mkMachine _ [] w) acts) as [m' os] eqn:Er. cbn in E. subst m'.
  destruct (run_inv _ _ _ _ _ (start_inv w O) Er) as (extra & [_ P] & C). destruct (C (Forall_nil _) F) as [Cm Fe].
  eapply perm_trans; [apply filter_perm; exact P|]. fold (sessions (held S (generators _ m) ++ extra ++ opened w)). rewrite !sessions_app, (sessions_files extra Fe), sessions_held; auto.
Qed.

(* worlds only get new numbers *)
Definition grows (w w' : world) : Prop := (next_number w <= next_number w')%nat /\ forall x, In x (opened w') -> In x (opened w) \/ (next_number w <= snd x)%nat.
Lemma grows_refl w : grows w w.
Proof. split; auto. Qed.
Lemma grows_trans a b c : grows a b -> grows b c -> grows a c.
Proof. intros [L1 H1] [L2 H2]. split; [lia|]. intros x I. destruct (H2 x I) as [J|J]; [destruct (H1 x J); auto|right; lia]. Qed.
Lemma grows_release r w w' : grows w w' -> grows w (release r w').
Proof. intros [L H]. split; [exact L|]. intros x I. cbn in I. apply filter_In in I. apply H. tauto. Qed.
Lemma grows_acquire k w : grows w (fst (acquire k w)).
Proof. split; [cbn; lia|]. cbn. intros x [<-|I]; [right; cbn; lia|auto]. Qed.
Lemma grows_file a b w : grows w (fst (with_file a b w)).
Proof. destruct a; [apply grows_refl|]. cbn [with_file acquire fst]. apply grows_release. apply (grows_acquire File). Qed.
Lemma grows_load o w : grows w (fst (tagger_load o w)).
Proof.
  unfold tagger_load. pose proof (grows_file (l_open_extractor o) (l_read_extractor o) w) as G1. destruct (with_file _ _ w) as [w1 [e|]]; cbn [fst] in *; auto.
  eapply grows_trans; [exact G1|]. unfold model_load. destruct (l_session o); [apply grows_refl|]. pose proof (grows_acquire Session w1) as G2. cbn [acquire fst] in *.
  destruct (l_graph o) as [[e|]|]; [apply grows_release; auto|auto|].
  pose proof (grows_file (l_open_mapping o) (l_read_mapping o) (mkWorld ((Session, next_number w1) :: opened w1) (Datatypes.S (next_number w1)))) as G3.
  destruct (with_file (l_open_mapping o) _ _) as [w2 [e|]]; cbn [fst] in G3; pose proof (grows_trans _ _ _ G2 G3) as G4.
  - destruct e; [apply grows_release; auto|auto].
  - destruct (l_attach o) as [[e|]|]; [apply grows_release; auto|auto|auto].
Qed.
Lemma grows_resume r s w w' : grows w w' -> grows w (snd (fst (resume V S proceed r s w'))).
Proof. intros G. unfold resume. destruct (is_open r w'); [destruct (proceed s)|]; cbn [fst snd]; auto using grows_release. Qed.
Lemma grows_advance g w : grows w (snd (fst (advance V S proceed g w))).
Proof.
  destruct g as [ld s|o1 s|f s|r s|]; cbn [advance]; try (apply grows_resume; apply grows_refl); [| |apply grows_refl].
  - pose proof (grows_load ld w) as G. destruct (tagger_load ld w) as [w1 [r|e]]; cbn [fst after_load snd] in *; auto. apply grows_resume; auto.
  - unfold model_new. destruct o1; cbn [after_load acquire fst snd]; [apply grows_refl|]. apply grows_resume. apply (grows_acquire Session).
Qed.
Lemma grows_act m a : grows (the_world _ m) (the_world _ (fst (act m a))).
Proof.
  destruct a as [ld s|o1 s|[e|] s|[e|] body|i|i e]; cbn [Model_Resources.act]; try apply grows_refl.
  - apply (grows_acquire File).
  - apply (grows_acquire File).
  - destruct (nth_error _ i) as [g|]; [|apply grows_refl]. pose proof (grows_advance g (the_world _ m)) as G. destruct (advance V S proceed g (the_world _ m)) as [[g' w'] o]. exact G.
  - destruct (nth_error _ i) as [g|]; [|apply grows_refl]. destruct g; cbn; try apply grows_refl. apply grows_release. apply grows_refl.
Qed.

(* a generator that has the resource r: it has it until it ends, and then r is closed *)
Definition tracked (i : nat) (r : resource) (m : machine) : Prop :=
  (exists s, nth_error (generators _ m) i = Some (Suspended _ r s)) \/
  (nth_error (generators _ m) i = Some (Finished _) /\ ~ In r (opened (the_world _ m)) /\ (snd r < next_number (the_world _ m))%nat).

Lemma held_in m l i g r : inv m l -> nth_error (generators _ m) i = Some g -> In r (holds S g) -> In r (opened (the_world _ m)) /\ (snd r < next_number (the_world _ m))%nat.
Proof.
  intros [[_ O] P] E I. assert (J : In r (opened (the_world _ m))).
  { eapply Permutation_in; [symmetry; exact P|]. apply in_app_iff. left. unfold held. apply in_flat_map. exists g. split; auto. eapply nth_error_In; eauto. }
  split; auto. rewrite Forall_forall in O. auto.
Qed.

Lemma finished_gone w r rest w' : orderly w -> Permutation (opened w) (r :: rest) -> Permutation (opened w') rest -> ~ In r (opened w').
Proof.
  intros [N _] P P' I. assert (X : NoDup (map snd (r :: rest))) by (eapply Permutation_NoDup; [apply Permutation_map; exact P|exact N]).
  cbn in X. inversion X as [|? ? X1 _]; subst. apply X1. apply in_map. eapply Permutation_in; eauto.
Qed.

Lemma generators_other m a i : match a with Next _ j => j <> i | Leave _ j _ => j <> i | _ => True end -> (i < length (generators _ m))%nat ->
  nth_error (generators _ (fst (act m a))) i = nth_error (generators _ m) i.
Proof.
  intros H L. destruct a as [ld s|o1 s|[e|] s|[e|] body|j|j e]; cbn [Model_Resources.act fst generators]; auto; try (apply nth_error_app1; auto).
  - destruct (nth_error _ j) as [g|]; [|reflexivity]. destruct (advance V S proceed g (the_world _ m)) as [[g' w'] o]. cbn. apply nth_set_other. auto.
  - destruct (nth_error _ j) as [g|]; [|reflexivity]. destruct (leave V S e g (the_world _ m)) as [[g' w'] o]. cbn. apply nth_set_other. auto.
Qed.

(* once it has been advanced *)
Lemma advanced m l i g r m' o : inv m l -> nth_error (generators _ m) i = Some g -> holds S g = [r] -> act m (Next _ i) = (m', o) -> tracked i r m'.
Proof.
  intros [O P] E Hh H. cbn [Model_Resources.act] in H. rewrite E in H. destruct (advance V S proceed g (the_world _ m)) as [[g' w'] o'] eqn:Ea. cbn [update] in H. injection H as <- <-.
  destruct (held_set S (generators _ m) i g g' E) as (rest & P1 & P2).
  assert (Lc : local S g (the_world _ m) (rest ++ l)). { split; [exact O|]. rewrite P, P1, app_assoc. reflexivity. }
  destruct (advance_local V S proceed g _ _ g' w' o' Lc Ea) as (extra & (O' & P') & N & X & Sh). destruct X as [->|(X & _)]; [|congruence].
  destruct Sh as [(r' & s' & -> & [Hr|(Hr & _)])| ->]; [|congruence|].
  - left. rewrite Hh in Hr. injection Hr as <-. exists s'. cbn. eapply nth_set_same; eauto.
  - right. cbn [generators the_world]. split; [eapply nth_set_same; eauto|]. destruct Lc as [_ Pl]. rewrite Hh in Pl. split; [eapply (finished_gone (the_world _ m) r (rest ++ l)); [exact O|exact Pl|exact P']|].
    assert (I : In r (holds S g)) by (rewrite Hh; left; reflexivity). destruct (held_in m l i g r (conj O P) E I) as [_ L]. eapply Nat.lt_le_trans; [exact L|exact N].
Qed.

Lemma tracked_act m l i r a m' o : inv m l -> tracked i r m -> act m a = (m', o) -> tracked i r m'.
Proof.
  intros I T H. assert (L : (i < length (generators _ m))%nat) by (apply nth_error_Some; destruct T as [(s & E)|(E & _)]; congruence).
  pose proof (grows_act m a) as G. rewrite H in G. cbn [fst] in G. destruct G as [G1 G2].
  assert (D : (match a with Next _ j => j <> i | Leave _ j _ => j <> i | _ => True end) \/ a = Next _ i \/ exists e, a = Leave _ i e).
  { destruct a; auto; destruct (Nat.eq_dec i0 i); subst; eauto. }
  destruct D as [D|[->|(e & ->)]].
  - pose proof (generators_other m a i D L) as Eg. rewrite H in Eg. cbn [fst] in Eg. destruct T as [(s & E)|(E & Ni & Ln)].
    + left. exists s. congruence.
    + right. split; [congruence|]. split; [|lia]. intros J. destruct (G2 r J) as [J'|J']; [auto|lia].
  - destruct T as [(s & E)|(E & Ni & Ln)].
    + eapply advanced; eauto; reflexivity.
    + cbn [Model_Resources.act] in H. rewrite E in H. cbn in H. injection H as <- <-. right. cbn. split; [eapply nth_set_same; eauto|auto].
  - cbn [Model_Resources.act] in H. destruct T as [(s & E)|(E & Ni & Ln)]; rewrite E in H; cbn in H; injection H as <- <-; right; cbn [generators the_world].
    + split; [eapply nth_set_same; eauto|]. assert (J : In r (holds S (Suspended _ r s))) by (left; reflexivity). destruct (held_in _ _ _ _ _ I E J) as [_ Ln]. split; [|exact Ln].
      cbn. intros K. apply filter_In in K. destruct K as [_ K]. rewrite Nat.eqb_refl in K. discriminate.
    + split; [eapply nth_set_same; eauto|auto].
Qed.

Lemma tracked_run : forall acts m l i r m' os, inv m l -> tracked i r m -> run m acts = (m', os) -> tracked i r m'.
Proof.
  induction acts as [|a acts IH]; intros m l i r m' os I T H; cbn [Model_Resources.run] in H; [injection H as <- <-; auto|].
  destruct (act m a) as [m1 o] eqn:Ea. destruct (run m1 acts) as [m2 os2] eqn:Er. injection H as <- <-.
  destruct (act_inv _ _ _ _ _ I Ea) as (x1 & I1 & _). exact (IH _ _ _ _ _ _ I1 (tracked_act _ _ _ _ _ _ _ I T Ea) Er).
Qed.

Theorem one_resource w before m after m' i r s : reached V S proceed w before m ->
  nth_error (generators _ m) i = Some (Suspended _ r s) -> fst (run m after) = m' ->
  (exists s', nth_error (generators _ m') i = Some (Suspended _ r s') /\ In r (opened (the_world _ m'))) \/
  (nth_error (generators _ m') i = Some (Finished _) /\ ~ In r (opened (the_world _ m'))).
Proof.
  intros [O E] G E'. destruct (run (mkMachine _ [] w) before) as [m0 os0] eqn:Er0. cbn in E. subst m0. destruct (run m after) as [m1 os1] eqn:Er1. cbn in E'. subst m1.
  destruct (run_inv _ _ _ _ _ (start_inv w O) Er0) as (x0 & I0 & _). destruct (run_inv _ _ _ _ _ I0 Er1) as (x1 & I1 & _).
  assert (T : tracked i r m) by (left; eauto). destruct (tracked_run _ _ _ _ _ _ _ I0 T Er1) as [(s' & X)|(X & N & _)]; [left|right; auto].
  exists s'. split; auto. eapply held_in; eauto. left; reflexivity.
Qed.

Theorem reader_file w before m after m' i f s : reached V S proceed w before m ->
  nth_error (generators _ m) i = Some (FreshReader _ f s) -> fst (run m (Next _ i :: after)) = m' ->
  (exists s', nth_error (generators _ m') i = Some (Suspended _ f s') /\ In f (opened (the_world _ m'))) \/
  (nth_error (generators _ m') i = Some (Finished _) /\ ~ In f (opened (the_world _ m'))).
Proof.
  intros [O E] G E'. destruct (run (mkMachine _ [] w) before) as [m0 os0] eqn:Er0. cbn in E. subst m0.
  destruct (run_inv _ _ _ _ _ (start_inv w O) Er0) as (x0 & I0 & _). cbn [Model_Resources.run] in E'.
  destruct (act m (Next _ i)) as [m1 o1] eqn:Ea. destruct (run m1 after) as [m2 os2] eqn:Er1. cbn in E'. subst m2.
  assert (T : tracked i f m1) by (eapply advanced; eauto; reflexivity).
  destruct (act_inv _ _ _ _ _ I0 Ea) as (x1 & I1 & _). destruct (run_inv _ _ _ _ _ I1 Er1) as (x2 & I2 & _).
  destruct (tracked_run _ _ _ _ _ _ _ I1 T Er1) as [(s' & X)|(X & N & _)]; [left|right; auto].
  exists s'. split; auto. eapply held_in; eauto. left; reflexivity.
Qed.

(* ---- results ---- *)
Definition ready (g : generator) (s : S) : Prop :=
  (exists o, g = FreshTagger _ o s /\ loads o) \/ g = FreshTrainer _ None s \/ (exists f, g = FreshReader _ f s) \/ exists r, g = Suspended _ r s.

Lemma advance_ready g s w rest g' w' o : local S g w rest -> ready g s -> advance V S proceed g w = (g', w', o) ->
  match proceed s with
  | Yields _ _ v s' => ready g' s' /\ o = Yielded _ v
  | Stops _ _ => g' = Finished _ /\ o = Stopped _
  | Raises _ _ e => g' = Finished _ /\ o = Raised _ e
  end.
Proof.
  intros [O P] R H.
  assert (X : exists r w1 rest1, orderly w1 /\ Permutation (opened w1) (r :: rest1) /\ resume V S proceed r s w1 = (g', w', o)).
  { destruct R as [(ld & -> & Lo)|[->|[(f & ->)|(r & ->)]]]; cbn [advance holds app] in H, P.
    - destruct (tagger_load_ok ld w Lo) as (w1 & El). rewrite El in H. cbn [after_load] in H. destruct (tagger_load_perm _ _ _ _ O El) as (O1 & _ & P1 & _).
      eexists _, w1, _. split; [exact O1|]. split; [exact P1|exact H].
    - cbn [model_new acquire after_load] in H. eexists _, _, _. split; [|split; [|exact H]]; [apply (acquire_orderly Session _ O)|cbn [opened]; reflexivity].
    - eexists f, w, rest. auto.
    - eexists r, w, rest. auto. }
  destruct X as (r & w1 & rest1 & O1 & P1 & H1). destruct (resume_local V S proceed r s w1 rest1 g' w' o O1 P1 H1) as (_ & _ & _ & X).
  destruct (proceed s); auto. destruct X as [-> ->]. split; auto. right. right. right. eauto.
Qed.

Lemma nexts_skip i a o acts os : (match a with Next _ j => j <> i | _ => True end) -> nexts V S i (a :: acts) (o :: os) = nexts V S i acts os.
Proof. intros H. unfold nexts. cbn [combine filter fst]. destruct a; try reflexivity. destruct (Nat.eqb_spec i0 i); [contradiction|reflexivity]. Qed.
Lemma nexts_here i o acts os : nexts V S i (Next _ i :: acts) (o :: os) = o :: nexts V S i acts os.
Proof. unfold nexts. cbn [combine filter fst]. rewrite Nat.eqb_refl. reflexivity. Qed.

Lemma play : forall acts m l i m' os, inv m l -> Forall (fun a => ~ leaves S i a) acts -> run m acts = (m', os) ->
  (forall g s, nth_error (generators _ m) i = Some g -> ready g s -> nexts V S i acts os = plays V S proceed (length (nexts V S i acts os)) s) /\
  (nth_error (generators _ m) i = Some (Finished _) -> nexts V S i acts os = repeat (Stopped _) (length (nexts V S i acts os))).
Proof.
  induction acts as [|a acts IH]; intros m l i m' os I F H; cbn [Model_Resources.run] in H; [injection H as <- <-; split; reflexivity|].
  destruct (act m a) as [m1 o] eqn:Ea. destruct (run m1 acts) as [m2 os2] eqn:Er. injection H as <- <-. inversion F as [|? ? Fa F']; subst.
  destruct (act_inv _ _ _ _ _ I Ea) as (x1 & I1 & _). destruct (IH _ _ i _ _ I1 F' Er) as [IH1 IH2].
  assert (D : (match a with Next _ j => j <> i | Leave _ j _ => j <> i | _ => True end) \/ a = Next _ i).
  { destruct a; auto; destruct (Nat.eq_dec i0 i); subst; auto. exfalso. apply Fa. red. eauto. }
  destruct D as [D| ->].
  - rewrite nexts_skip by (destruct a; auto).
    assert (Eg : forall g, nth_error (generators _ m) i = Some g -> nth_error (generators _ m1) i = Some g).
    { intros g E. rewrite <- E. assert (L : (i < length (generators _ m))%nat) by (apply nth_error_Some; congruence).
      pose proof (generators_other m a i D L) as X. rewrite Ea in X. exact X. }
    split; [intros g s E R; apply (IH1 g s); auto|intros E; auto].
  - rewrite nexts_here. cbn [length]. cbn [Model_Resources.act] in Ea. split.
    + intros g s E R. rewrite E in Ea. destruct (advance V S proceed g (the_world _ m)) as [[g' w'] o'] eqn:Ad. cbn [update] in Ea. injection Ea as <- <-.
      destruct I as [O P]. destruct (held_set S (generators _ m) i g g' E) as (rest & P1 & P2).
      assert (Lc : local S g (the_world _ m) (rest ++ l)). { split; [exact O|]. rewrite P, P1, app_assoc. reflexivity. }
      pose proof (advance_ready g s _ _ g' w' o' Lc R Ad) as X. cbn [plays]. cbn [generators] in IH1, IH2. destruct (proceed s) as [v s'| |e].
      * destruct X as [R' ->]. f_equal. apply (IH1 g' s'); auto. eapply nth_set_same; eauto.
      * destruct X as [-> ->]. f_equal. apply IH2. eapply nth_set_same; eauto.
      * destruct X as [-> ->]. f_equal. apply IH2. eapply nth_set_same; eauto.
    + intros E. rewrite E in Ea. cbn in Ea. injection Ea as <- <-. cbn [repeat]. f_equal. apply IH2. cbn. eapply nth_set_same; eauto.
Qed.

Theorem results w before m after i g s : reached V S proceed w before m -> nth_error (generators _ m) i = Some g ->
  (exists o, g = FreshTagger _ o s /\ loads o) \/ g = FreshTrainer _ None s \/ (exists f, g = FreshReader _ f s) \/ (exists r, g = Suspended _ r s) ->
  Forall (fun a => ~ leaves S i a) after ->
  nexts V S i after (snd (run m after)) = plays V S proceed (length (nexts V S i after (snd (run m after)))) s.
Proof.
  intros [O E] G R F. destruct (run (mkMachine _ [] w) before) as [m0 os0] eqn:Er0. cbn in E. subst m0.
  destruct (run_inv _ _ _ _ _ (start_inv w O) Er0) as (x0 & I0 & _). destruct (run m after) as [m1 os1] eqn:Er1. cbn [snd].
  destruct (play _ _ _ i _ _ I0 F Er1) as [X _]. eapply X; eauto.
Qed.

Lemma finished_stays : forall acts m i m' os, nth_error (generators _ m) i = Some (Finished _) -> run m acts = (m', os) -> nth_error (generators _ m') i = Some (Finished _).
Proof.
  induction acts as [|a acts IH]; intros m i m' os G H; cbn [Model_Resources.run] in H; [injection H as <- <-; auto|].
  destruct (act m a) as [m1 o] eqn:Ea. destruct (run m1 acts) as [m2 os2] eqn:Er. injection H as <- <-. refine (IH _ _ _ _ _ Er).
  assert (L : (i < length (generators _ m))%nat) by (apply nth_error_Some; congruence).
  assert (D : (match a with Next _ j => j <> i | Leave _ j _ => j <> i | _ => True end) \/ a = Next _ i \/ exists e, a = Leave _ i e).
  { destruct a; auto; destruct (Nat.eq_dec i0 i); subst; eauto. }
  destruct D as [D|[->|(e & ->)]].
  - pose proof (generators_other m a i D L) as X. rewrite Ea in X. cbn [fst] in X. congruence.
  - cbn [Model_Resources.act] in Ea. rewrite G in Ea. cbn in Ea. injection Ea as <- <-. cbn. eapply nth_set_same; eauto.
  - cbn [Model_Resources.act] in Ea. rewrite G in Ea. cbn in Ea. injection Ea as <- <-. cbn. eapply nth_set_same; eauto.
Qed.

(* what no generator holds stays open *)
Lemma left_open acts m l m' os r : inv m l -> In r l -> run m acts = (m', os) -> In r (opened (the_world _ m')).
Proof.
  intros I J H. destruct (run_inv _ _ _ _ _ I H) as (x & [_ P] & _). eapply Permutation_in; [symmetry; exact P|]. rewrite !in_app_iff. auto.
Qed.
End Runs.
