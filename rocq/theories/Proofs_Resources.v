(* Files and sessions: what is open. *)
From Coq Require Import String Ascii ZArith NArith Bool Permutation List Lia.
From Verif Require Import Base BaseFacts Model_Resources Spec_Resources.
Import ListNotations.

Lemma filter_keep {A} (f : A -> bool) l : Forall (fun x => f x = true) l -> filter f l = l.
Proof. induction 1 as [|x l H _ IH]; [reflexivity|]. cbn. rewrite H, IH. reflexivity. Qed.

Lemma filter_perm {A} (f : A -> bool) l l' : Permutation l l' -> Permutation (filter f l) (filter f l').
Proof.
  induction 1 as [|x l l' _ IH|x y l|l l' l'' _ IH1 _ IH2]; cbn; auto.
  - destruct (f x); auto.
  - destruct (f x), (f y); auto. constructor.
  - eapply perm_trans; eauto.
Qed.

(* releasing removes exactly the resource *)
Lemma release_perm r w rest : orderly w -> Permutation (opened w) (r :: rest) -> orderly (release r w) /\ Permutation (opened (release r w)) rest.
Proof.
  intros [N L] P. unfold release. cbn [opened next_number].
  assert (N' : NoDup (map snd (r :: rest))) by (eapply Permutation_NoDup; [apply Permutation_map; exact P|exact N]).
  assert (X : Permutation (filter (fun x => negb (snd x =? snd r)%nat) (opened w)) rest).
  { eapply perm_trans; [apply filter_perm; exact P|]. cbn [filter]. rewrite Nat.eqb_refl. cbn [negb]. rewrite filter_keep; [reflexivity|].
    cbn [map] in N'. inversion N' as [|? ? N1 _]; subst. apply Forall_forall. intros x I. destruct (Nat.eqb_spec (snd x) (snd r)) as [E|]; [|reflexivity].
    exfalso. apply N1. rewrite <- E. apply in_map. exact I. }
  split; [|exact X]. split; cbn [opened next_number].
  - inversion N' as [|? ? _ N2]; subst. eapply Permutation_NoDup; [|exact N2]. apply Permutation_map. symmetry. exact X.
  - apply Forall_forall. intros x I. apply filter_In in I. rewrite Forall_forall in L. apply L. tauto.
Qed.

Lemma acquire_orderly k w : orderly w -> orderly (fst (acquire k w)).
Proof.
  intros [N L]. split; cbn [acquire fst opened next_number map snd].
  - constructor; auto. intros I. apply in_map_iff in I. destruct I as (x & E & I). rewrite Forall_forall in L. specialize (L x I). lia.
  - constructor; [cbn; lia|]. eapply Forall_impl; [|exact L]. cbn. intros; lia.
Qed.

(* a resource that is opened and closed at once leaves no trace *)
Lemma with_file_perm a b w w' e : orderly w -> with_file a b w = (w', e) ->
  orderly w' /\ Permutation (opened w') (opened w) /\ (next_number w <= next_number w')%nat /\ e = match a with Some r => Some r | None => b end.
Proof.
  intros O H. unfold with_file in H. destruct a as [r|]; [injection H as <- <-; auto|].
  pose proof (acquire_orderly File w O) as O1. cbn [acquire] in H. injection H as <- <-. cbn [acquire fst] in O1.
  destruct (release_perm (File, next_number w) _ (opened w) O1 (Permutation_refl _)) as [O2 P]. split; [exact O2|]. split; [exact P|]. split; [cbn; lia|reflexivity].
Qed.

Lemma model_load_perm o w w' r : orderly w -> model_load o w = (w', r) ->
  orderly w' /\ (next_number w <= next_number w')%nat /\
  match r with
  | inl s => Permutation (opened w') (s :: opened w) /\ fst s = Session /\ (next_number w <= snd s)%nat
  | inr (Ordinary _) => Permutation (opened w') (opened w)
  | inr Interrupt => exists l, Permutation (opened w') (l ++ opened w) /\ (calm o -> l = [])
  end.
Proof.
  intros O H. unfold model_load in H. destruct (l_session o) as [[e|]|] eqn:Es.
  - injection H as <- <-. split; auto.
  - injection H as <- <-. split; auto. split; auto. exists []. split; [reflexivity|auto].
  - pose proof (acquire_orderly Session w O) as O1. cbn [acquire fst] in O1, H.
    set (w1 := mkWorld ((Session, next_number w) :: opened w) (S (next_number w))) in *.
    assert (X : exists w2 failed, (match l_graph o with
                          | Some r => (w1, Some r)
                          | None => let (w2, e) := with_file (l_open_mapping o) (l_read_mapping o) w1 in
                                    (w2, match e with Some r => Some r | None => l_attach o end)
                          end) = (w2, failed) /\ orderly w2 /\ Permutation (opened w2) (opened w1) /\ (next_number w1 <= next_number w2)%nat /\ (calm o -> failed <> Some Interrupt)).
    { destruct (l_graph o) as [e|] eqn:Eg.
      - exists w1, (Some e). do 4 (split; [solve [auto]|]). intros C X. injection X as ->. unfold calm in C. rewrite Eg in C. tauto.
      - destruct (with_file (l_open_mapping o) (l_read_mapping o) w1) as [w2 e] eqn:Ew. destruct (with_file_perm _ _ _ _ _ O1 Ew) as (O2 & P & L & Ee).
        eexists w2, _. split; [reflexivity|]. do 3 (split; [solve [auto]|]). intros C. unfold calm in C. subst e.
        destruct (l_open_mapping o); [tauto|]. destruct (l_read_mapping o); tauto. }
    destruct X as (w2 & failed & E & O2 & P & L & C). rewrite E in H. clear E. assert (L' : (next_number w <= next_number w2)%nat) by (cbn [w1 next_number] in L; lia).
    destruct failed as [[e|]|]; injection H as <- <-.
    + destruct (release_perm (Session, next_number w) w2 (opened w) O2 P) as [O3 P3]. auto.
    + split; [auto|]. split; [auto|]. exists [(Session, next_number w)]. split; [exact P|]. intros K. destruct (C K eq_refl).
    + split; [auto|]. split; [auto|]. split; [exact P|]. split; [reflexivity|cbn; lia].
Qed.

Lemma tagger_load_perm o w w' r : orderly w -> tagger_load o w = (w', r) ->
  orderly w' /\ (next_number w <= next_number w')%nat /\
  match r with
  | inl s => Permutation (opened w') (s :: opened w) /\ fst s = Session /\ (next_number w <= snd s)%nat
  | inr (Ordinary _) => Permutation (opened w') (opened w)
  | inr Interrupt => exists l, Permutation (opened w') (l ++ opened w) /\ (calm o -> l = [])
  end.
Proof.
  intros O H. unfold tagger_load in H. destruct (with_file (l_open_extractor o) (l_read_extractor o) w) as [w1 e] eqn:Ew.
  destruct (with_file_perm _ _ _ _ _ O Ew) as (O1 & P1 & L1 & Ee). destruct e as [e|].
  - injection H as <- <-. split; [auto|]. split; [auto|]. destruct e; [auto|]. exists []. split; [auto|reflexivity].
  - destruct (model_load_perm o w1 w' r O1 H) as (O2 & L2 & X). split; auto. split; [lia|]. destruct r as [s|[e|]].
    + destruct X as (P & K & N). split; [eapply perm_trans; [exact P|constructor; exact P1]|]. split; auto. lia.
    + eapply perm_trans; eauto.
    + destruct X as (l & P & C). exists l. split; auto. eapply perm_trans; [exact P|]. apply Permutation_app_head. exact P1.
Qed.

Lemma tagger_load_ok o w : loads o -> exists w', tagger_load o w = (w', inl (Session, S (next_number w))).
Proof.
  intros ->. cbn. eexists. reflexivity.
Qed.

Section Runs.
Variables (V S : Type) (proceed : S -> progress V S).
Notation generator := (generator S).
Notation machine := (machine S).
Notation action := (action S).
Notation act := (act V S proceed).
Notation run := (run V S proceed).

(* what a generator holds *)
Definition holds (g : generator) : list resource := match g with FreshReader _ f _ => [f] | Suspended _ r _ => [r] | _ => [] end.
Definition held (gs : list generator) : list resource := flat_map holds gs.
Definition calm_generator (g : generator) : Prop := match g with FreshTagger _ o _ => calm o | FreshReader _ f _ => fst f = File | _ => True end.

Lemma held_set gs i g g' : nth_error gs i = Some g -> exists rest, Permutation (held gs) (holds g ++ rest) /\ Permutation (held (set_nth gs i g')) (holds g' ++ rest).
Proof.
  unfold held. revert i. induction gs as [|x gs IH]; intros i H; [destruct i; discriminate|]. destruct i as [|i]; cbn in *.
  - injection H as ->. eexists. split; reflexivity.
  - destruct (IH i H) as (rest & P1 & P2). exists (holds x ++ rest). split.
    + rewrite P1. rewrite !app_assoc. apply Permutation_app_tail. apply Permutation_app_comm.
    + rewrite P2. rewrite !app_assoc. apply Permutation_app_tail. apply Permutation_app_comm.
Qed.

Definition inv (m : machine) (left : list resource) : Prop :=
  orderly (the_world _ m) /\ Permutation (opened (the_world _ m)) (held (generators _ m) ++ left).

Definition file (r : resource) : Prop := fst r = File.

(* one generator, the rest of the world *)
Definition local (g : generator) (w : world) (rest : list resource) : Prop := orderly w /\ Permutation (opened w) (holds g ++ rest).

Lemma is_open_in r w : In r (opened w) -> is_open r w = true.
Proof. intros I. unfold is_open. apply existsb_exists. exists r. split; auto. apply Nat.eqb_refl. Qed.

Lemma resume_local r s w rest g' w' o : orderly w -> Permutation (opened w) (r :: rest) -> resume V S proceed r s w = (g', w', o) ->
  local g' w' rest /\ next_number w' = next_number w /\ ((exists s', g' = Suspended _ r s') \/ g' = Finished _) /\
  match proceed s with
  | Yields _ _ v s' => g' = Suspended _ r s' /\ o = Yielded _ v
  | Stops _ _ => g' = Finished _ /\ o = Stopped _
  | Raises _ _ e => g' = Finished _ /\ o = Raised _ e
  end.
Proof.
  intros O P H. unfold resume in H. rewrite is_open_in in H by (eapply Permutation_in; [symmetry; exact P|left; reflexivity]).
  destruct (proceed s); injection H as <- <- <-.
  - split; [split; [auto|exact P]|]. eauto 6.
  - destruct (release_perm r w rest O P). split; [split; auto|]. auto 6.
  - destruct (release_perm r w rest O P). split; [split; auto|]. auto 6.
Qed.

Lemma advance_local g w rest g' w' o : local g w rest -> advance V S proceed g w = (g', w', o) ->
  exists extra, local g' w' (extra ++ rest) /\ (next_number w <= next_number w')%nat /\
    (extra = [] \/ (holds g = [] /\ ~ calm_generator g)) /\
    ((exists r s', g' = Suspended _ r s' /\ (holds g = [r] \/ (holds g = [] /\ fst r = Session /\ (next_number w <= snd r)%nat))) \/ g' = Finished _).
Proof.
  intros [O P] H. destruct g as [ld s|o1 s|f s|r s|]; cbn [advance holds] in H, P; cbn [holds].
  - destruct (tagger_load ld w) as [w1 [s1|e]] eqn:El; destruct (tagger_load_perm _ _ _ _ O El) as (O1 & L1 & X); cbn [after_load] in H.
    + destruct X as (P1 & K1 & N1). assert (P2 : Permutation (opened w1) (s1 :: rest)) by (eapply perm_trans; [exact P1|constructor; exact P]).
      destruct (resume_local s1 s w1 rest g' w' o O1 P2 H) as (Lc & Nn & Sh & _). exists []. split; [exact Lc|]. split; [lia|]. split; [auto|].
      destruct Sh as [(s' & ->)| ->]; [left|right; auto]. exists s1, s'. split; auto.
    + injection H as <- <- <-. destruct e as [e|].
      * exists []. split; [split; [auto|cbn [holds]; eapply perm_trans; [exact X|exact P]]|]. split; auto.
      * destruct X as (l & P1 & C). exists l. split; [split; [auto|cbn [holds app]; eapply perm_trans; [exact P1|apply Permutation_app_head; exact P]]|]. split; auto.
        split; [|auto]. destruct l as [|x l]; [auto|]. right. split; auto. cbn. intros K. specialize (C K). discriminate.
  - unfold model_new in H. destruct o1 as [e|].
    + cbn in H. injection H as <- <- <-. exists []. split; [split; auto|]. auto.
    + pose proof (acquire_orderly Session w O) as O1. cbn [acquire fst] in O1. cbn [acquire after_load] in H.
      destruct (resume_local (Session, next_number w) s _ rest g' w' o O1 (perm_skip _ P) H) as (Lc & Nn & Sh & _). exists []. split; [exact Lc|]. cbn [next_number] in Nn. split; [lia|].
      split; [auto|]. destruct Sh as [(s' & ->)| ->]; [left|right; auto]. eexists _, s'. split; [reflexivity|]. right. cbn. auto.
  - destruct (resume_local f s w rest g' w' o O P H) as (Lc & Nn & Sh & _). exists []. split; [exact Lc|]. split; [lia|]. split; [auto|].
    destruct Sh as [(s' & ->)| ->]; [left|right; auto]. exists f, s'. auto.
  - destruct (resume_local r s w rest g' w' o O P H) as (Lc & Nn & Sh & _). exists []. split; [exact Lc|]. split; [lia|]. split; [auto|].
    destruct Sh as [(s' & ->)| ->]; [left|right; auto]. exists r, s'. auto.
  - injection H as <- <- <-. exists []. split; [split; auto|]. auto.
Qed.

Lemma leave_local e g w rest g' w' o : local g w rest -> leave V S e g w = (g', w', o) ->
  g' = Finished _ /\ next_number w' = next_number w /\
  exists extra, local g' w' (extra ++ rest) /\ (extra = [] \/ exists f s, g = FreshReader _ f s /\ extra = [f]).
Proof.
  intros [O P] H. destruct g as [ld s|o1 s|f s|r s|]; cbn [leave holds] in H, P; injection H as <- <- <-; split; auto; split; auto.
  - exists []. split; [split; auto|auto].
  - exists []. split; [split; auto|auto].
  - exists [f]. split; [split; [auto|exact P]|right; eauto].
  - destruct (release_perm r w rest O P). exists []. split; [split; auto|auto].
  - exists []. split; [split; auto|auto].
Qed.
End Runs.
