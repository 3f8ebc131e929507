(* Properties C88-C89: what is opened is closed. *)
From Coq Require Import String Ascii ZArith NArith Bool Permutation List Lia.
From Verif Require Import Base BaseFacts Model_Resources Spec_Resources Proofs_Resources Proofs_Resources2.
Import ListNotations.

(* ---------------- C88 ---------------- *)

(* REFUTED: if loading is interrupted (KeyboardInterrupt) after the session was made, the generator is finished and the session
   stays open, whatever happens afterwards. *)
Theorem C88_interrupt_refuted : forall (V S : Type) (proceed : S -> progress V S) w o s after,
  orderly w -> o = mkLoading None None None (Some Interrupt) None None None ->
  let (m, os) := run V S proceed (mkMachine _ [] w) ([CallTag _ o s; Next _ 0] ++ after) in
  firstn 2 os = [Created _; Raised _ Interrupt] /\ nth_error (generators _ m) 0 = Some (Finished _) /\
  exists r, fst r = Session /\ ~ In r (opened w) /\ In r (opened (the_world _ m)).
Proof.
  intros V S proceed w o s after O ->. cbn [app run act generators the_world nth_error advance].
  destruct (tagger_load (mkLoading None None None (Some Interrupt) None None None) w) as [w1 e1] eqn:El. pose proof El as El'.
  cbn [tagger_load with_file l_open_extractor l_read_extractor acquire model_load l_session l_graph] in El'. injection El' as <- <-.
  destruct (tagger_load_perm _ _ _ _ O El) as (O1 & L1 & _). cbn [after_load update set_nth generators].
  match goal with |- context [mkMachine _ ?g ?w] => set (m1 := mkMachine S g w) end.
  destruct (run V S proceed m1 after) as [m2 os2] eqn:Er.
  assert (I : inv S m1 (opened (the_world _ m1))) by (split; [exact O1|reflexivity]).
  split; [reflexivity|]. split.
  - eapply (finished_stays V S proceed after m1 0 m2 os2); [reflexivity|exact Er].
  - exists (Session, Datatypes.S (next_number w)). split; [reflexivity|]. split.
    + intros J. destruct O as [_ O]. rewrite Forall_forall in O. specialize (O _ J). cbn in O. lia.
    + eapply (left_open V S proceed after m1 _ m2 os2 _ I); [|exact Er]. left. reflexivity.
Qed.
Print Assumptions C88_interrupt_refuted.

(* If nothing but Exceptions is raised while taggers are loaded, then at any time exactly the sessions of taggers and trainers that
   are suspended at a yield are open, besides those that were open before.  Missing: interrupted loading. *)
Theorem C88_sessions_partial : forall (V S : Type) (proceed : S -> progress V S) w actions m,
  reached V S proceed w actions m -> Forall calm_action actions ->
  Permutation (sessions (opened (the_world _ m))) (sessions (in_use (generators _ m)) ++ sessions (opened w)).
Proof. exact sessions_open. Qed.
Print Assumptions C88_sessions_partial.

(* Between two yields a generator keeps its session; when it ends the session is closed. *)
Theorem C88_one_session : forall (V S : Type) (proceed : S -> progress V S) w before m after m' i r s,
  reached V S proceed w before m -> nth_error (generators _ m) i = Some (Suspended _ r s) -> fst (run V S proceed m after) = m' ->
  (exists s', nth_error (generators _ m') i = Some (Suspended _ r s') /\ In r (opened (the_world _ m'))) \/
  (nth_error (generators _ m') i = Some (Finished _) /\ ~ In r (opened (the_world _ m'))).
Proof. exact one_resource. Qed.
Print Assumptions C88_one_session.

(* Generators do not disturb each other: whatever is done with others, a tagger that can be loaded gives what it would give alone. *)
Theorem C88_results : forall (V S : Type) (proceed : S -> progress V S) w before m after i g s,
  reached V S proceed w before m -> nth_error (generators _ m) i = Some g ->
  (exists o, g = FreshTagger _ o s /\ loads o) \/ g = FreshTrainer _ None s \/ (exists f, g = FreshReader _ f s) \/ (exists r, g = Suspended _ r s) ->
  Forall (fun a => ~ leaves S i a) after ->
  nexts V S i after (snd (run V S proceed m after)) = plays V S proceed (length (nexts V S i after (snd (run V S proceed m after)))) s.
Proof. exact results. Qed.
Print Assumptions C88_results.

(* generators that count down to 0 and then stop, 7 raises *)
Definition ex_proceed (n : nat) : progress nat nat :=
  match n with O => Stops _ _ | 7%nat => Raises _ _ (Ordinary EValue) | Datatypes.S k => Yields _ _ n k end.
Definition ex_loads : loading := mkLoading None None None None None None None.
Definition ex_world : world := mkWorld [(Session, 3%nat)] 5.
(* two taggers used in turn, a third one that cannot be restored, a trainer that is closed *)
Definition ex_actions : list (action nat) :=
  [CallTag _ ex_loads 2%nat; CallTag _ ex_loads 9%nat; Next _ 0%nat; Next _ 1%nat; CallTag _ (mkLoading None None None (Some (Ordinary EIndex)) None None None) 1%nat;
   Next _ 2%nat; CallTrain _ None 4%nat; Next _ 3%nat; Next _ 0%nat; Leave _ 3%nat None; Next _ 1%nat; Next _ 1%nat; Next _ 1%nat].

Example C88_case :
  orderly ex_world /\ Forall calm_action ex_actions /\
  (let (m, os) := run nat nat ex_proceed (mkMachine _ [] ex_world) ex_actions in
   os = [Created _; Created _; Yielded _ 2%nat; Yielded _ 9%nat; Created _; Raised _ (Ordinary EIndex); Created _; Yielded _ 4%nat; Yielded _ 1%nat; Closed _;
         Yielded _ 8%nat; Raised _ (Ordinary EValue); Stopped _] /\
   generators _ m = [Suspended _ (Session, 6%nat) 0%nat; Finished _; Finished _; Finished _] /\
   opened (the_world _ m) = [(Session, 6%nat); (Session, 3%nat)]) /\
  (let (m, os) := run nat nat ex_proceed (mkMachine _ [] ex_world) (firstn 8 ex_actions) in
   sessions (in_use (generators _ m)) = [(Session, 6%nat); (Session, 9%nat); (Session, 13%nat)] /\ files (opened (the_world _ m)) = []) /\
  plays nat nat ex_proceed 4 9%nat = [Yielded _ 9%nat; Yielded _ 8%nat; Raised _ (Ordinary EValue); Stopped _].
Proof.
  split; [split; [repeat constructor; intros []|repeat constructor]|]. split; [repeat constructor; discriminate|]. vm_compute. auto 10.
Qed.

(* ---------------- C89 ---------------- *)

(* REFUTED: a reader that was closed before its first document leaves its file open, and load_conllu_file never closes its file;
   both stay open whatever is done afterwards. *)
Theorem C89_files_refuted : forall (V S : Type) (proceed : S -> progress V S) w s after,
  orderly w ->
  (let (m, os) := run V S proceed (mkMachine _ [] w) ([CallRead _ None s; Leave _ 0 None] ++ after) in
   firstn 2 os = [Created _; Closed _] /\ exists f, fst f = File /\ ~ In f (opened w) /\ In f (opened (the_world _ m))) /\
  (let (m, os) := run V S proceed (mkMachine _ [] w) ([LoadFile _ None None] ++ after) in
   firstn 1 os = [Loaded _] /\ exists f, fst f = File /\ ~ In f (opened w) /\ In f (opened (the_world _ m))).
Proof.
  intros V S proceed w s after O.
  assert (N : ~ In (File, next_number w) (opened w)) by (intros J; destruct O as [_ O]; rewrite Forall_forall in O; specialize (O _ J); cbn in O; lia).
  pose proof (acquire_orderly File w O) as O1. cbn [acquire fst] in O1. split; cbn [app run act generators the_world nth_error leave update set_nth acquire].
  - match goal with |- context [mkMachine _ ?g ?w] => set (m1 := mkMachine S g w) end. destruct (run V S proceed m1 after) as [m2 os2] eqn:Er.
    assert (I : inv S m1 (opened (the_world _ m1))) by (split; [exact O1|reflexivity]). split; [reflexivity|]. exists (File, next_number w). do 2 (split; [solve [auto]|]).
    eapply (left_open V S proceed after m1 _ m2 os2 _ I); [|exact Er]. left. reflexivity.
  - match goal with |- context [mkMachine _ ?g ?w] => set (m1 := mkMachine S g w) end. destruct (run V S proceed m1 after) as [m2 os2] eqn:Er.
    assert (I : inv S m1 (opened (the_world _ m1))) by (split; [exact O1|reflexivity]). split; [reflexivity|]. exists (File, next_number w). do 2 (split; [solve [auto]|]).
    eapply (left_open V S proceed after m1 _ m2 os2 _ I); [|exact Er]. left. reflexivity.
Qed.
Print Assumptions C89_files_refuted.

(* From the first document on, a reader has its file open until it ends or is closed.  Missing: readers that are never advanced. *)
Theorem C89_reader_partial : forall (V S : Type) (proceed : S -> progress V S) w before m after m' i f s,
  reached V S proceed w before m -> nth_error (generators _ m) i = Some (FreshReader _ f s) -> fst (run V S proceed m (Next _ i :: after)) = m' ->
  (exists s', nth_error (generators _ m') i = Some (Suspended _ f s') /\ In f (opened (the_world _ m'))) \/
  (nth_error (generators _ m') i = Some (Finished _) /\ ~ In f (opened (the_world _ m'))).
Proof. exact reader_file. Qed.
Print Assumptions C89_reader_partial.

Example C89_case :
  let (m, os) := run nat nat ex_proceed (mkMachine _ [] ex_world) [CallRead _ None 2%nat; CallRead _ (Some (Ordinary EUser)) 1%nat; CallRead _ None 3%nat] in
  os = [Created _; Raised _ (Ordinary EUser); Created _] /\ reached nat nat ex_proceed ex_world [CallRead _ None 2%nat; CallRead _ (Some (Ordinary EUser)) 1%nat; CallRead _ None 3%nat] m /\
  nth_error (generators _ m) 1 = Some (FreshReader _ (File, 6%nat) 3%nat) /\
  (let (m', os') := run nat nat ex_proceed m [Next _ 1%nat; Next _ 0%nat; Next _ 1%nat; Leave _ 1%nat None; Next _ 0%nat] in
   os' = [Yielded _ 3%nat; Yielded _ 2%nat; Yielded _ 2%nat; Closed _; Yielded _ 1%nat] /\
   opened (the_world _ m') = [(File, 5%nat); (Session, 3%nat)]) /\
  (let (m', os') := run nat nat ex_proceed m [Leave _ 1%nat None] in opened (the_world _ m') = [(File, 6%nat); (File, 5%nat); (Session, 3%nat)]).
Proof. split; [reflexivity|]. split; [split; [split; [repeat constructor; intros []|repeat constructor]|reflexivity]|]. vm_compute. auto. Qed.
