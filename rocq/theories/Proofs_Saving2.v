(* Saving and loading a tagger. *)
From Coq Require Import String Ascii ZArith NArith Bool List Lia.
From Verif Require Import Base BaseFacts Model_Harness Spec_Harness Model_Network Spec_Network Proofs_Network
  Model_Saving Spec_Saving Proofs_Saving.
Import ListNotations.
Open Scope Z_scope.

Lemma place_dec (p q : place) : {p = q} + {p <> q}.
Proof. apply (list_eq_dec (list_eq_dec N.eq_dec)). Qed.

(* ---------------- missing folders ---------------- *)

Lemma makedirs_steps {B} (fs : files B) rp : Forall (fun o => (exists e, o = Raise e) \/ exists p q, o = Mkdir p /\ rev rp = p ++ q) (makedirs fs rp).
Proof.
  induction rp as [|c rp IH]; cbn [makedirs].
  - constructor; [left; eauto|constructor].
  - apply Forall_app. split.
    + destruct (there fs (rev rp)); [constructor|]. eapply Forall_impl; [|exact IH]. cbn beta.
      intros o [H|(p & q & H1 & H2)]; [left; auto|]. right. exists p, (q ++ [c]). split; auto. cbn [rev]. rewrite H2, app_assoc. auto.
    + constructor; [|constructor]. right. exists (rev (c :: rp)), []. rewrite app_nil_r. auto.
Qed.

Lemma folders_frame {B} cwd (fs : files B) path k q :
  let r := run_steps fs (firstn k (if path_exists cwd fs path then [] else makedirs_path cwd fs path)) in
  fst r q = fs q \/ fs q = None /\ fst r q = Some Folder /\ exists r, resolve cwd path = q ++ r.
Proof.
  cbv zeta. set (l := if path_exists cwd fs path then [] else makedirs_path cwd fs path).
  assert (Forall (fun o => (exists e, o = Raise e) \/ exists p q, o = Mkdir p /\ resolve cwd path = p ++ q) l) as F.
  { unfold l. destruct (path_exists cwd fs path); [constructor|]. unfold makedirs_path. destruct path as [|x s].
    - constructor; [left; eauto|constructor].
    - pose proof (makedirs_steps fs (rev (resolve cwd (x :: s)))) as M. rewrite rev_involutive in M. exact M. }
  assert (Forall (fun o => (exists e, o = Raise e) \/ exists p q, o = Mkdir p /\ resolve cwd path = p ++ q) (firstn k l)) as F'.
  { apply Forall_forall. intros o J. rewrite Forall_forall in F. apply F. rewrite <- (firstn_skipn k). apply in_or_app. auto. }
  destruct (run_frame (firstn k l) fs q) as [E|(E & N & M)]; [|auto|].
  - eapply Forall_impl; [|exact F']. cbn beta. intros o [(e & ->)|(p & r & -> & _)]; cbn; auto.
  - right. split; auto. split; auto. apply Exists_exists in E. destruct E as (o & J & K).
    rewrite Forall_forall in F'. destruct (F' o J) as [(e & ->)|(p & r & -> & R)]; [destruct K|]. cbn in K. subst p. eauto.
Qed.

Lemma makedirs_work {B} rp : forall fs : files B, tree fs -> fs (rev rp) = None ->
  (forall p q c, rev rp = p ++ q -> fs p <> Some (Regular c)) ->
  snd (run_steps fs (makedirs fs rp)) = None /\ fst (run_steps fs (makedirs fs rp)) (rev rp) = Some Folder.
Proof.
  induction rp as [|c rp IH]; intros fs T N R.
  - destruct T as (T & _). cbn in N. congruence.
  - cbn [makedirs]. rewrite run_app. unfold there. destruct (fs (rev rp)) as [n|] eqn:E; cbn [is_none negb].
    + assert (n = Folder) as ->. { destruct n as [|x]; auto. exfalso. apply (R (rev rp) [c] x); auto. }
      cbn [run_steps run_step fst snd]. rewrite N. cbn [rev]. rewrite removelast_last, E. cbn [fst snd]. split; auto. apply put_same.
    + destruct (IH fs T E) as (H1 & H2).
      { intros p q x H. apply (R p (q ++ [c]) x). cbn [rev]. rewrite H, app_assoc. auto. }
      pose proof (makedirs_steps fs rp) as M.
      destruct (run_frame (makedirs fs rp) fs (rev (c :: rp))) as [F|(F & _)].
      { eapply Forall_impl; [|exact M]. cbn beta. intros o [(e & ->)|(p & r & -> & _)]; cbn; auto. }
      2: { exfalso. apply Exists_exists in F. destruct F as (o & J & K). rewrite Forall_forall in M.
           destruct (M o J) as [(e & ->)|(p & r & -> & Q)]; [destruct K|]. cbn [makes] in K. subst p.
           apply (f_equal (@length str)) in Q. cbn [rev] in Q. rewrite !app_length in Q. cbn [length] in Q. lia. }
      destruct (run_steps fs (makedirs fs rp)) as (fs1 & e). cbn [fst snd] in *. subst e.
      cbn [run_steps run_step]. rewrite F, N. cbn [rev]. rewrite removelast_last, H2. cbn [fst snd]. split; auto. apply put_same.
Qed.

(* ---------------- the files of a tagger ---------------- *)

Section Tagger.
Context {B X I T O V : Type}.
Variables (tname : T -> str) (oname : O -> str) (f : formats B X I T O V) (cwd : place).

Definition at_path (path : str) (name : string) : place := resolve cwd path ++ [of_string name].

Definition tagger_blocks (t : tagger X I T O V) (values : dict V) (path : str) : list (place * list B) :=
  [(at_path path "extractor-interpreter", enc (f_pair f) (t_extractor t, t_interpreter t));
   (at_path path "graph.data-00000-of-00001", f_data f values);
   (at_path path "graph.index", f_index f values);
   (at_path path "checkpoint", f_checkpoint f (graph_path path));
   (at_path path "graph.meta", enc (f_graph f) (t_graph t));
   (at_path path "mapping", enc (f_mapping f) (mapping tname oname (t_network t)))].

Lemma places t values path : map fst (tagger_blocks t values path) = map (fun n => resolve cwd path ++ [n]) tagger_files.
Proof. reflexivity. Qed.

Lemma files_distinct : NoDup tagger_files.
Proof. unfold tagger_files. cbn [map]. repeat (constructor; [vm_compute; intuition discriminate|]). constructor. Qed.

Lemma places_distinct t values path : NoDup (map fst (tagger_blocks t values path)).
Proof.
  rewrite places. apply FinFun.Injective_map_NoDup; [|apply files_distinct]. intros a b E.
  apply app_inj_tail in E. tauto.
Qed.

Definition folder_steps (fs : files B) (path : str) : list (step B) :=
  if path_exists cwd fs path then [] else makedirs_path cwd fs path.

Lemma steps_blocks fs t path values : saved_values (t_graph t) (t_session t) = Ok values ->
  save_steps tname oname f cwd fs t path = folder_steps fs path ++ blocks (tagger_blocks t values path).
Proof.
  intros E. unfold save_steps, model_steps, saver_steps. rewrite E. unfold blocks, tagger_blocks, at_path. cbn [flat_map fst snd].
  rewrite place_extractor, place_data, place_index, place_checkpoint, place_meta, place_mapping, app_nil_r.
  rewrite <- !app_assoc. reflexivity.
Qed.

Lemma sound_values (t : tagger X I T O V) : sound_tagger tname oname t -> exists values,
  saved_values (t_graph t) (t_session t) = Ok values.
Proof.
  intros (_ & _ & _ & _ & NE & H). unfold saved_values. destruct (g_variables (t_graph t)) as [|v vs]; [congruence|]. clear NE.
  revert H. generalize (v :: vs). induction l as [|w l IH]; intros H; cbn [mapM]; [eauto|].
  destruct (H w (or_introl eq_refl)) as (x & ->). destruct IH as (l' & ->); [firstorder|]. cbn. eauto.
Qed.

Lemma values_get vs : forall (s values : dict V),
  mapM (fun v => do x <- of_option EExc (dict_get s v); Ok (v, x)) vs = Ok values ->
  same_values vs s values /\ (forall v, In v vs -> dict_get values v <> None).
Proof.
  intros s values H. assert (forall v, dict_get values v <> None -> dict_get values v = dict_get s v) as A.
  { revert values H. induction vs as [|w vs IH]; intros values H; cbn [mapM] in H.
    - injection H as <-. cbn. congruence.
    - destruct (dict_get s w) as [x|] eqn:E; cbn [of_option bind] in H; [|discriminate].
      destruct (mapM _ vs) as [l|] eqn:M; cbn [bind] in H; [|discriminate]. injection H as <-. intros v. cbn [dict_get].
      destruct (str_eqb v w) eqn:D.
      + apply str_eqb_eq in D. subst. congruence.
      + apply IH. auto. }
  assert (forall v, In v vs -> dict_get values v <> None) as D.
  { clear A. revert values H. induction vs as [|w vs IH]; intros values H v J; [destruct J|]. cbn [mapM] in H.
    destruct (dict_get s w) as [x|] eqn:E; cbn [of_option bind] in H; [|discriminate].
    destruct (mapM _ vs) as [l|] eqn:M; cbn [bind] in H; [|discriminate]. injection H as <-. cbn [dict_get].
    destruct (str_eqb v w) eqn:Dv; [congruence|]. destruct J as [->|J]; [|eapply IH; eauto].
    apply str_eqb_neq in Dv. congruence. }
  split; auto. intros v J. symmetry. apply A. auto.
Qed.

Lemma values_total vs (s : dict V) : (forall v, In v vs -> dict_get s v <> None) ->
  exists values, mapM (fun v => do x <- of_option EExc (dict_get s v); Ok (v, x)) vs = Ok values.
Proof.
  induction vs as [|w l IH]; intros H; cbn [mapM]; [eauto|]. pose proof (H w (or_introl eq_refl)) as Hw.
  destruct (dict_get s w); [|congruence]. destruct IH as (l' & ->); [firstorder|]. cbn. eauto.
Qed.

(* what is read from the files of a tagger *)
Lemma load_files (good : good_formats f) (t : tagger X I T O V) values fs path xi n :
  sound_tagger tname oname t -> saved_values (t_graph t) (t_session t) = Ok values ->
  read_file fs (at_path path "extractor-interpreter") = Ok xi -> dec (f_pair f) xi = Ok n ->
  (forall name c, In (at_path path name, c) (tl (tagger_blocks t values path)) -> fs (at_path path name) = Some (Regular c)) ->
  exists t', load tname oname f cwd fs path = Ok t' /\ t_extractor t' = fst n /\ t_interpreter t' = snd n
    /\ t_network t' = t_network t /\ t_graph t' = t_graph t
    /\ same_values (g_variables (t_graph t)) (t_session t) (t_session t').
Proof.
  intros So Sv E1 E2 Fs. destruct good as ((G1 & _) & (G2 & _) & (G3 & _) & G4).
  assert (forall name c, In (at_path path name, c) (tl (tagger_blocks t values path)) -> read_file fs (at_path path name) = Ok c) as Rd.
  { intros name c J. unfold read_file. rewrite (Fs name c); auto. }
  unfold load. rewrite place_extractor. fold (at_path path "extractor-interpreter"). rewrite E1. cbn [bind]. rewrite E2. cbn [bind].
  unfold load_model. rewrite place_meta, place_index, place_data, place_mapping.
  fold (at_path path "graph.meta") (at_path path "graph.index") (at_path path "graph.data-00000-of-00001") (at_path path "mapping").
  rewrite (Rd "graph.meta"%string (enc (f_graph f) (t_graph t))) by (cbn; tauto). cbn [bind]. rewrite G3. cbn [bind].
  rewrite (Rd "graph.index"%string (f_index f values)) by (cbn; tauto). cbn [bind].
  rewrite (Rd "graph.data-00000-of-00001"%string (f_data f values)) by (cbn; tauto). cbn [bind]. rewrite G4. cbn [bind].
  assert (same_values (g_variables (t_graph t)) (t_session t) values
          /\ forall v, In v (g_variables (t_graph t)) -> dict_get values v <> None) as (Sa & Sb).
  { unfold saved_values in Sv. destruct (g_variables (t_graph t)) as [|v vs] eqn:Ev; [discriminate|]. apply values_get; auto. }
  destruct (values_total _ _ Sb) as (session & Es). rewrite Es. cbn [bind].
  rewrite (Rd "mapping"%string (enc (f_mapping f) (mapping tname oname (t_network t)))) by (cbn; tauto). cbn [bind].
  rewrite G2. cbn [bind].
  assert (attach (named tname (g_tensors (t_graph t))) (named oname (g_ops (t_graph t))) (mapping tname oname (t_network t)) = Ok (t_network t)) as At.
  { destruct So as (U1 & U2 & I1 & I2 & _). apply (attach_iff tname oname); auto. }
  rewrite At. cbn [bind]. eexists. split; [reflexivity|]. cbn [t_extractor t_interpreter t_network t_graph t_session].
  repeat (split; [reflexivity|]). intros v J. apply values_get in Es. destruct Es as (Es & _). rewrite Sa by auto. auto.
Qed.

Lemma save_blocks fs t path values fs' : saved_values (t_graph t) (t_session t) = Ok values ->
  save tname oname f cwd fs t path = (fs', None) -> forall p c, In (p, c) (tagger_blocks t values path) -> fs' p = Some (Regular c).
Proof.
  intros Sv E p c J. unfold save in E. rewrite (steps_blocks _ _ _ _ Sv), run_app in E.
  destruct (run_steps fs (folder_steps fs path)) as (fs1 & [e|]); [discriminate|].
  pose proof (blocks_all (tagger_blocks t values path) fs1 (places_distinct _ _ _)) as A. rewrite E in A. apply A; auto.
Qed.

Lemma round_trip fs t path fs' : good_formats f -> sound_tagger tname oname t ->
  save tname oname f cwd fs t path = (fs', None) -> exists t', load tname oname f cwd fs' path = Ok t' /\ same_tagger t t'.
Proof.
  intros good So E. destruct (sound_values t So) as (values & Sv). pose proof (save_blocks _ _ _ _ _ Sv E) as W.
  destruct (load_files good t values fs' path (enc (f_pair f) (t_extractor t, t_interpreter t)) (t_extractor t, t_interpreter t))
    as (t' & L & H); auto.
  - unfold read_file. rewrite (W _ (enc (f_pair f) (t_extractor t, t_interpreter t))); cbn; auto.
  - apply good.
  - intros name c J. apply W. right. exact J.
  - exists t'. split; auto.
Qed.

Lemma at_parent path name : removelast (at_path path name) = resolve cwd path.
Proof. unfold at_path. apply removelast_last. Qed.

Lemma saves fs t path : tree fs -> free_path cwd fs path -> sound_tagger tname oname t ->
  snd (save tname oname f cwd fs t path) = None.
Proof.
  intros Tr (NE & F1 & F2) So. destruct (sound_values t So) as (values & Sv). unfold save.
  rewrite (steps_blocks _ _ _ _ Sv), run_app.
  assert (snd (run_steps fs (folder_steps fs path)) = None
          /\ fst (run_steps fs (folder_steps fs path)) (resolve cwd path) = Some Folder) as (A1 & A2).
  { unfold folder_steps, path_exists, makedirs_path, there. destruct path as [|x s]; [congruence|].
    destruct (fs (resolve cwd (x :: s))) as [n|] eqn:E; cbn [is_none negb].
    - cbn [run_steps fst snd]. split; auto. rewrite E. destruct n as [|c]; auto. exfalso.
      apply (F1 (resolve cwd (x :: s)) [] c); auto. rewrite app_nil_r. auto.
    - pose proof (makedirs_work (rev (resolve cwd (x :: s))) fs Tr) as M. rewrite rev_involutive in M. apply M; auto. }
  pose proof (folders_frame cwd fs path (length (folder_steps fs path))) as Fr.
  fold (folder_steps fs path) in Fr. rewrite firstn_all in Fr. cbv zeta in Fr.
  destruct (run_steps fs (folder_steps fs path)) as (fs1 & e). cbn [fst snd] in *. subst e.
  apply (blocks_work _ (resolve cwd path)); auto.
  - intros p c J. assert (exists name, In name tagger_files /\ p = resolve cwd path ++ [name]) as (name & Jn & ->).
    { apply (in_map fst) in J. rewrite places in J. cbn [fst] in J. apply in_map_iff in J. destruct J as (name & <- & Jn). eauto. }
    split; [|apply removelast_last]. destruct (Fr (resolve cwd path ++ [name])) as [->|(_ & _ & r & Q)]; [apply F2; auto|].
    exfalso. apply (f_equal (@length str)) in Q. rewrite !app_length in Q. cbn [length] in Q. lia.
  - rewrite places. intros J. apply in_map_iff in J. destruct J as (name & Q & _).
    apply (f_equal (@length str)) in Q. rewrite !app_length in Q. cbn [length] in Q. lia.
Qed.

(* ---------------- elsewhere ---------------- *)

(* only the files of the tagger are written, and folders that lead to it made *)
Lemma save_frame fs t path k q : ~ In q (map (fun n => resolve cwd path ++ [n]) tagger_files) ->
  let fs' := interrupted tname oname f cwd fs t path k in
  fs' q = fs q \/ fs q = None /\ fs' q = Some Folder /\ exists r, resolve cwd path = q ++ r.
Proof.
  intros N. cbv zeta. unfold interrupted.
  assert (forall o, In o (firstn k (save_steps tname oname f cwd fs t path)) ->
    ~ writes_at q o /\ (makes q o -> exists r, resolve cwd path = q ++ r)) as H.
  { intros o J. assert (In o (save_steps tname oname f cwd fs t path)) as J'.
    { rewrite <- (firstn_skipn k). apply in_or_app. auto. }
    assert (In o (folder_steps fs path) -> ~ writes_at q o /\ (makes q o -> exists r, resolve cwd path = q ++ r)) as HF.
    { intros K. unfold folder_steps in K. destruct (path_exists cwd fs path); [destruct K|]. unfold makedirs_path in K.
      destruct path as [|x s]; [destruct K as [<-|[]]; cbn; tauto|].
      pose proof (makedirs_steps fs (rev (resolve cwd (x :: s)))) as M. rewrite rev_involutive in M. rewrite Forall_forall in M.
      destruct (M o K) as [(e & ->)|(p & r & -> & R)]; cbn; [tauto|]. split; auto. intros <-. eauto. }
    assert (forall l : list (place * list B), incl (map fst l) (map (fun n => resolve cwd path ++ [n]) tagger_files) -> In o (blocks l) ->
            ~ writes_at q o /\ (makes q o -> exists r, resolve cwd path = q ++ r)) as HB.
    { intros l Inc K. unfold blocks in K. apply in_flat_map in K. destruct K as ((p & c) & K1 & K2). cbn [fst snd] in K2.
      assert (p <> q) as D. { intros ->. apply N, Inc. apply in_map_iff. exists (q, c). auto. }
      destruct K2 as [<-|K2]; cbn; [tauto|]. apply in_map_iff in K2. destruct K2 as (b & <- & _). cbn. tauto. }
    destruct (saved_values (t_graph t) (t_session t)) as [values|e] eqn:Sv.
    - rewrite (steps_blocks _ _ _ _ Sv) in J'. apply in_app_or in J'. destruct J' as [J'|J']; auto.
      apply (HB (tagger_blocks t values path)); auto. rewrite places. apply incl_refl.
    - unfold save_steps, model_steps, saver_steps in J'. rewrite Sv in J'. fold (folder_steps fs path) in J'.
      rewrite place_extractor, place_mapping in J'. apply in_app_or in J'. destruct J' as [J'|J']; auto.
      apply in_app_or in J'. destruct J' as [J'|[J'|J']].
      + apply (HB [(at_path path "extractor-interpreter", enc (f_pair f) (t_extractor t, t_interpreter t))]).
        * intros x [<-|[]]. cbn. tauto.
        * unfold blocks. cbn [flat_map fst snd]. rewrite app_nil_r. exact J'.
      + subst o. cbn. tauto.
      + apply (HB [(at_path path "mapping", enc (f_mapping f) (mapping tname oname (t_network t)))]).
        * intros x [<-|[]]. cbn. tauto.
        * unfold blocks. cbn [flat_map fst snd]. rewrite app_nil_r. exact J'. }
  destruct (run_frame (firstn k (save_steps tname oname f cwd fs t path)) fs q) as [E|(E & A & M)]; auto.
  - apply Forall_forall. intros o J. apply H; auto.
  - right. split; auto. split; auto. apply Exists_exists in E. destruct E as (o & J & K). apply (H o J); auto.
Qed.

(* loading looks at five files *)
Definition load_from (r1 r2 r3 r4 r5 : result (list B)) : result (tagger X I T O V) :=
  do c <- r1;
  do xi <- dec (f_pair f) c;
  do m <- (do meta <- r2;
           do g <- dec (f_graph f) meta;
           do index <- r3;
           do data <- r4;
           do values <- f_values f index data;
           do session <- mapM (fun v => do x <- of_option EExc (dict_get values v); Ok (v, x)) (g_variables g);
           do m <- r5;
           do names <- dec (f_mapping f) m;
           do n <- attach (named tname (g_tensors g)) (named oname (g_ops g)) names;
           Ok (n, g, session));
  let '(n, g, session) := m in
  Ok (mkTagger (fst xi) (snd xi) n g session).
Lemma load_reads fs path : load tname oname f cwd fs path
  = load_from (read_file fs (at_path path "extractor-interpreter")) (read_file fs (at_path path "graph.meta"))
              (read_file fs (at_path path "graph.index")) (read_file fs (at_path path "graph.data-00000-of-00001"))
              (read_file fs (at_path path "mapping")).
Proof. unfold load, load_model, at_path. rewrite place_extractor, place_meta, place_index, place_data, place_mapping. reflexivity. Qed.

Lemma load_from_inv r1 r2 r3 r4 r5 t : load_from r1 r2 r3 r4 r5 = Ok t ->
  exists c1 c2 c3 c4 c5 g names values,
    r1 = Ok c1 /\ r2 = Ok c2 /\ r3 = Ok c3 /\ r4 = Ok c4 /\ r5 = Ok c5
    /\ dec (f_pair f) c1 = Ok (t_extractor t, t_interpreter t) /\ dec (f_graph f) c2 = Ok g /\ f_values f c3 c4 = Ok values
    /\ dec (f_mapping f) c5 = Ok names /\ t_graph t = g
    /\ attach (named tname (g_tensors g)) (named oname (g_ops g)) names = Ok (t_network t)
    /\ mapM (fun v => do x <- of_option EExc (dict_get values v); Ok (v, x)) (g_variables g) = Ok (t_session t).
Proof.
  unfold load_from. intros H.
  apply bind_ok_iff in H. destruct H as (c1 & E1 & H). apply bind_ok_iff in H. destruct H as (xi & D1 & H).
  apply bind_ok_iff in H. destruct H as (m & H & Em). apply bind_ok_iff in H. destruct H as (c2 & E2 & H).
  apply bind_ok_iff in H. destruct H as (g & D2 & H). apply bind_ok_iff in H. destruct H as (c3 & E3 & H).
  apply bind_ok_iff in H. destruct H as (c4 & E4 & H). apply bind_ok_iff in H. destruct H as (values & D3 & H).
  apply bind_ok_iff in H. destruct H as (session & D4 & H). apply bind_ok_iff in H. destruct H as (c5 & E5 & H).
  apply bind_ok_iff in H. destruct H as (names & D5 & H). apply bind_ok_iff in H. destruct H as (n & D6 & H).
  injection H as <-. injection Em as <-. destruct xi as (x & i). exists c1, c2, c3, c4, c5, g, names, values.
  cbn [fst snd t_extractor t_interpreter t_network t_graph t_session]. repeat split; auto.
Qed.

Lemma load_same fs fs' path t : load tname oname f cwd fs path = Ok t ->
  (forall name c, In name tagger_files -> fs (resolve cwd path ++ [name]) = Some (Regular c) -> fs' (resolve cwd path ++ [name]) = Some (Regular c)) ->
  load tname oname f cwd fs' path = Ok t.
Proof.
  rewrite !load_reads. intros H K. assert (forall name c, In (of_string name) tagger_files -> read_file fs (at_path path name) = Ok c ->
    read_file fs' (at_path path name) = Ok c) as R.
  { intros name c J. unfold read_file, at_path. destruct (fs (resolve cwd path ++ [of_string name])) as [[|d]|] eqn:E; try discriminate.
    intros Q. injection Q as <-. rewrite (K (of_string name) d); auto. }
  destruct (load_from_inv _ _ _ _ _ _ H) as (c1 & c2 & c3 & c4 & c5 & _ & _ & _ & E1 & E2 & E3 & E4 & E5 & _).
  rewrite (R _ c1), (R _ c2), (R _ c3), (R _ c4), (R _ c5); try assumption; try (cbn; tauto).
  rewrite E1, E2, E3, E4, E5 in H. exact H.
Qed.

Lemma other_path fs t path k path' t' : resolve cwd path <> resolve cwd path' -> load tname oname f cwd fs path' = Ok t' ->
  load tname oname f cwd (interrupted tname oname f cwd fs t path k) path' = Ok t'.
Proof.
  intros D H. eapply load_same; [exact H|]. intros name c J E.
  destruct (save_frame fs t path k (resolve cwd path' ++ [name])) as [->|(N & _)]; [|exact E|congruence].
  intros Q. apply in_map_iff in Q. destruct Q as (n & Q & _). apply app_inj_tail in Q. destruct Q. congruence.
Qed.

Lemma save_interrupted fs t path :
  fst (save tname oname f cwd fs t path) = interrupted tname oname f cwd fs t path (length (save_steps tname oname f cwd fs t path)).
Proof. unfold interrupted, save. rewrite firstn_all. reflexivity. Qed.

End Tagger.
