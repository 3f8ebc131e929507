(* Epochs, interrupted saving, directories of models. *)
From Coq Require Import String Ascii ZArith NArith Bool List Lia Permutation.
From Verif Require Import Base BaseFacts Model_Features Model_Harness Spec_Harness Proofs_Harness3 Model_Network Spec_Network
  Proofs_Network Proofs_Network3 Model_Saving Spec_Saving Proofs_Saving Proofs_Saving2.
Import ListNotations.
Open Scope Z_scope.

Lemma epoch_plain i : plain_name (epoch_name i).
Proof.
  destruct (epoch_simple i) as (A & N). split; auto. split; [|exact N]. unfold epoch_name. discriminate.
Qed.
Lemma epoch_place cwd model_dir i : resolve cwd (path_join model_dir (epoch_name i)) = resolve cwd model_dir ++ [epoch_name i].
Proof. apply resolve_join, epoch_plain. Qed.
Lemma epoch_name_inj' i j : epoch_name i = epoch_name j -> i = j.
Proof. unfold epoch_name. intros H. apply app_inv_head in H. apply BaseFacts.print_Z_inj in H. auto. Qed.
Lemma epoch_at_join model_dir i : epoch_at model_dir i = path_join model_dir (epoch_name (Z.of_nat i)).
Proof. unfold epoch_at. symmetry. apply path_join_based. apply (proj2 (epoch_simple (Z.of_nat i))). Qed.

Lemma folders_stay {B} (l : list (step B)) : forall fs p, fs p = Some Folder -> fst (run_steps fs l) p = Some Folder.
Proof.
  induction l as [|o l IH]; intros fs p F; cbn [run_steps]; [exact F|].
  destruct (run_step fs o) as [fs'|e] eqn:R; [|exact F]. apply IH.
  destruct o as [q|q|q b|]; cbn [run_step] in R.
  - destruct (fs q) eqn:E; [discriminate|]. destruct (fs (removelast q)) as [[|]|]; try discriminate. injection R as <-.
    rewrite put_other by congruence. exact F.
  - destruct (fs q) as [[|]|] eqn:E; try discriminate; destruct (fs (removelast q)) as [[|]|]; try discriminate; injection R as <-;
      rewrite put_other by congruence; exact F.
  - destruct (fs q) as [[|]|] eqn:E; try discriminate. injection R as <-. rewrite put_other by congruence. exact F.
  - discriminate.
Qed.

Section Tagger.
Context {B X I T O V : Type}.
Variables (tname : T -> str) (oname : O -> str) (f : formats B X I T O V) (cwd : place).
Notation save := (save tname oname f cwd).
Notation load := (load tname oname f cwd).
Notation interrupted := (interrupted tname oname f cwd).
Notation save_epochs := (save_epochs tname oname f cwd).
Notation at_path := (at_path cwd).
Notation tagger_blocks := (tagger_blocks tname oname f cwd).

Lemma save_fst fs t path fs' e : save fs t path = (fs', e) ->
  fs' = interrupted fs t path (length (save_steps tname oname f cwd fs t path)).
Proof. intros H. rewrite <- save_interrupted, H. reflexivity. Qed.

Lemma epochs_other model_dir taggers : forall epoch fs fs' e path t, save_epochs model_dir epoch taggers fs = (fs', e) ->
  (forall i, epoch <= i < epoch + Z.of_nat (length taggers) -> resolve cwd path <> resolve cwd model_dir ++ [epoch_name i]) ->
  load fs path = Ok t -> load fs' path = Ok t.
Proof.
  induction taggers as [|t0 ts IH]; intros epoch fs fs' e path t H D L; cbn [Model_Saving.save_epochs] in H.
  - congruence.
  - destruct (save fs t0 (path_join model_dir (epoch_name epoch))) as (fs1 & e1) eqn:E. pose proof (save_fst _ _ _ _ _ E) as F.
    assert (load fs1 path = Ok t) as L1.
    { rewrite F. apply other_path; auto. rewrite epoch_place. intros Q. symmetry in Q. revert Q. apply D. cbn [length]. lia. }
    destruct e1 as [e1|]; [congruence|]. eapply IH; [exact H| |exact L1]. intros i Hi. apply D. cbn [length]. lia.
Qed.

Lemma epochs_saved model_dir taggers : good_formats f -> Forall (sound_tagger tname oname) taggers ->
  forall epoch fs fs', save_epochs model_dir epoch taggers fs = (fs', None) ->
  forall i t, nth_error taggers i = Some t ->
  exists t', load fs' (path_join model_dir (epoch_name (epoch + Z.of_nat i))) = Ok t' /\ same_tagger t t'.
Proof.
  intros good So. induction So as [|t0 ts S0 So IH]; intros epoch fs fs' H i t N; [destruct i; discriminate|].
  cbn [Model_Saving.save_epochs] in H.
  destruct (save fs t0 (path_join model_dir (epoch_name epoch))) as (fs1 & [e1|]) eqn:E; [discriminate|].
  destruct i as [|i].
  - injection N as <-. destruct (round_trip tname oname f cwd fs t0 _ fs1 good S0 E) as (t' & L & Sa). exists t'. split; auto.
    replace (epoch + Z.of_nat 0) with epoch by lia. eapply epochs_other; [exact H| |exact L].
    intros j Hj Q. rewrite epoch_place in Q. apply app_inj_tail in Q. destruct Q as (_ & Q). apply epoch_name_inj' in Q. lia.
  - destruct (IH (epoch + 1) fs1 fs' H i t N) as (t' & L & Sa). exists t'. split; auto.
    replace (epoch + Z.of_nat (S i)) with (epoch + 1 + Z.of_nat i) by lia. exact L.
Qed.

(* ---------------- interrupted saving ---------------- *)

Lemma interrupted_blocks fs t path values k : saved_values (t_graph t) (t_session t) = Ok values ->
  let fs' := interrupted fs t path k in
  exists done rest, tagger_blocks t values path = done ++ rest
    /\ (forall p c, In (p, c) done -> fs' p = Some (Regular c))
    /\ match rest with
       | [] => (length (save_steps tname oname f cwd fs t path) <= k)%nat /\ save fs t path = (fs', None)
       | (p, c) :: rest' =>
           (fs' p = fs p \/ exists c1 c2, c = c1 ++ c2 /\ c2 <> [] /\ fs' p = Some (Regular c1))
           /\ forall p' c', In (p', c') rest' -> fs' p' = fs p'
       end.
Proof.
  intros Sv. cbv zeta.
  assert (forall k' p c, In (p, c) (tagger_blocks t values path) ->
    fst (run_steps fs (firstn k' (folder_steps cwd fs path))) p = fs p) as Fr.
  { intros k' p c J. assert (exists name, p = resolve cwd path ++ [name]) as (name & ->).
    { apply (in_map fst) in J. rewrite places in J. cbn [fst] in J. apply in_map_iff in J. destruct J as (name & <- & _). eauto. }
    destruct (folders_frame cwd fs path k' (resolve cwd path ++ [name])) as [E|(_ & _ & r & Q)]; [exact E|].
    exfalso. apply (f_equal (@length str)) in Q. rewrite !app_length in Q. cbn [length] in Q. lia. }
  unfold Spec_Saving.interrupted, Model_Saving.save. rewrite (steps_blocks tname oname f cwd fs t path values Sv).
  rewrite firstn_app, app_length. rewrite run_app.
  destruct (Compare_dec.le_lt_dec (length (folder_steps cwd fs path)) k) as [Le|Lt].
  - rewrite firstn_all2 by auto. rewrite run_app.
    pose proof (fun p c => Fr (length (folder_steps cwd fs path)) p c) as Fa. rewrite firstn_all in Fa.
    destruct (run_steps fs (folder_steps cwd fs path)) as (fs1 & [e|]) eqn:E; cbn [fst] in Fa.
    + exists [], (tagger_blocks t values path). split; auto. split; [intros ? ? []|]. cbn [fst]. unfold Proofs_Saving2.tagger_blocks at 1.
      split; [left; eapply Fa; left; reflexivity|]. intros p' c' J. eapply Fa. right. exact J.
    + destruct (blocks_some (tagger_blocks t values path) (places_distinct _ _ _ _ _ _ _) fs1 (k - length (folder_steps cwd fs path))%nat)
        as (dn & rest & El & Hd & Hr).
      exists dn, rest. split; auto. split; auto. destruct rest as [|(p & c) rest'].
      * destruct Hr as (H1 & H2). split; [lia|]. rewrite firstn_all2 in H1 by lia. rewrite (firstn_all2 (n := k - _)) by lia.
        revert H1. destruct (run_steps fs1 (blocks (tagger_blocks t values path))). cbn [snd fst]. intros ->. reflexivity.
      * destruct Hr as (_ & H1 & H2). assert (forall p' c', In (p', c') ((p, c) :: rest') -> fs1 p' = fs p') as G.
        { intros p' c' J. eapply Fa. rewrite El. apply in_or_app. right. exact J. }
        rewrite (G p c) in H1 by (left; auto). split; auto. intros p' c' J. rewrite (H2 p' c') by auto. eapply G. right. exact J.
  - replace (k - length (folder_steps cwd fs path))%nat with 0%nat by lia. cbn [firstn run_steps].
    pose proof (fun p c => Fr k p c) as Fa.
    destruct (run_steps fs (firstn k (folder_steps cwd fs path))) as (fs1 & e).
    replace (match e with Some e => (fs1, Some e) | None => (fs1, None) end) with (fs1, e) by (destruct e; auto). cbn [fst] in *.
    exists [], (tagger_blocks t values path). split; auto. split; [intros ? ? []|]. unfold Proofs_Saving2.tagger_blocks at 1.
    split; [left; eapply Fa; left; reflexivity|]. intros p' c' J. eapply Fa. right. exact J.
Qed.

Lemma mapping_last t values path done rest : tagger_blocks t values path = done ++ rest -> rest <> [] ->
  exists front, rest = front ++ [(at_path path "mapping", enc (f_mapping f) (mapping tname oname (t_network t)))].
Proof.
  intros H NE. destruct (exists_last NE) as (front & x & ->). rewrite app_assoc in H.
  assert (tagger_blocks t values path = removelast (tagger_blocks t values path)
    ++ [(at_path path "mapping", enc (f_mapping f) (mapping tname oname (t_network t)))]) as E by reflexivity.
  rewrite E in H. apply app_inj_tail in H. destruct H as (_ & <-). eauto.
Qed.

Lemma fresh fs t path k t' : good_formats f -> sound_tagger tname oname t -> fs (resolve cwd path ++ [of_string "mapping"]) = None ->
  load (interrupted fs t path k) path = Ok t' ->
  (length (save_steps tname oname f cwd fs t path) <= k)%nat /\ snd (save fs t path) = None /\ same_tagger t t'.
Proof.
  intros good So N L. destruct (sound_values tname oname f t So) as (values & Sv).
  destruct (interrupted_blocks fs t path values k Sv) as (dn & rest & El & Hd & Hr). cbv zeta in *.
  destruct rest as [|pc rest'].
  - destruct Hr as (H1 & H2). split; auto. split; [rewrite H2; auto|].
    destruct (round_trip tname oname f cwd fs t path _ good So H2) as (t2 & L2 & Sa). congruence.
  - exfalso. rewrite load_reads in L. apply load_from_inv in L.
    destruct L as (c1 & c2 & c3 & c4 & c5 & g & names & u & _ & _ & _ & _ & E5 & _ & _ & _ & D5 & _).
    assert (interrupted fs t path k (at_path path "mapping") = Some (Regular c5)) as R.
    { unfold read_file in E5. destruct (interrupted fs t path k (at_path path "mapping")) as [[|]|]; try discriminate. congruence. }
    destruct (mapping_last t values path dn (pc :: rest') El) as (front & Ef); [discriminate|]. destruct pc as (p & c).
    destruct Hr as (H1 & H2). destruct front as [|x front]; cbn [app] in Ef.
    + injection Ef as -> -> ->. destruct H1 as [H1|(a & b & Hc & Hb & H1)].
      * rewrite H1 in R. unfold Proofs_Saving2.at_path in R. congruence.
      * rewrite H1 in R. injection R as ->. destruct good as (_ & (_ & G) & _). destruct (G _ _ _ Hc Hb) as (e & G'). congruence.
    + injection Ef as _ Ef. rewrite (H2 (at_path path "mapping") (enc (f_mapping f) (mapping tname oname (t_network t)))) in R.
      * unfold Proofs_Saving2.at_path in R. congruence.
      * rewrite Ef. apply in_or_app. right. left. reflexivity.
Qed.

(* over an older tagger: every file is the old one or a beginning of the new one *)
Lemma old_or_new fs t path values k p c c0 : saved_values (t_graph t) (t_session t) = Ok values ->
  In (p, c) (tagger_blocks t values path) -> fs p = Some (Regular c0) ->
  exists c', interrupted fs t path k p = Some (Regular c') /\ (c' = c0 \/ beginning c' c).
Proof.
  intros Sv J E. destruct (interrupted_blocks fs t path values k Sv) as (dn & rest & El & Hd & Hr). cbv zeta in *.
  rewrite El in J. apply in_app_or in J. destruct J as [J|J].
  - exists c. split; [apply Hd; auto|]. right. exists []. rewrite app_nil_r. auto.
  - destruct rest as [|(p1 & c1) rest']; [destruct J|]. destruct Hr as (H1 & H2). destruct J as [J|J].
    + injection J as -> ->. destruct H1 as [H1|(a & b & -> & _ & H1)]; [exists c0; split; [congruence|auto]|].
      exists a. split; auto. right. exists b. auto.
    + exists c0. rewrite (H2 p c); auto.
Qed.

Lemma codec_old_or_new {A} (cd : codec B A) a c : good_codec cd -> c = enc cd a \/ beginning c (enc cd a) ->
  forall b, dec cd c = Ok b -> b = a.
Proof.
  intros (G1 & G2) H b D. assert (beginning c (enc cd a)) as (r & E).
  { destruct H as [->|H]; auto. exists []. rewrite app_nil_r. auto. }
  destruct r as [|x r].
  - rewrite app_nil_r in E. subst c. rewrite G1 in D. congruence.
  - destruct (G2 a c (x :: r) E) as (e & G); [discriminate|]. congruence.
Qed.

Lemma retrained fs0 fs old new path k t' : good_formats f -> checked_values f -> sound_tagger tname oname old -> sound_tagger tname oname new ->
  t_extractor new = t_extractor old -> t_interpreter new = t_interpreter old -> t_network new = t_network old -> t_graph new = t_graph old ->
  save fs0 old path = (fs, None) -> load (interrupted fs new path k) path = Ok t' -> same_tagger old t' \/ same_tagger new t'.
Proof.
  intros good chk So Sn Ex Ei En Eg E L.
  destruct (sound_values tname oname f old So) as (v & Sv). destruct (sound_values tname oname f new Sn) as (w & Sw).
  pose proof (save_blocks tname oname f cwd fs0 old path v fs Sv E) as W.
  rewrite load_reads in L. apply load_from_inv in L.
  destruct L as (c1 & c2 & c3 & c4 & c5 & g & names & u & E1 & E2 & E3 & E4 & E5 & D1 & D2 & D3 & D5 & Hg & At & Ms).
  assert (forall name c c0 c', In (at_path path name, c) (tagger_blocks new w path) -> In (at_path path name, c0) (tagger_blocks old v path) ->
    read_file (interrupted fs new path k) (at_path path name) = Ok c' -> c' = c0 \/ beginning c' c) as K.
  { intros name c c0 c' J J0 R. destruct (old_or_new fs new path w k (at_path path name) c c0 Sw J) as (d & Hd & Hd'); [apply W; auto|].
    unfold read_file in R. rewrite Hd in R. injection R as <-. exact Hd'. }
  pose proof good as (G1 & G2 & G3 & G4).
  assert (b1 : c1 = enc (f_pair f) (t_extractor new, t_interpreter new) \/ beginning c1 (enc (f_pair f) (t_extractor new, t_interpreter new))).
  { apply (K "extractor-interpreter"%string); [cbn; tauto|rewrite Ex, Ei; cbn; tauto|auto]. }
  assert (b2 : c2 = enc (f_graph f) (t_graph new) \/ beginning c2 (enc (f_graph f) (t_graph new))).
  { apply (K "graph.meta"%string); [cbn; tauto|rewrite Eg; cbn; tauto|auto]. }
  assert (b5 : c5 = enc (f_mapping f) (mapping tname oname (t_network new)) \/ beginning c5 (enc (f_mapping f) (mapping tname oname (t_network new)))).
  { apply (K "mapping"%string); [cbn; tauto|rewrite En; cbn; tauto|auto]. }
  pose proof (K "graph.data-00000-of-00001"%string (f_data f w) (f_data f v) c4 ltac:(cbn; tauto) ltac:(cbn; tauto) E4) as b4.
  pose proof (K "graph.index"%string (f_index f w) (f_index f v) c3 ltac:(cbn; tauto) ltac:(cbn; tauto) E3) as b3.
  pose proof (codec_old_or_new _ _ _ G1 b1 _ D1) as Q1. pose proof (codec_old_or_new _ _ _ G3 b2 _ D2) as Q2.
  pose proof (codec_old_or_new _ _ _ G2 b5 _ D5) as Q5. injection Q1 as Qx Qi. rewrite Q2 in At, Ms, Hg. rewrite Q5 in At.
  clear Q2.
  assert (t_network t' = t_network new) as Qn.
  { destruct Sn as (U1 & U2 & I1 & I2 & _). enough (Ok (t_network t') = Ok (t_network new)) as Q by (injection Q as ->; reflexivity).
    rewrite <- At. apply (attach_iff tname oname); auto. }
  apply values_get in Ms. destruct Ms as (Ms & _).
  assert (forall (t : tagger X I T O V) x, saved_values (t_graph t) (t_session t) = Ok x -> same_values (g_variables (t_graph t)) (t_session t) x) as SV.
  { intros t x H. unfold saved_values in H. destruct (g_variables (t_graph t)) as [|y ys] eqn:Ey; [discriminate|].
    apply values_get in H. tauto. }
  destruct (chk v w c4 c3 u b4 b3 D3) as [Eu|Eu]; subst u.
  - left. rewrite Eg in Ms. split; [congruence|]. split; [congruence|]. split; [congruence|]. split; [congruence|].
    intros x J. rewrite (SV old v Sv x J). apply Ms. exact J.
  - right. split; [congruence|]. split; [congruence|]. split; [congruence|]. split; [congruence|].
    intros x J. rewrite (SV new w Sw x J). apply Ms. exact J.
Qed.

Lemma saved_folder fs0 t path fs : save fs0 t path = (fs, None) -> path <> [] /\ fs (resolve cwd path) = Some Folder.
Proof.
  intros E. assert (exists l, save_steps tname oname f cwd fs0 t path
    = folder_steps cwd fs0 path ++ write_file (resolve cwd (extractor_path path)) (enc (f_pair f) (t_extractor t, t_interpreter t)) ++ l) as (l & El)
    by (eexists; reflexivity).
  unfold Model_Saving.save in E. rewrite El, run_app in E.
  destruct (run_steps fs0 (folder_steps cwd fs0 path)) as (fs1 & [e|]) eqn:E1; [discriminate|].
  assert (fs1 (resolve cwd path) = Some Folder) as F.
  { rewrite run_app in E. cbn [write_file run_steps run_step] in E. rewrite place_extractor, removelast_last in E.
    destruct (fs1 (resolve cwd path ++ _)) as [[|]|]; destruct (fs1 (resolve cwd path)) as [[|]|]; try discriminate; reflexivity. }
  split.
  - intros ->. unfold folder_steps in E1. cbn in E1. discriminate.
  - apply (folders_stay (write_file (resolve cwd (extractor_path path)) (enc (f_pair f) (t_extractor t, t_interpreter t)) ++ l)) in F.
    rewrite E in F. exact F.
Qed.

Lemma mixture fs0 fs old new path : good_formats f -> sound_tagger tname oname old -> save fs0 old path = (fs, None) ->
  exists k t', load (interrupted fs new path k) path = Ok t'
    /\ t_extractor t' = t_extractor new /\ t_interpreter t' = t_interpreter new
    /\ t_network t' = t_network old /\ t_graph t' = t_graph old
    /\ same_values (g_variables (t_graph old)) (t_session old) (t_session t').
Proof.
  intros good So E. destruct (sound_values tname oname f old So) as (v & Sv).
  pose proof (save_blocks tname oname f cwd fs0 old path v fs Sv E) as W. destruct (saved_folder _ _ _ _ E) as (NE & Fo).
  set (c := enc (f_pair f) (t_extractor new, t_interpreter new)).
  assert (exists l, save_steps tname oname f cwd fs new path = write_file (at_path path "extractor-interpreter") c ++ l) as (l & El).
  { unfold save_steps, path_exists. destruct path as [|x s]; [congruence|]. unfold there. rewrite Fo. cbn [is_none negb app].
    rewrite place_extractor. eexists. reflexivity. }
  exists (length (write_file (at_path path "extractor-interpreter") c)).
  assert (interrupted fs new path (length (write_file (at_path path "extractor-interpreter") c))
    = fst (run_steps fs (write_file (at_path path "extractor-interpreter") c))) as Ei.
  { unfold Spec_Saving.interrupted. rewrite El, firstn_app, firstn_all, Nat.sub_diag. cbn [firstn]. rewrite app_nil_r. reflexivity. }
  rewrite Ei. clear Ei.
  assert (snd (run_steps fs (write_file (at_path path "extractor-interpreter") c)) = None) as Wk.
  { apply write_works; [|rewrite at_parent; exact Fo].
    rewrite (W _ (enc (f_pair f) (t_extractor old, t_interpreter old))) by (cbn; tauto). discriminate. }
  destruct (write_all _ _ _ Wk) as (W1 & W2).
  destruct (load_files tname oname f cwd good old v (fst (run_steps fs (write_file (at_path path "extractor-interpreter") c))) path c
             (t_extractor new, t_interpreter new)) as (t' & L & H1 & H2 & H3 & H4 & H5); auto.
  - unfold read_file. rewrite W1. reflexivity.
  - apply good.
  - intros name d J. rewrite W2; [apply W; right; exact J|]. intros Q.
    pose proof (places_distinct tname oname f cwd old v path) as ND. inversion ND as [|? ? NI _]; subst. apply NI.
    apply (in_map fst) in J. cbn [fst] in J. rewrite Q in J. exact J.
  - exists t'. auto 10.
Qed.

(* ---------------- directories of models ---------------- *)

Lemma epochs_folders model_dir taggers : forall epoch fs fs' e, save_epochs model_dir epoch taggers fs = (fs', e) ->
  forall p, fs p = Some Folder -> fs' p = Some Folder.
Proof.
  induction taggers as [|t ts IH]; intros epoch fs fs' e H p F; cbn [Model_Saving.save_epochs] in H; [congruence|].
  destruct (save fs t (path_join model_dir (epoch_name epoch))) as (fs1 & e1) eqn:E.
  assert (fs1 p = Some Folder) as F1.
  { apply (folders_stay (save_steps tname oname f cwd fs t (path_join model_dir (epoch_name epoch)))) in F.
    unfold Model_Saving.save in E. rewrite E in F. exact F. }
  destruct e1; [congruence|]. eapply IH; eauto.
Qed.

Lemma epochs_made model_dir taggers : forall epoch fs fs', save_epochs model_dir epoch taggers fs = (fs', None) ->
  forall i, (i < length taggers)%nat -> fs' (resolve cwd model_dir ++ [epoch_name (epoch + Z.of_nat i)]) = Some Folder.
Proof.
  induction taggers as [|t ts IH]; intros epoch fs fs' H i Hi; cbn [Model_Saving.save_epochs length] in *; [lia|].
  destruct (save fs t (path_join model_dir (epoch_name epoch))) as (fs1 & [e1|]) eqn:E; [discriminate|]. destruct i as [|i].
  - eapply epochs_folders; [exact H|]. apply saved_folder in E. rewrite epoch_place in E.
    replace (epoch + Z.of_nat 0) with epoch by lia. apply E.
  - replace (epoch + Z.of_nat (S i)) with (epoch + 1 + Z.of_nat i) by lia. eapply IH; [exact H|lia].
Qed.

Lemma epochs_only model_dir (Q : place -> Prop) taggers : Forall (sound_tagger tname oname) taggers -> forall epoch fs fs',
  save_epochs model_dir epoch taggers fs = (fs', None) ->
  (forall q, q <> [] -> fs (resolve cwd model_dir ++ q) = Some Folder -> Q q) ->
  forall q, q <> [] -> fs' (resolve cwd model_dir ++ q) = Some Folder ->
  Q q \/ exists i, epoch <= i < epoch + Z.of_nat (length taggers) /\ q = [epoch_name i].
Proof.
  intros So. revert Q. induction So as [|t ts S0 So IH]; intros Q epoch fs fs' H K q Nq Fq; cbn [Model_Saving.save_epochs length] in *.
  - injection H as <-. auto.
  - destruct (save fs t (path_join model_dir (epoch_name epoch))) as (fs1 & [e1|]) eqn:E; [discriminate|].
    destruct (IH (fun q => Q q \/ q = [epoch_name epoch]) (epoch + 1) fs1 fs' H) with (q := q) as [[G|G]|(i & Hi & ->)]; auto;
      [|right; exists epoch; split; auto; lia|right; exists i; split; auto; lia].
    clear q Nq Fq. intros q Nq Fq. destruct (sound_values tname oname f t S0) as (v & Sv).
    pose proof (save_blocks tname oname f cwd fs t _ v fs1 Sv E) as W. pose proof (save_fst _ _ _ _ _ E) as Fs.
    destruct (in_dec place_dec (resolve cwd model_dir ++ q) (map fst (tagger_blocks t v (path_join model_dir (epoch_name epoch))))) as [J|J].
    + apply in_map_iff in J. destruct J as ((p & c) & Qp & J). cbn [fst] in Qp. subst p. apply W in J. congruence.
    + rewrite places in J.
      destruct (save_frame tname oname f cwd fs t _ (length (save_steps tname oname f cwd fs t (path_join model_dir (epoch_name epoch)))) _ J)
        as [G|(_ & _ & r & G)].
      * rewrite <- Fs in G. rewrite G in Fq. auto.
      * rewrite epoch_place, <- app_assoc in G. apply app_inv_head in G. destruct q as [|x q]; [congruence|]. injection G as <- G.
        destruct q; [|discriminate]. auto.
Qed.

End Tagger.

Lemma pretrained_paths {B R} cwd (fs : files B) model_dir d (test : str -> result R) ys : walked cwd fs model_dir d ->
  pretrained_train model_dir d (Some test) = (ys, None) ->
  forall x, In x (map snd ys) <-> exists q, q <> [] /\ fs (resolve cwd model_dir ++ q) = Some Folder /\ x = based model_dir (rel_path q).
Proof.
  intros (OK & W) H x. unfold pretrained_train in H. apply test_all_spec in H. destruct H as (_ & ->).
  transitivity (In x (walk model_dir d)).
  { split; intros J; (eapply Permutation_in; [|exact J]); [symmetry|]; apply isort_perm. }
  rewrite (walk_In d OK). split.
  - intros (q & J & ->). apply W in J. destruct J. eauto.
  - intros (q & N & J & ->). exists q. split; auto. apply W. auto.
Qed.
