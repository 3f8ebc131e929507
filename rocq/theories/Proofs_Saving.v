(* Places and steps. *)
From Coq Require Import String Ascii ZArith NArith Bool List Lia.
From Verif Require Import Base BaseFacts Model_Harness Spec_Harness Model_Network Spec_Network Proofs_Harness3 Proofs_Conllu3
  Model_Saving Spec_Saving.
Import ListNotations.
Open Scope Z_scope.

Lemma place_eqb_eq p q : place_eqb p q = true <-> p = q.
Proof. apply list_eqb_eq. apply str_eqb_eq. Qed.
Lemma put_same {B} (fs : files B) p n : put fs p n p = Some n.
Proof. unfold put. replace (place_eqb p p) with true; [auto|]. symmetry. apply place_eqb_eq. auto. Qed.
Lemma put_other {B} (fs : files B) p n q : q <> p -> put fs p n q = fs q.
Proof. unfold put. intros H. destruct (place_eqb p q) eqn:E; auto. apply place_eqb_eq in E. congruence. Qed.

(* ---------------- places ---------------- *)

Lemma split_cat c s1 s2 : split c (s1 ++ c :: s2) = split c s1 ++ split c s2.
Proof.
  induction s1 as [|x s IH]; cbn [app split].
  - rewrite N.eqb_refl. reflexivity.
  - destruct (x =? c)%N; [rewrite IH; reflexivity|]. rewrite IH. pose proof (split_nonempty c s).
    destruct (split c s); [congruence|]. reflexivity.
Qed.
Lemma components_cat s1 s2 : components (s1 ++ slash :: s2) = components s1 ++ components s2.
Proof. unfold components. rewrite split_cat, filter_app. reflexivity. Qed.

Definition plain_name (s : str) : Prop := s <> [] /\ s <> of_string "." /\ ~ In slash s.
Lemma components_plain s : plain_name s -> components s = [s].
Proof.
  intros (A & D & N). unfold components. rewrite split_no by auto. cbn [filter].
  destruct (str_eqb s []) eqn:E; [apply str_eqb_eq in E; congruence|].
  destruct (str_eqb s (of_string ".")) eqn:E2; [apply str_eqb_eq in E2; congruence|]. reflexivity.
Qed.
Lemma starts_slash s : startswith s [slash] = true <-> exists r, s = slash :: r.
Proof.
  destruct s as [|x s]; unfold startswith; cbn [prefixb].
  - split; [discriminate|]. intros (r & E). discriminate.
  - rewrite andb_true_r, N.eqb_eq. split.
    + intros <-. eauto.
    + intros (r & E). congruence.
Qed.
Lemma plain_start s : plain_name s -> startswith s [slash] = false.
Proof.
  intros (A & D & N). destruct (startswith s [slash]) eqn:E; auto. apply starts_slash in E. destruct E as (r & ->).
  exfalso. apply N. left. auto.
Qed.
Lemma ends_slash s : endswith s [slash] = true -> exists r, s = r ++ [slash].
Proof.
  unfold endswith. intros H. change (rev [slash]) with [slash] in H. apply starts_slash in H. destruct H as (r & E).
  exists (rev r). rewrite <- (rev_involutive s), E. reflexivity.
Qed.

Lemma resolve_join cwd a b : plain_name b -> resolve cwd (path_join a b) = resolve cwd a ++ [b].
Proof.
  intros P. unfold path_join. rewrite (plain_start _ P). destruct a as [|x a].
  - cbn [app]. unfold resolve. rewrite (plain_start _ P). cbn. rewrite components_plain by auto. rewrite app_nil_r. reflexivity.
  - assert (forall l, startswith ((x :: a) ++ l) [slash] = startswith (x :: a) [slash]) as St by reflexivity.
    destruct (endswith (x :: a) [slash]) eqn:E.
    + unfold resolve. rewrite St. apply ends_slash in E. destruct E as (r & E).
      assert (components ((x :: a) ++ b) = components (x :: a) ++ [b]) as C.
      { rewrite E, <- app_assoc. cbn [app]. rewrite !components_cat. change (components []) with (@nil str).
        rewrite app_nil_r. rewrite (components_plain b) by auto. reflexivity. }
      rewrite C. destruct (startswith (x :: a) [slash]); [reflexivity|]. rewrite app_assoc. reflexivity.
    + unfold resolve. rewrite St, components_cat, (components_plain b) by auto.
      destruct (startswith (x :: a) [slash]); [reflexivity|]. rewrite app_assoc. reflexivity.
Qed.

Lemma join_more a b c : plain_name b -> path_join a b ++ c = path_join a (b ++ c).
Proof.
  intros P. unfold path_join. rewrite (plain_start _ P). destruct P as (A & D & N). destruct b as [|y b]; [congruence|].
  replace (startswith ((y :: b) ++ c) [slash]) with false.
  2: { symmetry. destruct (startswith ((y :: b) ++ c) [slash]) eqn:E; auto. apply starts_slash in E. destruct E as (r & E).
       injection E as -> _. exfalso. apply N. left. auto. }
  destruct (match a with [] => true | _ => endswith a [slash] end).
  - rewrite app_assoc. reflexivity.
  - rewrite <- app_assoc. reflexivity.
Qed.

Ltac plain := split; [discriminate|split; [discriminate|vm_compute; intuition discriminate]].
Lemma place_extractor cwd p : resolve cwd (extractor_path p) = resolve cwd p ++ [of_string "extractor-interpreter"].
Proof. apply resolve_join. plain. Qed.
Lemma place_mapping cwd p : resolve cwd (mapping_path p) = resolve cwd p ++ [of_string "mapping"].
Proof. apply resolve_join. plain. Qed.
Lemma place_checkpoint cwd p : resolve cwd (checkpoint_path p) = resolve cwd p ++ [of_string "checkpoint"].
Proof. apply resolve_join. plain. Qed.
Lemma place_data cwd p : resolve cwd (data_path p) = resolve cwd p ++ [of_string "graph.data-00000-of-00001"].
Proof. unfold data_path, graph_path. rewrite join_more by plain. apply resolve_join. plain. Qed.
Lemma place_index cwd p : resolve cwd (index_path p) = resolve cwd p ++ [of_string "graph.index"].
Proof. unfold index_path, graph_path. rewrite join_more by plain. apply resolve_join. plain. Qed.
Lemma place_meta cwd p : resolve cwd (meta_path p) = resolve cwd p ++ [of_string "graph.meta"].
Proof. unfold meta_path, graph_path. rewrite join_more by plain. apply resolve_join. plain. Qed.

(* ---------------- steps ---------------- *)

Lemma run_app {B} (l1 l2 : list (step B)) fs :
  run_steps fs (l1 ++ l2) = match run_steps fs l1 with (fs', None) => run_steps fs' l2 | r => r end.
Proof.
  revert fs. induction l1 as [|o l IH]; intros fs; cbn [app run_steps]; auto. destruct (run_step fs o); auto.
Qed.

Definition writes_at {B} (q : place) (o : step B) : Prop :=
  match o with Open p => p = q | Write p _ => p = q | _ => False end.
Definition makes {B} (q : place) (o : step B) : Prop := match o with Mkdir p => p = q | _ => False end.

Lemma step_frame {B} (fs fs' : files B) o q : run_step fs o = Ok fs' -> ~ writes_at q o ->
  fs' q = fs q \/ (makes q o /\ fs q = None /\ fs' q = Some Folder).
Proof.
  destruct o as [p|p|p b|e]; cbn [run_step writes_at makes]; intros H N.
  - destruct (fs p) eqn:E; [discriminate|]. destruct (fs (removelast p)) as [[|]|]; try discriminate. injection H as <-.
    destruct (list_eq_dec (list_eq_dec N.eq_dec) q p) as [->|D]; [|rewrite put_other; auto]. right. rewrite put_same. auto.
  - destruct (fs p) as [[|]|] eqn:E; try discriminate; destruct (fs (removelast p)) as [[|]|]; try discriminate;
      injection H as <-; left; apply put_other; auto.
  - destruct (fs p) as [[|]|] eqn:E; try discriminate. injection H as <-. left. apply put_other; auto.
  - discriminate.
Qed.

Lemma run_frame {B} (l : list (step B)) fs q : Forall (fun o => ~ writes_at q o) l ->
  fst (run_steps fs l) q = fs q
  \/ (Exists (makes q) l /\ fs q = None /\ fst (run_steps fs l) q = Some Folder).
Proof.
  revert fs. induction l as [|o l IH]; intros fs H; cbn [run_steps]; [auto|]. inversion H as [|? ? N H']; subst.
  destruct (run_step fs o) as [fs'|e] eqn:E; [|auto]. destruct (step_frame _ _ _ _ E N) as [F|(M & A & F)].
  - destruct (IH fs' H') as [G|(M & A & G)]; [left; congruence|right]. split; [apply Exists_cons_tl; auto|]. split; congruence.
  - right. split; [apply Exists_cons_hd; auto|]. split; auto.
    destruct (IH fs' H') as [G|(_ & A' & _)]; congruence.
Qed.

(* ---------------- writing a file ---------------- *)

Lemma write_bytes {B} p (c : list B) : forall fs c0, fs p = Some (Regular c0) ->
  snd (run_steps fs (map (Write p) c)) = None
  /\ fst (run_steps fs (map (Write p) c)) p = Some (Regular (c0 ++ c))
  /\ forall q, q <> p -> fst (run_steps fs (map (Write p) c)) q = fs q.
Proof.
  induction c as [|b c IH]; intros fs c0 E; cbn [map run_steps].
  - rewrite app_nil_r. auto.
  - cbn [run_step]. rewrite E.
    destruct (IH (put fs p (Regular (c0 ++ [b]))) (c0 ++ [b])) as (A1 & A2 & A3); [apply put_same|].
    split; auto. split; [rewrite A2, <- app_assoc; reflexivity|]. intros q N. rewrite A3, put_other; auto.
Qed.

Lemma firstn_map' {A C} (g : A -> C) k l : firstn k (map g l) = map g (firstn k l).
Proof. revert l. induction k; intros [|x l]; cbn; auto. rewrite IHk. auto. Qed.

(* a file of which k steps are done: nothing yet, or a beginning *)
Lemma write_some {B} p (c : list B) fs k :
  let r := run_steps fs (firstn k (write_file p c)) in
  (forall q, q <> p -> fst r q = fs q)
  /\ (fst r p = fs p /\ (k = 0%nat \/ snd r <> None)
      \/ snd r = None /\ k <> 0%nat /\ fst r p = Some (Regular (firstn (k - 1) c))).
Proof.
  destruct k as [|k]; cbn [firstn write_file run_steps fst snd]; [split; auto|].
  destruct (run_step fs (Open p)) as [fs'|e] eqn:E; cbn [fst snd]; [|split; auto; left; split; auto; right; congruence].
  rewrite firstn_map'.
  assert (fs' p = Some (Regular []) /\ forall q, q <> p -> fs' q = fs q) as (F & G).
  { cbn [run_step] in E. destruct (fs p) as [[|]|]; try discriminate; destruct (fs (removelast p)) as [[|]|]; try discriminate;
      injection E as <-; (split; [apply put_same|intros; apply put_other; auto]). }
  destruct (write_bytes p (firstn k c) fs' [] F) as (A1 & A2 & A3). split.
  - intros q N. rewrite A3; auto.
  - right. replace (S k - 1)%nat with k by lia. auto.
Qed.

Lemma write_all {B} p (c : list B) fs : snd (run_steps fs (write_file p c)) = None ->
  fst (run_steps fs (write_file p c)) p = Some (Regular c) /\ forall q, q <> p -> fst (run_steps fs (write_file p c)) q = fs q.
Proof.
  intros H. pose proof (write_some p c fs (length (write_file p c))) as W. rewrite firstn_all in W. cbv zeta in W.
  destruct W as (A & [(B1 & [B2|B2])|(B1 & B2 & B3)]); [discriminate B2|congruence|]. split; auto. rewrite B3.
  unfold write_file. cbn [length]. rewrite map_length. replace (S (length c) - 1)%nat with (length c) by lia. rewrite firstn_all. auto.
Qed.

Lemma write_works {B} p (c : list B) fs : fs p <> Some Folder -> fs (removelast p) = Some Folder ->
  snd (run_steps fs (write_file p c)) = None.
Proof.
  intros H P. cbn [write_file run_steps run_step]. rewrite P.
  destruct (fs p) as [[|]|]; try congruence; apply (write_bytes p c _ []); apply put_same.
Qed.

(* ---------------- several files ---------------- *)

Definition blocks {B} (l : list (place * list B)) : list (step B) := flat_map (fun pc => write_file (fst pc) (snd pc)) l.

Lemma blocks_frame {B} (l : list (place * list B)) fs k q : ~ In q (map fst l) ->
  fst (run_steps fs (firstn k (blocks l))) q = fs q.
Proof.
  intros N. destruct (run_frame (firstn k (blocks l)) fs q) as [E|(E & _)]; auto.
  - apply Forall_forall. intros o J. assert (In o (blocks l)) as J'.
    { rewrite <- (firstn_skipn k). apply in_or_app. auto. }
    unfold blocks in J'. apply in_flat_map in J'. destruct J' as ((p & c) & K & J'). cbn [fst snd] in J'.
    assert (p <> q) as D. { intros ->. apply N. apply in_map_iff. exists (q, c). auto. }
    destruct J' as [<-|J']; cbn; auto. apply in_map_iff in J'. destruct J' as (b & <- & _). cbn. auto.
  - exfalso. apply Exists_exists in E. destruct E as (o & J & M). assert (In o (blocks l)) as J'.
    { rewrite <- (firstn_skipn k). apply in_or_app. auto. }
    unfold blocks in J'. apply in_flat_map in J'. destruct J' as ((p & c) & K & J'). cbn [fst snd] in J'.
    destruct J' as [<-|J']; [destruct M|]. apply in_map_iff in J'. destruct J' as (b & <- & _). destruct M.
Qed.

(* some files are written, one perhaps in part, the others not at all *)
Lemma blocks_some {B} (l : list (place * list B)) : NoDup (map fst l) -> forall fs k,
  let r := run_steps fs (firstn k (blocks l)) in
  exists done rest, l = done ++ rest
    /\ (forall p c, In (p, c) done -> fst r p = Some (Regular c))
    /\ match rest with
       | [] => snd r = None /\ (length (blocks l) <= k)%nat
       | (p, c) :: rest' =>
           (k < length (blocks l) \/ snd r <> None)%nat
           /\ (fst r p = fs p \/ exists c1 c2, c = c1 ++ c2 /\ c2 <> [] /\ fst r p = Some (Regular c1))
           /\ forall p' c', In (p', c') rest' -> fst r p' = fs p'
       end.
Proof.
  induction l as [|(p & c) l IH]; intros ND fs k; cbv zeta.
  - exists [], []. unfold blocks. cbn [flat_map]. rewrite firstn_nil. cbn [run_steps fst snd length].
    split; auto. split; [intros ? ? []|]. split; auto. lia.
  - inversion ND as [|? ? NI ND']; subst. cbn [fst map] in NI.
    change (blocks ((p, c) :: l)) with (write_file p c ++ blocks l).
    destruct (Compare_dec.le_lt_dec (length (write_file p c)) k) as [Le|Lt].
    + rewrite firstn_app, firstn_all2 by auto. rewrite run_app.
      destruct (run_steps fs (write_file p c)) as (fs1 & e) eqn:E.
      pose proof (write_some p c fs (length (write_file p c))) as W. rewrite firstn_all, E in W. cbv zeta in W. cbn [fst snd] in W.
      destruct e as [e|].
      * exists [], ((p, c) :: l). cbn [fst snd]. split; auto. split; [intros ? ? []|]. split; [right; congruence|].
        destruct W as (W1 & [(W2 & _)|(W2 & _)]); [|discriminate]. split; auto.
        intros p' c' J. apply W1. intros ->. apply NI. apply in_map_iff. exists (p, c'). auto.
      * pose proof (write_all p c fs) as Wa. rewrite E in Wa. cbn [fst snd] in Wa. destruct (Wa eq_refl) as (Wp & Wq).
        destruct (IH ND' fs1 (k - length (write_file p c))%nat) as (dn & rest & El & Hd & Hr).
        exists ((p, c) :: dn), rest. split; [rewrite El; reflexivity|]. split.
        { intros p' c' [J|J]; [injection J as <- <-|apply Hd; auto]. rewrite blocks_frame; auto. }
        rewrite app_length. destruct rest as [|(p2 & c2) rest']; [destruct Hr; split; auto; lia|].
        destruct Hr as (R1 & R2 & R3). split; [destruct R1; [left; lia|right; auto]|].
        assert (forall p' c', In (p', c') ((p2, c2) :: rest') -> p' <> p) as D.
        { intros p' c' J ->. apply NI. rewrite El, map_app. apply in_or_app. right. apply in_map_iff. exists (p, c'). auto. }
        split; [rewrite Wq in R2; eauto with datatypes|]. intros p' c' J. rewrite <- (Wq p'); eauto with datatypes.
    + exists [], ((p, c) :: l). split; auto. rewrite firstn_app. replace (k - length (write_file p c))%nat with 0%nat by lia.
      cbn [firstn]. rewrite app_nil_r. pose proof (write_some p c fs k) as (W1 & W2). cbv zeta in *.
      split; [intros ? ? []|]. split; [left; rewrite app_length; lia|]. split.
      * destruct W2 as [(W2 & _)|(W2 & W3 & W4)]; auto. right. exists (firstn (k - 1) c), (skipn (k - 1) c).
        rewrite firstn_skipn. split; auto. split; auto. intros E. apply (f_equal (@length B)) in E. rewrite skipn_length in E.
        unfold write_file in Lt. cbn [length] in Lt, E. rewrite map_length in Lt. lia.
      * intros p' c' J. apply W1. intros ->. apply NI. apply in_map_iff. exists (p, c'). auto.
Qed.

Lemma blocks_all {B} (l : list (place * list B)) fs : NoDup (map fst l) -> snd (run_steps fs (blocks l)) = None ->
  forall p c, In (p, c) l -> fst (run_steps fs (blocks l)) p = Some (Regular c).
Proof.
  intros ND H. pose proof (blocks_some l ND fs (length (blocks l))) as R. rewrite firstn_all in R. cbv zeta in R.
  destruct R as (dn & rest & E & Hd & Hr). destruct rest as [|(p & c) rest'].
  - rewrite app_nil_r in E. subst. auto.
  - destruct Hr as ([Hr|Hr] & _); [lia|congruence].
Qed.

Lemma blocks_work {B} (l : list (place * list B)) P : forall fs,
  (forall p c, In (p, c) l -> fs p <> Some Folder /\ removelast p = P) -> fs P = Some Folder -> ~ In P (map fst l) ->
  snd (run_steps fs (blocks l)) = None.
Proof.
  induction l as [|(p & c) l IH]; intros fs H HP NI; [reflexivity|].
  change (blocks ((p, c) :: l)) with (write_file p c ++ blocks l). rewrite run_app.
  destruct (H p c (or_introl eq_refl)) as (H1 & H2).
  assert (snd (run_steps fs (write_file p c)) = None) as W by (apply write_works; congruence).
  destruct (run_steps fs (write_file p c)) as (fs1 & e) eqn:E. cbn [snd] in W. subst e.
  pose proof (write_all p c fs) as Wa. rewrite E in Wa. cbn [fst snd] in Wa. destruct (Wa eq_refl) as (Wp & Wq).
  cbn [map fst] in NI. apply IH.
  - intros p' c' J. destruct (H p' c' (or_intror J)) as (H3 & H4). split; auto.
    destruct (list_eq_dec (list_eq_dec N.eq_dec) p' p) as [->|D]; [congruence|]. rewrite Wq; auto.
  - rewrite Wq; auto. intros ->. apply NI. left; auto.
  - intros J. apply NI. right; auto.
Qed.
