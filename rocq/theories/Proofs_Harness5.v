(* Averages of scores *)
From Coq Require Import String Ascii ZArith NArith QArith Qfield Bool Lia Lqa Permutation List.
From Verif Require Import Base BaseFacts Proofs_Datamodel Model_UDEval Model_Harness Spec_Harness Proofs_Harness Proofs_Harness2.
Import ListNotations.
Open Scope Z_scope.

Definition val (o : option Q) : Q := match o with Some q => q | None => 0%Q end.
Definition total (u : sums) (p r f a : Q) : Prop :=
  (val (su_p u) == p /\ val (su_r u) == r /\ val (su_f u) == f /\ val (su_a u) == a)%Q.
Definition filled (u : sums) : Prop := su_p u <> None /\ su_r u <> None /\ su_f u <> None /\ su_a u <> None.

Definition qn (n : nat) : Q := inject_Z (Z.of_nat n).
Lemma qn_S n : (qn (S n) == qn n + 1)%Q.
Proof. unfold qn. rewrite Nat2Z.inj_succ. unfold Z.succ. rewrite inject_Z_plus. reflexivity. Qed.

Lemma val_plus o q : (val (plus o q) == val o + q)%Q.
Proof. destruct o; cbn; reflexivity. Qed.

Lemma iter_total n u s q p r f a : total u p r f a -> s_aligned s = Some q ->
  total (Nat.iter n (fun u => add_score u s) u)
        (p + qn n * s_precision s)%Q (r + qn n * s_recall s)%Q (f + qn n * s_f1 s)%Q (a + qn n * q)%Q /\
  (filled u \/ (0 < n)%nat -> filled (Nat.iter n (fun u => add_score u s) u)).
Proof.
  intros (T1 & T2 & T3 & T4) A. induction n as [|n [(I1 & I2 & I3 & I4) IF]].
  - cbn [Nat.iter nat_rect]. split; [unfold total; rewrite T1, T2, T3, T4; change (qn 0) with 0%Q; repeat split; lra|].
    intros [H|H]; [auto|lia].
  - cbn [Nat.iter nat_rect] in *. change (nat_rect _ u _ n) with (Nat.iter n (fun u => add_score u s) u) in *.
    set (w := Nat.iter n (fun u => add_score u s) u) in *. split.
    + unfold total, add_score. rewrite A. cbn [su_p su_r su_f su_a]. rewrite !val_plus, I1, I2, I3, I4, qn_S. repeat split; ring.
    + intros _. unfold filled, add_score. rewrite A. cbn [su_p su_r su_f su_a]. unfold plus. repeat split; discriminate.
Qed.

Lemma iter_unaligned n u s : s_aligned s = None -> su_a (Nat.iter n (fun u => add_score u s) u) = su_a u.
Proof. intros A. induction n as [|n IH]; [reflexivity|]. cbn. rewrite A. exact IH. Qed.

Lemma iter_shift {A} (f : A -> A) n x : Nat.iter (S n) f x = Nat.iter n f (f x).
Proof. induction n as [|n IH]; [reflexivity|]. cbn in *. rewrite IH. reflexivity. Qed.

Lemma add_table_get (ms : list str) (t : table) : forall all,
  (forall m, In m ms -> exists u, dict_get all m = Some u) -> (forall m, In m ms -> exists s, dict_get t m = Some s) ->
  exists all', add_table ms all (Some t) = Ok all' /\
    forall k u s, dict_get t k = Some s -> dict_get all k = Some u ->
      dict_get all' k = Some (Nat.iter (times k ms) (fun u => add_score u s) u).
Proof.
  induction ms as [|m ms IH]; intros all HA HT.
  - exists all. split; [reflexivity|]. intros k u s _ E. exact E.
  - unfold add_table. cbn [foldM]. destruct (HA m (or_introl eq_refl)) as (u & Eu). destruct (HT m (or_introl eq_refl)) as (s & Es).
    rewrite Eu. cbn [of_option bind]. rewrite Es. cbn [of_option bind].
    destruct (IH (dict_set all m (add_score u s))) as (all' & E & G).
    + intros m' I. destruct (list_eq_dec N.eq_dec m m') as [<-|N].
      * rewrite dict_get_set_same. eauto.
      * rewrite dict_get_set_other by auto. apply HA. right. auto.
    + intros m' I. apply HT. right. auto.
    + exists all'. split; [exact E|]. intros k u' s' Ek Eu'. rewrite times_cons. destruct (list_eq_dec N.eq_dec m k) as [<-|N].
      * rewrite Es in Ek. injection Ek as <-. rewrite Eu in Eu'. injection Eu' as <-.
        rewrite (G m (add_score u s) s Es (dict_get_set_same _ _ _)). cbn [Nat.add]. rewrite iter_shift. reflexivity.
      * cbn [Nat.add]. apply G; auto. rewrite dict_get_set_other by auto. auto.
Qed.

Lemma tables_get (ms : list str) (ts : list table) : forall all,
  (forall m, In m ms -> exists u, dict_get all m = Some u) ->
  (forall t m, In t ts -> In m ms -> exists s, dict_get t m = Some s) ->
  exists all', foldM (add_table ms) all (map Some ts) = Ok all' /\
    forall k u, In k ms -> dict_get all k = Some u -> exists u', dict_get all' k = Some u' /\
      (forall ss vs p r f a, scores_for k ts ss -> map s_aligned ss = map Some vs -> total u p r f a ->
         total u' (p + qn (times k ms) * sumq (map s_precision ss))%Q (r + qn (times k ms) * sumq (map s_recall ss))%Q
                  (f + qn (times k ms) * sumq (map s_f1 ss))%Q (a + qn (times k ms) * sumq vs)%Q /\
         (filled u \/ ts <> [] -> filled u')) /\
      (forall ss, scores_for k ts ss -> (forall s, In s ss -> s_aligned s = None) -> su_a u' = su_a u).
Proof.
  induction ts as [|t ts IH]; intros all HA HT.
  - exists all. split; [reflexivity|]. intros k u I E. exists u. split; auto. split.
    + intros ss vs p r f a S A (T1 & T2 & T3 & T4). inversion S; subst. destruct vs; [|discriminate]. cbn [map sumq].
      split; [unfold total; rewrite T1, T2, T3, T4; repeat split; ring|]. intros [H|H]; [auto|congruence].
    + auto.
  - cbn [map foldM]. destruct (add_table_get ms t all HA (fun m => HT t m (or_introl eq_refl))) as (all1 & E1 & G1). rewrite E1. cbn [bind].
    destruct (IH all1) as (all' & E & G).
    + intros m I. destruct (HA m I) as (u & Eu). destruct (HT t m (or_introl eq_refl) I) as (s & Es). rewrite (G1 _ _ _ Es Eu). eauto.
    + intros t' m I. apply HT. right. auto.
    + exists all'. split; auto. intros k u I Eu. destruct (HT t k (or_introl eq_refl) I) as (s & Es).
      destruct (G k _ I (G1 _ _ _ Es Eu)) as (u' & E' & GT & GU). exists u'. split; auto. split.
      * intros ss vs p r f a SF A T. inversion SF as [|? s0 ? ss0 S1 S2]; subst. rewrite Es in S1. injection S1 as <-.
        destruct vs as [|v vs]; [discriminate|]. cbn [map] in A. injection A as A1 A2.
        destruct (iter_total (times k ms) u s v p r f a T A1) as [T1 F1].
        destruct (GT ss0 vs _ _ _ _ S2 A2 T1) as [(T2 & T3 & T4 & T5) F2].
        split; [|intros _; apply F2; left; apply F1; right; apply (count_occ_In (list_eq_dec N.eq_dec)); auto].
        unfold total. rewrite T2, T3, T4, T5. cbn [map sumq]. repeat split; ring.
      * intros ss SF A. inversion SF as [|? s0 ? ss0 S1 S2]; subst. rewrite Es in S1. injection S1 as <-.
        rewrite (GU ss0 S2 (fun s I => A s (or_intror I))). apply iter_unaligned. apply A. left. auto.
Qed.

Lemma start_get (ms : list str) m : In m ms -> dict_get (dict_update [] (map (fun m => (m, no_sums)) ms)) m = Some no_sums.
Proof.
  assert (G : forall ms d, (In m ms \/ dict_get d m = Some no_sums) -> dict_get (dict_update d (map (fun m => (m, no_sums)) ms)) m = Some no_sums).
  { clear. induction ms as [|m' ms IH]; intros d H; cbn [map].
    - destruct H as [[]|H]. exact H.
    - change (dict_update d ((m', no_sums) :: map (fun m => (m, no_sums)) ms)) with (dict_update (dict_set d m' no_sums) (map (fun m => (m, no_sums)) ms)).
      apply IH. destruct (list_eq_dec N.eq_dec m' m) as [->|N]; [right; apply dict_get_set_same|].
      destruct H as [[H|H]|H]; [congruence|auto|]. right. rewrite dict_get_set_other by auto. auto. }
  intros I. apply G. auto.
Qed.

(* the second pass *)
Definition means (n : Q) (all : dict sums) (out : table) (ms : list str) : result table :=
  foldM (fun out m => do u <- of_option EKey (dict_get all m); do s <- mean_of n u; Ok (dict_set out m s)) out ms.

Lemma means_ok n all ms : forall out,
  (forall m, In m ms -> exists u, dict_get all m = Some u /\ filled u) ->
  exists out', means n all out ms = Ok out' /\
    (forall m, In m (map fst out') <-> In m (map fst out) \/ In m ms) /\
    (NoDup (map fst out ++ ms) -> map fst out' = map fst out ++ ms) /\
    (forall m u s, In m ms -> dict_get all m = Some u -> mean_of n u = Ok s -> dict_get out' m = Some s) /\
    (forall m, ~ In m ms -> dict_get out' m = dict_get out m).
Proof.
  induction ms as [|m ms IH]; intros out H.
  - exists out. split; [reflexivity|]. split; [cbn; tauto|]. split; [rewrite app_nil_r; auto|]. split; [intros m u s []|auto].
  - destruct (H m (or_introl eq_refl)) as (u & Eu & (F1 & F2 & F3 & F4)).
    assert (EM : exists s, mean_of n u = Ok s).
    { unfold mean_of. destruct (su_p u), (su_r u), (su_f u), (su_a u); try congruence. eauto. }
    destruct EM as (s & Es).
    destruct (IH (dict_set out m s) (fun m' I => H m' (or_intror I))) as (out' & E & K & ND & G & O).
    exists out'. split; [unfold means; cbn [foldM]; rewrite Eu; cbn [of_option bind]; rewrite Es; cbn [bind]; exact E|].
    assert (KS : map fst (dict_set out m s) = if dict_mem out m then map fst out else map fst out ++ [m]) by apply dict_keys_set.
    assert (MM : dict_mem out m = true <-> In m (map fst out)).
    { unfold dict_mem. destruct (dict_get out m) eqn:EG.
      - split; auto. intros _. apply dict_get_In in EG. apply (in_map fst) in EG. exact EG.
      - split; [discriminate|]. intros I. apply dict_get_None in EG. contradiction. }
    split; [|split; [|split]].
    + intros k. rewrite K, KS. cbn [In]. destruct (dict_mem out m) eqn:EM.
      * assert (In m (map fst out)) by (apply MM; auto). split; [tauto|]. intros [I|[<-|I]]; auto.
      * rewrite in_app_iff. cbn [In]. tauto.
    + intros D. pose proof (NoDup_remove_2 _ _ _ D) as N2. rewrite in_app_iff in N2.
      destruct (dict_mem out m) eqn:EM; [exfalso; apply N2; left; apply MM; auto|].
      rewrite ND; rewrite KS, <- app_assoc; [reflexivity|]. exact D.
    + intros k u' s' I Eu' Es'. destruct (in_dec (list_eq_dec N.eq_dec) k ms) as [J|J]; [eapply G; eauto|].
      destruct I as [<-|I]; [|contradiction]. rewrite O by auto. rewrite Eu in Eu'. injection Eu' as <-.
      rewrite Es in Es'. injection Es' as <-. apply dict_get_set_same.
    + intros k I. rewrite O by (intros J; apply I; right; auto). apply dict_get_set_other. intros ->. apply I. left. auto.
Qed.

Lemma means_none n all ms m u : (forall m, In m ms -> exists u, dict_get all m = Some u) ->
  In m ms -> dict_get all m = Some u -> su_a u = None -> forall out, means n all out ms = Err EType.
Proof.
  intros H. induction ms as [|m' ms IH]; intros I Eu A out; [destruct I|].
  unfold means. cbn [foldM]. destruct (H m' (or_introl eq_refl)) as (u' & Eu'). rewrite Eu'. cbn [of_option bind].
  destruct (mean_of n u') as [s|e] eqn:EM; cbn [bind].
  - apply IH; auto; [intros m0 I0; apply H; right; auto|]. destruct I as [<-|I]; auto.
    rewrite Eu in Eu'. injection Eu' as <-. unfold mean_of in EM. rewrite A in EM. destruct (su_p u), (su_r u), (su_f u); discriminate.
  - unfold mean_of in EM. destruct (su_p u'), (su_r u'), (su_f u'), (su_a u'); try discriminate; injection EM as <-; reflexivity.
Qed.

Lemma scores_for_exists m (ts : list table) : (forall t, In t ts -> exists s q, dict_get t m = Some s /\ s_aligned s = Some q) ->
  exists ss vs, scores_for m ts ss /\ map s_aligned ss = map Some vs.
Proof.
  induction ts as [|t ts IH]; intros H.
  - exists [], []. split; [constructor|reflexivity].
  - destruct IH as (ss & vs & F & E); [intros t' I; apply H; right; auto|]. destruct (H t (or_introl eq_refl)) as (s & q & Es & Ea).
    exists (s :: ss), (q :: vs). split; [constructor; auto|]. cbn. rewrite Ea, E. auto.
Qed.

Lemma averages metrics ts : ts <> [] ->
  (forall t m, In t ts -> In m metrics -> exists s q, dict_get t m = Some s /\ s_aligned s = Some q) ->
  exists out, average_scores metrics (map Some ts) = Ok out /\
    (forall m, In m (map fst out) <-> In m metrics) /\ (NoDup metrics -> map fst out = metrics) /\
    forall m, In m metrics -> exists ss s, scores_for m ts ss /\ dict_get out m = Some s /\ mean_times (times m metrics) ss s.
Proof.
  intros NE H. unfold average_scores.
  destruct (tables_get metrics ts (dict_update [] (map (fun m => (m, no_sums)) metrics))) as (all & E & G).
  - intros m I. rewrite start_get by auto. eauto.
  - intros t m It Im. destruct (H t m It Im) as (s & q & Es & _). eauto.
  - match goal with |- context [bind ?x _] => replace x with (Ok all) by (symmetry; exact E) end. cbn [bind]. fold (means (qlen (map Some ts)) all [] metrics).
    destruct (means_ok (qlen (map Some ts)) all metrics []) as (out & EO & K & ND & MG & _).
    + intros m I. destruct (G m no_sums I (start_get _ _ I)) as (u & Eu & T & _). exists u. split; auto.
      destruct (scores_for_exists m ts (fun t It => H t m It I)) as (ss & vs & SF & A).
      destruct (T ss vs 0%Q 0%Q 0%Q 0%Q SF A) as [_ F]; [repeat split; reflexivity|]. apply F. right. auto.
    + exists out. split; auto. split; [intros m; rewrite K; cbn; tauto|]. split; [exact ND|].
      intros m I. destruct (G m no_sums I (start_get _ _ I)) as (u & Eu & T & _).
      destruct (scores_for_exists m ts (fun t It => H t m It I)) as (ss & vs & SF & A).
      destruct (T ss vs 0%Q 0%Q 0%Q 0%Q SF A) as [(T1 & T2 & T3 & T4) F]; [repeat split; reflexivity|].
      destruct F as (F1 & F2 & F3 & F4); [right; auto|].
      destruct (mean_of (qlen (map Some ts)) u) as [s|e] eqn:EM.
      2:{ unfold mean_of in EM. destruct (su_p u), (su_r u), (su_f u), (su_a u); congruence. }
      exists ss, s. split; auto. split; [eapply MG; eauto|].
      assert (L : length ss = length ts) by (symmetry; apply (Forall2_length' _ _ _ SF)).
      assert (LV : length vs = length ts) by (rewrite <- L, <- (map_length s_aligned), A, map_length; auto).
      assert (N0 : (~ inject_Z (Z.of_nat (length ts)) == 0)%Q).
      { destruct ts; [congruence|]. cbn [length]. unfold Qeq, inject_Z. cbn. lia. }
      unfold mean_of in EM. destruct (su_p u) as [p|]; [|congruence]. destruct (su_r u) as [r|]; [|congruence].
      destruct (su_f u) as [f|]; [|congruence]. destruct (su_a u) as [a|]; [|congruence]. injection EM as <-.
      cbn [val] in T1, T2, T3, T4. unfold mean_times, meanq, qlen, zlen. rewrite !map_length, L. cbn [s_precision s_recall s_f1 s_aligned].
      fold (qn (times m metrics)). split; [rewrite T1; field; auto|]. split; [rewrite T2; field; auto|]. split; [rewrite T3; field; auto|].
      exists vs, (a / inject_Z (Z.of_nat (length ts)))%Q. split; auto. split; auto. rewrite LV, T4. field; auto.
Qed.

Lemma mean_once ss s : mean_times 1 ss s -> mean_score ss s.
Proof.
  intros (A & B & C & vs & q & D & E & F). unfold mean_score. rewrite A, B, C.
  change (inject_Z (Z.of_nat 1)) with 1%Q in *. repeat split; try ring. exists vs, q. split; auto. split; auto. rewrite F. ring.
Qed.

Lemma averages_unaligned metrics ts m :
  (forall t m, In t ts -> In m metrics -> exists s, dict_get t m = Some s) ->
  In m metrics -> (forall t s, In t ts -> dict_get t m = Some s -> s_aligned s = None) ->
  average_scores metrics (map Some ts) = Err EType.
Proof.
  intros H I A. unfold average_scores.
  destruct (tables_get metrics ts (dict_update [] (map (fun m => (m, no_sums)) metrics))) as (all & E & G); auto.
  - intros m' I'. rewrite start_get by auto. eauto.
  - match goal with |- context [bind ?x _] => replace x with (Ok all) by (symmetry; exact E) end. cbn [bind]. destruct (G m no_sums I (start_get _ _ I)) as (u & Eu & _ & U).
    eapply means_none; eauto.
    + intros m' I'. destruct (G m' no_sums I' (start_get _ _ I')) as (u' & Eu' & _). eauto.
    + assert (S : exists ss, scores_for m ts ss /\ forall s, In s ss -> s_aligned s = None).
      { clear - H I A. induction ts as [|t ts IH].
        - exists []. split; [constructor|intros s []].
        - destruct IH as (ss & F & N); [intros t' m' J; apply H; right; auto|intros t' s' J; apply A; right; auto|].
          destruct (H t m (or_introl eq_refl) I) as (s & Es). exists (s :: ss). split; [constructor; auto|].
          intros s' [<-|J]; [apply (A t); [left; auto|auto]|auto]. }
      destruct S as (ss & SF & N). exact (U ss SF N).
Qed.

(* ---- the tables that are reported ---- *)

Definition aligned_metric (m : metric) : bool :=
  match m with MTokens | MSentences | MWords => false | _ => true end.

Lemma table_of_get scores m s : (forall m, m <> MWeightedLAS -> exists s, scores m = Some s) -> m <> MWeightedLAS -> scores m = Some s ->
  dict_get (table_of scores) (metric_name m) = Some s.
Proof.
  intros H N E.
  destruct (H MTokens) as (s1 & E1); [discriminate|]. destruct (H MSentences) as (s2 & E2); [discriminate|].
  destruct (H MWords) as (s3 & E3); [discriminate|]. destruct (H MUPOS) as (s4 & E4); [discriminate|].
  destruct (H MXPOS) as (s5 & E5); [discriminate|]. destruct (H MFeats) as (s6 & E6); [discriminate|].
  destruct (H MAllTags) as (s7 & E7); [discriminate|]. destruct (H MLemmas) as (s8 & E8); [discriminate|].
  destruct (H MUAS) as (s9 & E9); [discriminate|]. destruct (H MLAS) as (s10 & E10); [discriminate|].
  destruct (H MCLAS) as (s11 & E11); [discriminate|].
  unfold table_of, all_metrics. cbn [map concat].
  rewrite E1, E2, E3, E4, E5, E6, E7, E8, E9, E10, E11. cbn [app].
  destruct m; try congruence; rewrite ?E1, ?E2, ?E3, ?E4, ?E5, ?E6, ?E7, ?E8, ?E9, ?E10, ?E11 in E; injection E as <-; reflexivity.
Qed.

Lemma reported_get t m : reported t -> m <> MWeightedLAS -> exists s, dict_get t (metric_name m) = Some s /\
  if aligned_metric m then exists q, s_aligned s = Some q else s_aligned s = None.
Proof.
  intros (lower & gold & system & weights & scores & E & ->) N. unfold evaluate in E.
  apply bind_ok_iff in E. destruct E as (u & _ & E). apply bind_ok_iff in E. destruct E as (pairs & _ & E). injection E as <-.
  assert (ALL : forall m, m <> MWeightedLAS -> exists s, metric_score gold system (fill_parents pairs) weights m = Some s).
  { intros [] N'; try congruence; cbn; eauto. }
  destruct (ALL m N) as (s & Es). exists s. split; [apply table_of_get; auto|].
  destruct m; try congruence; cbn in Es; injection Es as <-; cbn; eauto.
Qed.
