(* The parameter sets of a grid *)
From Coq Require Import String ZArith NArith Bool Lia Permutation List.
From Verif Require Import Base BaseFacts Proofs_Datamodel Proofs_Builder3 Model_Grid Spec_Grid Proofs_Grid Proofs_Grid2 Proofs_Grid3.
Import ListNotations.
Open Scope nat_scope.

Section Grid.
Context {L : Type}.
Implicit Types (h : jheap L) (v : jval L) (j g b r base : json L) (d e : list (str * json L)) (o : dict (jval L)).

(* ---- applying alternatives ---- *)

Lemma at_path_app p q j : at_path (p ++ q) j = match at_path p j with Some v => at_path q v | None => None end.
Proof.
  revert j. induction p as [|k p IH]; intros j; cbn [app at_path]; auto. destruct j as [x|d]; auto. destruct (dict_get d k); auto.
Qed.

Lemma diverge p j : at_path p j = None -> exists q k p', p = q ++ k :: p' /\
  ((exists x, at_path q j = Some (JLeaf x)) \/ exists d, at_path q j = Some (JDict d) /\ ~ In k (map fst d)).
Proof.
  revert j. induction p as [|k p IH]; intros j H; [discriminate|]. cbn [at_path] in H. destruct j as [x|d].
  - exists [], k, p. split; auto. left. exists x. auto.
  - destruct (dict_get d k) as [v|] eqn:E.
    + destruct (IH v H) as (q & k' & p' & -> & D). exists (k :: q), k', p'. split; auto. cbn [at_path]. rewrite E. auto.
    + exists [], k, p. split; auto. right. exists d. split; auto. apply dict_get_None. auto.
Qed.

Lemma applied_nil base : applied base [] base.
Proof. intros p. destruct (at_path p base) as [[x|e]|]; cbn; eauto. Qed.

Lemma applied_fits base alts r g : applied base alts r -> fits base g -> fits r g.
Proof.
  intros A F p. specialize (A p). specialize (F p). destruct (at_path p g) as [[x|d]|]; auto.
  - destruct F as (y & E). rewrite E in A. eauto.
  - destruct F as (e & E). rewrite E in A. destruct A as (f & A & _). eauto.
Qed.

Lemma applied_step base alts r g r' : applied base alts r -> fits base g -> merged r g r' -> applied base (alts ++ [g]) r'.
Proof.
  intros A F (M1 & M2 & M3 & M4) p.
  assert (SAME : at_path p g = None -> at_path p r' = at_path p r \/ (at_path p base = None /\ at_path p r' = None)).
  { intros E. destruct (diverge _ _ E) as (q & k & p' & -> & [(x & EX)|(d & ED & NI)]).
    - right. rewrite !at_path_app, (M1 _ _ EX). specialize (F q). rewrite EX in F. destruct F as (y & ->). auto.
    - left. specialize (F q). rewrite ED in F. destruct F as (e & EB). specialize (A q). rewrite EB in A. destruct A as (f & EF & _).
      eapply M4; eauto. }
  pose proof (F p) as Fp. pose proof (A p) as Ap. destruct (at_path p base) as [[x|e]|] eqn:EB.
  - unfold latest. rewrite fold_left_app. cbn [fold_left]. destruct (at_path p g) as [[y|d]|] eqn:EG.
    + apply M1. auto.
    + destruct Fp; discriminate.
    + destruct (SAME eq_refl) as [->|[H _]]; [exact Ap|discriminate].
  - destruct Ap as (f & EF & K). destruct (at_path p g) as [[y|d]|] eqn:EG.
    + destruct Fp; discriminate.
    + destruct (M3 _ _ _ EG EF) as (f' & E' & K'). exists f'. split; auto. congruence.
    + destruct (SAME eq_refl) as [->|[H _]]; [eauto|discriminate].
  - destruct (at_path p g) as [[y|d]|] eqn:EG; [destruct Fp; discriminate|destruct Fp; discriminate|].
    destruct (SAME eq_refl) as [->|[_ ->]]; auto.
Qed.

Lemma fits_known b g : fits b g -> ~ unknown_key b g.
Proof.
  intros F (p & k & e & d & A & B & C & D). specialize (F (p ++ [k])). rewrite !at_path_app, A, B in F. cbn [at_path] in F.
  destruct (dict_get d k) as [v|] eqn:E; [|apply dict_get_None in E; contradiction].
  destruct (dict_get e k) as [w|] eqn:E'; [apply get_some_key in E'; contradiction|]. destruct v; destruct F; discriminate.
Qed.

(* ---- one parameter set ---- *)

Definition held h (v : jval L) (j : json L) : Prop := exists fp, owns h v j fp /\ NoDup fp.
Definition agrees h h' : Prop := length h <= length h' /\ forall c, c < length h -> nth_error h' c = nth_error h c.

Lemma agrees_refl h : agrees h h.
Proof. split; auto. Qed.
Lemma agrees_trans h h' h'' : agrees h h' -> agrees h' h'' -> agrees h h''.
Proof. intros [A B] [C D]. split; [lia|]. intros c I. rewrite D by lia. auto. Qed.
Lemma agrees_app h ext : agrees h (h ++ ext).
Proof. split; [rewrite app_length; lia|]. intros c I. apply nth_error_app1. auto. Qed.

Lemma held_agrees h h' v j : held h v j -> agrees h h' -> held h' v j.
Proof.
  intros (fp & O & N) [A B]. exists fp. split; auto. eapply frame; eauto. intros c I. apply B.
  pose proof (proj1 (owns_bound h) _ _ _ O) as F. rewrite Forall_forall in F. auto.
Qed.

Lemma merges base h0 : forall alts vs done h a r fp,
  Forall2 (fun v j => held h0 v j /\ json_ok j /\ fits base j /\ exists d, j = JDict d) vs alts ->
  agrees h0 h -> owns h (VRef a) r fp -> NoDup fp -> Forall (fun c => length h0 <= c) fp -> applied base done r ->
  exists h' r' fp', foldM (fun h alt => do g <- address alt; merge (S (length h)) a g h) h vs = Ok h' /\
    agrees h0 h' /\ length h' = length h /\ owns h' (VRef a) r' fp' /\ NoDup fp' /\ Forall (fun c => length h0 <= c) fp' /\
    applied base (done ++ alts) r' /\ (forall c, ~ In c fp -> nth_error h' c = nth_error h c).
Proof.
  induction alts as [|g alts IH]; intros vs done h a r fp F AG O N B A; inversion F as [|v ? vs' ? (H & OK & FT & (d & Ed)) F']; subst.
  - exists h, r, fp. rewrite app_nil_r. cbn. auto 10.
  - cbn [foldM]. destruct (held_agrees _ _ _ _ H AG) as (fpg & OG & NG). inversion OG as [|ga og ? fpg' EG OW]; subst.
    cbn [address bind].
    assert (ND : NoDup (fp ++ ga :: fpg')).
    { apply NoDup_app_iff. split; auto. split; auto. intros c I J. rewrite Forall_forall in B. specialize (B c I).
      destruct H as (fp0 & O0 & N0). inversion O0 as [|? og0 ? fp0' E0 OW0]; subst.
      pose proof (proj1 (owns_bound h0) _ _ _ O0) as BB. rewrite Forall_forall in BB.
      assert (owns h (VRef ga) (JDict d) (ga :: fp0')) as O1.
      { eapply frame; [exact O0|]. intros c' I'. apply AG. apply BB. auto. }
      assert (U : ga :: fpg' = ga :: fp0').
      { clear - OG O1. revert OG O1. generalize (VRef (L := L) ga) (JDict d) (ga :: fpg') (ga :: fp0').
        assert (G : (forall v j fp1, owns h v j fp1 -> forall fp2, owns h v j fp2 -> fp1 = fp2) /\
                    (forall o d fp1, owns_list h o d fp1 -> forall fp2, owns_list h o d fp2 -> fp1 = fp2)).
        { apply (owns_both L h (fun v j fp1 => forall fp2, owns h v j fp2 -> fp1 = fp2) (fun o d fp1 => forall fp2, owns_list h o d fp2 -> fp1 = fp2)).
          - intros x fp2 O2. inversion O2. auto.
          - intros a o d0 fp E _ IH fp2 O2. inversion O2 as [|? o' ? fp' E' O']; subst. rewrite E in E'. injection E' as <-. f_equal. auto.
          - intros fp2 O2. inversion O2. auto.
          - intros k v j o d0 fp fp' _ IH1 _ IH2 fp2 O2. inversion O2; subst. f_equal; auto. }
        intros j0 j1 l l0 OA OB. eapply (proj1 G); eauto. }
      rewrite U in J. specialize (BB c J). lia. }
    pose proof (merge_owns (S (length h)) (JDict d) OK r h a ga fp (ga :: fpg') O OG ND) as M.
    specialize (M ltac:(pose proof (owns_small _ _ _ _ OG NG); lia)).
    assert (FR : fits r (JDict d)) by (eapply applied_fits; eauto).
    destruct (mergej (JDict d) r) as [r1|] eqn:EM.
    2:{ exfalso. apply (mergej_none _ OK) in EM. exact (fits_known _ _ FR EM). }
    destruct M as (h1 & fp1 & E1 & O1 & N1 & _ & L1 & _ & FT1). destruct (FT1 FR) as [I1 F1]. rewrite E1. cbn [bind].
    pose proof (mergej_merged _ OK _ _ EM) as MG.
    destruct (IH vs' (done ++ [JDict d]) h1 a r1 fp1 F') as (h' & r' & fp' & E' & AG' & L' & O' & N' & B' & A' & F1'); auto.
    + split; [destruct AG; lia|]. intros c LC. rewrite F1; [apply AG; auto|]. intros I. rewrite Forall_forall in B. specialize (B c I). lia.
    + rewrite Forall_forall in *. intros c I. apply B, I1. auto.
    + eapply applied_step; eauto.
    + exists h', r', fp'. split; [exact E'|]. split; auto. split; [lia|]. split; auto. split; auto. split; auto.
      rewrite <- app_assoc in A'. split; auto. intros c I. rewrite F1', F1; auto.
Qed.

(* ---- all parameter sets ---- *)

Definition built (base : json L) h (v : jval L) (alts : list (json L)) : Prop := exists r, held h v r /\ applied base alts r.

Lemma build_all base e params h0 : base = JDict e -> held h0 params base -> forall elements altss pre h,
  Forall2 (Forall2 (fun v j => held h0 v j /\ json_ok j /\ fits base j /\ exists d, j = JDict d)) elements altss ->
  agrees h0 h -> Forall (fun v => exists a, v = VRef a /\ a < length h) pre ->
  exists vs h', foldM (fun s element =>
           do c <- deepcopy (length (snd s)) params (snd s);
           do a <- address (fst c);
           do h' <- foldM (fun h alt => do g <- address alt; merge (S (length h)) a g h) (snd c) element;
           Ok (fst s ++ [VRef a], h')) (pre, h) elements = Ok (pre ++ vs, h') /\
    agrees h h' /\ Forall2 (built base h') vs altss /\ (NoDup pre -> NoDup (pre ++ vs)) /\
    Forall (fun v => exists a, v = VRef a /\ a < length h') (pre ++ vs).
Proof.
  intros EB HP. induction elements as [|el els IH]; intros altss pre h F AG PB; inversion F as [|? alts ? altss' F1 F2]; subst.
  - exists [], h. rewrite app_nil_r. cbn. split; auto. split; [apply agrees_refl|]. split; auto.
  - cbn [foldM fst snd]. destruct (held_agrees _ _ _ _ HP AG) as (fpb & OB & NB).
    destruct (proj1 (deepcopy_owns h) _ _ _ OB [] (length h)) as (v' & fp' & ext & ED & O' & N' & B').
    { eapply owns_small; eauto. }
    rewrite app_nil_r in *. rewrite ED. cbn [bind fst snd]. inversion O' as [|a oa ? fpa EA OA]; subst. cbn [address bind].
    destruct (merges (JDict e) h0 alts el [] (h ++ ext) a (JDict e) (a :: fpa)) as (h1 & r1 & fp1 & E1 & AG1 & L1 & O1 & N1 & B1 & A1 & F1'); auto.
    + eapply agrees_trans; [exact AG|apply agrees_app].
    + eapply Forall_impl; [|exact B']. cbn. destruct AG. intros; lia.
    + apply applied_nil.
    + rewrite E1. cbn [bind].
      assert (AGh : agrees h h1).
      { split; [rewrite L1, app_length; lia|]. intros c LC. rewrite F1', nth_error_app1; auto.
        intros I. rewrite Forall_forall in B'. specialize (B' c I). lia. }
      assert (a < length h1 /\ length h <= a) as [La La'].
      { rewrite L1. rewrite Forall_forall in B'. specialize (B' a (or_introl eq_refl)). lia. }
      destruct (IH altss' (pre ++ [VRef a]) h1 F2 AG1) as (vs & h' & E2 & AG2 & FB & ND & PB2).
      * apply Forall_app. split; [|constructor; eauto]. eapply Forall_impl; [|exact PB]. cbn. intros v (a' & -> & LT). exists a'. split; auto.
        destruct AGh. lia.
      * exists (VRef a :: vs), h'. rewrite E2. rewrite <- app_assoc in *. cbn [app] in *. split; auto. split; [eapply agrees_trans; eauto|]. split.
        { constructor; auto. exists r1. split; auto. eapply held_agrees; [|exact AG2]. exists fp1. auto. }
        split; auto. intros NP. apply ND.
        apply NoDup_app_iff. split; auto. split; [repeat constructor; intros []|]. intros v I [<-|[]].
        rewrite Forall_forall in PB. destruct (PB _ I) as (a' & E & LT). injection E as <-. lia.
Qed.

(* ---- loading the files ---- *)

Lemma load_held j h : exists ext, snd (load j h) = h ++ ext /\ held (h ++ ext) (fst (load j h)) j.
Proof. destruct (load_owns j h) as (fp & ext & O & E & N & _). exists ext. split; auto. exists fp. auto. Qed.

Lemma load_list_held js : forall h, exists ext, snd (load_list js h) = h ++ ext /\ Forall2 (held (h ++ ext)) (fst (load_list js h)) js.
Proof.
  induction js as [|j js IH]; intros h; cbn [load_list].
  - exists []. rewrite app_nil_r. split; [reflexivity|constructor].
  - destruct (load_held j h) as (ext1 & E1 & H1). destruct (load j h) as [v h1]. cbn [fst snd] in *. subst h1.
    destruct (IH (h ++ ext1)) as (ext2 & E2 & H2). destruct (load_list js (h ++ ext1)) as [vs h2]. cbn [fst snd] in *. subst h2.
    exists (ext1 ++ ext2). rewrite app_assoc. split; auto. constructor; auto. eapply held_agrees; [exact H1|apply agrees_app].
Qed.

Lemma load_lists_held jss : forall h, exists ext, snd (load_lists jss h) = h ++ ext /\
  Forall2 (Forall2 (held (h ++ ext))) (fst (load_lists jss h)) jss.
Proof.
  induction jss as [|js jss IH]; intros h; cbn [load_lists].
  - exists []. rewrite app_nil_r. split; [reflexivity|constructor].
  - destruct (load_list_held js h) as (ext1 & E1 & H1). destruct (load_list js h) as [v h1]. cbn [fst snd] in *. subst h1.
    destruct (IH (h ++ ext1)) as (ext2 & E2 & H2). destruct (load_lists jss (h ++ ext1)) as [vs h2]. cbn [fst snd] in *. subst h2.
    exists (ext1 ++ ext2). rewrite app_assoc. split; auto. constructor; auto. eapply Forall2_impl; [|exact H1].
    intros v' j' H. eapply held_agrees; [exact H|apply agrees_app].
Qed.

(* ---- the product ---- *)

Definition in_range {A} (c : list nat) (ls : list (list A)) : Prop := Forall2 (fun i l => i < length l) c ls.

Lemma product_choices {A} (ls : list (list A)) : exists cs, NoDup cs /\ (forall c, In c cs <-> in_range c ls) /\
  Forall2 (fun c x => chosen c ls x) cs (product ls).
Proof.
  induction ls as [|l ls (cs & ND & IN & F)]; cbn [product].
  - exists [[]]. split; [repeat constructor; intros []|]. split.
    + intros c. split; [intros [<-|[]]; constructor|]. intros H. inversion H. left. auto.
    + repeat constructor.
  - assert (G : forall l1 l2, l = l1 ++ l2 -> exists cs2, NoDup cs2 /\
        (forall c, In c cs2 <-> exists i c', c = i :: c' /\ length l1 <= i < length l /\ In c' cs) /\
        Forall2 (fun c x => chosen c (l :: ls) x) cs2 (flat_map (fun x => map (cons x) (product ls)) l2)).
    { intros l1 l2. revert l1. induction l2 as [|x l2 IH]; intros l1 E.
      - exists []. split; [constructor|]. split; [|constructor]. intros c. split; [intros []|].
        intros (i & c' & _ & B & _). rewrite E, app_nil_r in B. lia.
      - destruct (IH (l1 ++ [x])) as (cs2 & ND2 & IN2 & F2); [rewrite <- app_assoc; auto|].
        exists (map (cons (length l1)) cs ++ cs2). split; [|split].
        + apply NoDup_app_iff. split; [apply FinFun.Injective_map_NoDup; auto; intros y z Q; injection Q; auto|]. split; auto.
          intros c I J. apply in_map_iff in I. destruct I as (c' & <- & _). apply IN2 in J. destruct J as (i & c2 & E2 & B & _).
          injection E2 as <- _. rewrite app_length in B. cbn in B. lia.
        + intros c. rewrite in_app_iff, in_map_iff, IN2. rewrite app_length. cbn [length]. split.
          * intros [(c' & <- & I)|(i & c' & -> & B & I)].
            { exists (length l1), c'. split; auto. split; auto. rewrite E, app_length. cbn. lia. }
            { exists i, c'. split; auto. split; auto. lia. }
          * intros (i & c' & -> & B & I). destruct (Nat.eq_dec i (length l1)) as [->|N]; [left; eauto|]. right. exists i, c'. split; auto. split; auto. lia.
        + cbn [flat_map]. apply Forall2_app; auto. clear - F E. induction F as [|c y cs ys C F IH]; cbn [map]; constructor; auto.
          constructor; auto. rewrite E, nth_error_app2, Nat.sub_diag by lia. reflexivity. }
    destruct (G [] l eq_refl) as (cs2 & ND2 & IN2 & F2). exists cs2. split; auto. split; auto.
    intros c. rewrite IN2. unfold in_range. split.
    + intros (i & c' & -> & B & I). constructor; [lia|]. apply IN. auto.
    + intros H. inversion H as [|i ? c' ? B H']; subst. exists i, c'. split; auto. split; [cbn; lia|]. apply IN. auto.
Qed.

Lemma chosen_map {A B} (R : A -> B -> Prop) c ls xs : chosen c ls xs -> forall ms, Forall2 (Forall2 R) ls ms ->
  exists ys, chosen c ms ys /\ Forall2 R xs ys.
Proof.
  induction 1 as [|i c l ls x xs N C IH]; intros ms F; inversion F as [|? m ? ms' F1 F2]; subst.
  - exists []. split; constructor.
  - destruct (IH _ F2) as (ys & C' & F'). destruct (Forall2_nth _ _ _ i x F1 N) as (y & N' & Rxy).
    exists (y :: ys). split; constructor; auto.
Qed.

Lemma held_stands h v j : held h v j -> stands h v j.
Proof. intros (fp & O & _). eapply (proj1 (owns_stands h)); eauto. Qed.

Lemma grid_product e (g : grid L) :
  check_grid g = Ok tt ->
  Forall (fun kv => Forall (fun j => json_ok j /\ fits (JDict e) j) (snd kv)) g ->
  exists cs vs params h, grid_main (JDict e) g = Ok (vs, params, h) /\
    NoDup cs /\ (forall c, In c cs <-> in_range c (map snd g)) /\
    Forall2 (fun c v => exists alts r, chosen c (map snd g) alts /\ applied (JDict e) alts r /\ stands h v r) cs vs /\
    NoDup vs /\ stands h params (JDict e).
Proof.
  intros CK FG. unfold grid_main. destruct (load_lists_held (map snd g) []) as (ext1 & E1 & H1).
  destruct (load_lists (map snd g) []) as [altv h1]. cbn [fst snd app] in *. subst h1.
  destruct (load_held (JDict e) ext1) as (ext2 & E2 & H2). destruct (load (JDict e) ext1) as [params h2]. cbn [fst snd] in *. subst h2.
  rewrite CK. cbn [bind]. set (h0 := ext1 ++ ext2) in *.
  destruct (product_choices altv) as (cs & ND & IN & FC).
  assert (FH : Forall2 (Forall2 (fun v j => held h0 v j /\ json_ok j /\ fits (JDict e) j /\ exists d, j = JDict d)) altv (map snd g)).
  { apply Forall2_of_nth; [apply (Forall2_length' _ _ _ H1)|]. intros i vs js NV NJ.
    destruct (Forall2_nth _ _ _ i vs H1 NV) as (js' & NJ' & F). rewrite NJ in NJ'. injection NJ' as <-.
    rewrite nth_error_map in NJ. destruct (nth_error g i) as [[k js0]|] eqn:EG; [|discriminate]. cbn in NJ. injection NJ as ->.
    rewrite Forall_forall in FG. apply nth_error_In in EG. specialize (FG _ EG). cbn [snd] in FG.
    clear - F FG. induction F as [|v j vs js Hv F IH]; constructor.
    - inversion FG as [|? ? [A B] C]; subst. split; [eapply held_agrees; [exact Hv|apply agrees_app]|]. split; auto. split; auto.
      pose proof (fits_kind _ _ B) as K. destruct j; [contradiction|eauto].
    - apply IH. inversion FG; auto. }
  assert (EL : exists altss, Forall2 (fun c a => chosen c (map snd g) a) cs altss /\
            Forall2 (Forall2 (fun v j => held h0 v j /\ json_ok j /\ fits (JDict e) j /\ exists d, j = JDict d)) (product altv) altss).
  { clear - FC FH. induction FC as [|c x cs xs C FC (altss & A & B)].
    - exists []. split; constructor.
    - destruct (chosen_map _ _ _ _ C _ FH) as (ys & C' & F'). exists (ys :: altss). split; constructor; auto. }
  destruct EL as (altss & A & B).
  destruct (build_all (JDict e) e params h0 eq_refl H2 (product altv) altss [] h0 B (agrees_refl _) ltac:(constructor)) as (vs & h' & E & AG & FB & NV & _).
  cbn [app] in *. unfold build_hypers. exists cs, vs, params, h'.
  split; [match goal with |- context [bind ?x _] => replace x with (@Ok (list (jval L) * jheap L) (vs, h')) by (symmetry; exact E) end; reflexivity|].
  split; auto. split.
  { intros c. rewrite IN. unfold in_range. split; intros F.
    - apply Forall2_of_nth; [rewrite (Forall2_length' _ _ _ F); apply (Forall2_length' _ _ _ H1)|]. intros i n js NC NJ.
      destruct (Forall2_nth _ _ _ i n F NC) as (vs' & NV' & LT). destruct (Forall2_nth _ _ _ i vs' H1 NV') as (js' & NJ' & F').
      rewrite NJ in NJ'. injection NJ' as <-. rewrite <- (Forall2_length' _ _ _ F'). auto.
    - apply Forall2_of_nth; [rewrite (Forall2_length' _ _ _ F); symmetry; apply (Forall2_length' _ _ _ H1)|]. intros i n vs' NC NV'.
      destruct (Forall2_nth _ _ _ i n F NC) as (js & NJ & LT). destruct (Forall2_nth _ _ _ i vs' H1 NV') as (js' & NJ' & F').
      rewrite NJ in NJ'. injection NJ' as <-. rewrite (Forall2_length' _ _ _ F'). auto. }
  split.
  { clear - A FB. revert vs FB. induction A as [|c a cs altss C A IH]; intros vs FB; inversion FB as [|v ? vs' ? (r & Hr & AP) FB']; subst; constructor; auto.
    exists a, r. split; auto. split; auto. apply held_stands. auto. }
  split; [apply NV; constructor|]. apply held_stands. eapply held_agrees; eauto.
Qed.
End Grid.
