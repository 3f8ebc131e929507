(* Configurations: the features of a batch. *)
From Coq Require Import String Ascii ZArith NArith QArith Bool List Lia Permutation.
From Verif Require Import Base BaseFacts Model_Datamodel Spec_Datamodel Model_Vocab Model_Lemma Model_Features Model_Builder Spec_Builder
  Proofs_Features Proofs_Builder Proofs_Builder3 Proofs_Builder5 Proofs_Labels3 Model_Neural Spec_Neural Proofs_Gold2 Model_Network Spec_Network Model_Config Spec_Config
  Proofs_Config.
Import ListNotations.
Open Scope Z_scope.

Lemma singles {A} (f : A -> result (dict nested)) name (P : nested -> Prop) l :
  (forall x, In x l -> exists v, f x = Ok [(name, v)] /\ P v) ->
  exists vs, mapM f l = Ok (map (fun v => [(name, v)]) vs) /\ length vs = length l /\ Forall P vs.
Proof.
  induction l as [|x l IH]; intros H; [exists []; repeat split; constructor|].
  destruct IH as (vs & E & L & F); [intros; apply H; right; auto|]. destruct (H x) as (v & Ev & Pv); [left; auto|].
  exists (v :: vs). cbn [mapM map length]. rewrite Ev, E. cbn [bind]. repeat split; [lia|constructor; auto].
Qed.

Section Batch.
Variables (B : Type) (basic : B -> obj -> result (dict nested)) (sparsify : obj -> str -> Q -> nested -> nested).
Notation features := (features B obj elements basic sparsify).

Lemma tokens_features b name rate (P : nested -> Prop) ss : ss <> [] -> (forall s, In s ss -> s <> []) ->
  (forall s x, In s ss -> In x s -> exists v, features b rate (OTok x) = Ok [(name, v)] /\ P v) ->
  exists vss, features (BIter _ (BIter _ b)) rate (batch ss) = Ok [(name, NList (map NList vss))] /\
    map (@length _) vss = map (@length _) ss /\ Forall (Forall P) vss.
Proof.
  intros Ne Nes H.
  assert (G : exists vss, mapM (features (BIter _ b) rate) (map (fun s => OSeq (map OTok s)) ss) = Ok (map (fun vs => [(name, NList vs)]) vss) /\
     map (@length _) vss = map (@length _) ss /\ Forall (Forall P) vss).
  { clear Ne. induction ss as [|s ss IH]; [exists []; repeat split; constructor|].
    destruct IH as (vss & E & L & F); [intros; apply Nes; right; auto|intros; eapply H; [right|]; eauto|].
    destruct (singles (features b rate) name P (map OTok s)) as (vs & Ev & Lv & Fv).
    { intros o Ho. apply in_map_iff in Ho. destruct Ho as (x & <- & Hx). apply (H s x); [left; auto|auto]. }
    rewrite map_length in Lv. assert (vs <> []) by (intros ->; apply (Nes s); [left; auto|]; destruct s; [auto|discriminate]).
    exists (vs :: vss). cbn [map mapM]. rewrite E. cbn [Model_Builder.features elements bind].
    rewrite Ev. cbn [bind]. rewrite collect_single by auto. cbn [map fst snd]. split; [reflexivity|]. split; [congruence|constructor; auto]. }
  destruct G as (vss & E & L & F). exists vss. split; [|auto].
  unfold batch. change (features (BIter _ (BIter _ b)) rate (OSeq (map (fun s => OSeq (map OTok s)) ss))) with
    (do ds <- mapM (features (BIter _ b) rate) (map (fun s => OSeq (map OTok s)) ss);
     Ok (map (fun kv => (fst kv, NList (snd kv))) (collect ds))).
  rewrite E. cbn [bind]. rewrite <- (map_map NList (fun v => [(name, v)])). rewrite collect_single; [reflexivity|].
  destruct vss; [|discriminate]. destruct ss; [congruence|discriminate].
Qed.
End Batch.

Lemma max_length_exists ss : ss <> [] -> exists m, max_length ss m.
Proof.
  induction ss as [|s ss IH]; [congruence|]. intros _. destruct ss as [|s' ss].
  - exists (zlen s). split; [exists s; split; [left|]; auto|]. intros s' [->|[]]. lia.
  - destruct IH as (m & (s0 & I0 & E0) & H); [discriminate|]. exists (Z.max m (zlen s)). split.
    + destruct (Z.max_spec m (zlen s)) as [[_ ->]|[_ ->]]; [exists s; split; [left|]; auto|exists s0; split; [right|]; auto].
    + intros s1 [<-|I1]; [lia|]. specialize (H _ I1). lia.
Qed.

Lemma max_length_eq ss m n : max_length ss m -> max_length ss n -> m = n.
Proof. intros [(s & I & E) H] [(s' & I' & E') H']. specialize (H _ I'). specialize (H' _ I). lia. Qed.

(* the padded value of a feature of words: first dimensions *)
Section Rows.
Variables (ss : list (list dtoken)) (vss : list (list nested)).
Hypotheses (Ne : ss <> []) (Nes : forall s, In s ss -> s <> []) (Len : map (@length _) vss = map (@length _) ss).

Let x := NList (map NList vss).

Lemma zlen_map {A C} (f : A -> C) l : zlen (map f l) = zlen l.
Proof. unfold zlen. rewrite map_length. reflexivity. Qed.

Lemma outer_length : zlen vss = zlen ss.
Proof. apply (f_equal (@length _)) in Len. rewrite !map_length in Len. unfold zlen. congruence. Qed.

Lemma row_at i vs : nth_error vss i = Some vs -> exists s, nth_error ss i = Some s /\ length vs = length s.
Proof.
  intros H. apply (map_nth_error (@length _)) in H. rewrite Len in H. rewrite nth_error_map in H.
  destruct (nth_error ss i) as [s|]; [|discriminate]. injection H as H. eauto.
Qed.
Lemma row_at' i s : nth_error ss i = Some s -> exists vs, nth_error vss i = Some vs /\ length vs = length s.
Proof.
  intros H. apply (map_nth_error (@length _)) in H. rewrite <- Len in H. rewrite nth_error_map in H.
  destruct (nth_error vss i) as [s'|]; [|discriminate]. injection H as H. eauto.
Qed.

Lemma at_row i p : at_path (i :: p) x = match nth_error vss i with Some vs => at_path p (NList vs) | None => None end.
Proof. unfold x. cbn [at_path]. rewrite nth_error_map. destruct (nth_error vss i); reflexivity. Qed.

Lemma first_word : exists vs v, nth_error vss 0 = Some vs /\ nth_error vs 0 = Some v.
Proof.
  destruct (nth_error ss 0) as [s|] eqn:E.
  - destruct (row_at' 0 s E) as (vs & Hv & L). apply nth_error_In in E.
    exists vs. destruct vs as [|v vs]; [|exists v; auto]. exfalso. apply (Nes s E). destruct s; [auto|discriminate].
  - apply nth_error_None in E. exfalso. apply Ne. apply length_zero_iff_nil. lia.
Qed.

Lemma rows_padded r m : max_length ss m -> Forall (Forall (rank r)) vss -> (r <= 1)%nat ->
  exists y s, pad_value x = Ok y /\ length s = r /\ shaped (zlen ss :: m :: s) y /\
    (forall n, nth_error s 0 = Some n -> exists vs l, In vs vss /\ In (NList l) vs /\ zlen l = n) /\
    (forall p z, at_path p y = Some (NInt z) -> z = 0 \/ at_path p x = Some (NInt z)).
Proof.
  intros Hm F Hr1.
  assert (R : rank (S (S r)) x).
  { unfold x. constructor. apply Forall_map. eapply Forall_impl; [|exact F]. intros vs Hv. constructor. exact Hv. }
  destruct first_word as (vs0 & v0 & H0 & H1).
  assert (I : inhabited (S (S r)) x).
  { intros i Hi. destruct i as [|[|[|i]]]; [| | |lia].
    - exists [], (map NList vss). auto.
    - exists [0%nat], vs0. split; auto. rewrite at_row, H0. reflexivity.
    - assert (A : at_path [0%nat; 0%nat] x = Some v0) by (rewrite at_row, H0; cbn [at_path]; rewrite H1; reflexivity).
      pose proof (rank_is_list _ _ _ _ R A) as Q. cbn [length] in Q. destruct v0 as [|l]; [|exists [0%nat; 0%nat], l; split; [reflexivity|exact A]].
      destruct Q as [_ Q]. specialize (Q Hi). discriminate. }
  destruct (pad_ok _ (rank_homogeneous _ _ R)) as (p & l' & E). pose proof (pad_padded _ _ _ E) as P.
  destruct (pad_shaped _ _ _ R I P) as (s & Ls & Sh & D & Sc).
  destruct s as [|a [|b s]]; try discriminate. cbn [length] in Ls. injection Ls as Ls.
  assert (Ea : a = zlen ss).
  { destruct (D 0%nat a eq_refl) as [(q & l & Lq & Aq & El) _]. destruct q; [|discriminate]. unfold x in Aq. cbn [at_path] in Aq. injection Aq as <-.
    rewrite zlen_map, outer_length in El. congruence. }
  assert (Eb : b = m).
  { destruct (D 1%nat b eq_refl) as [(q & l & Lq & Aq & El) Mx]. apply (max_length_eq ss); [|exact Hm]. split.
    - destruct q as [|i [|j q]]; try discriminate. rewrite at_row in Aq. destruct (nth_error vss i) as [vs|] eqn:Ei; [|discriminate].
      cbn [at_path] in Aq. injection Aq as <-. destruct (row_at _ _ Ei) as (s1 & Es & L). exists s1. split; [eapply nth_error_In; eauto|]. unfold zlen in *. congruence.
    - intros s1 Hs. apply In_nth_error in Hs. destruct Hs as [i Hi]. destruct (row_at' _ _ Hi) as (vs & Hv & L).
      replace (zlen s1) with (zlen vs) by (unfold zlen; congruence). apply (Mx [i]); auto. rewrite at_row, Hv. reflexivity. }
  subst a b. exists (NList l'), s. unfold pad_value, x. unfold x in E. rewrite E. cbn [bind snd].
  repeat (split; auto). intros n Hn. destruct (D 2%nat n Hn) as [(q & l & Lq & Aq & El) _].
  destruct q as [|i [|j [|k q]]]; try discriminate. rewrite at_row in Aq. destruct (nth_error vss i) as [vs|] eqn:Ei; [|discriminate].
  cbn [at_path] in Aq. destruct (nth_error vs j) as [v|] eqn:Ej; [|discriminate]. injection Aq as ->. exists vs, l.
  split; [eapply nth_error_In; eauto|]. split; [eapply nth_error_In; eauto|auto].
Qed.
End Rows.

(* a feature that is a number *)
Lemma numbers_array ss vss m n : ss <> [] -> (forall s, In s ss -> s <> []) -> map (@length _) vss = map (@length _) ss -> max_length ss m ->
  0 < n -> Forall (Forall (fun v => exists z, v = NInt z /\ 0 <= z < n)) vss ->
  exists y, pad_value (NList (map NList vss)) = Ok y /\ shaped [zlen ss; m] y /\ within n y.
Proof.
  intros Ne Nes L Hm Hn F. destruct (rows_padded ss vss Ne Nes L 0 m Hm) as (y & s & E & Ls & Sh & _ & Sc); [|lia|].
  - eapply Forall_impl; [|exact F]. intros vs. apply Forall_impl. intros v (z & -> & _). constructor.
  - destruct s; [|discriminate]. exists y. split; auto. split; auto. intros p z A. destruct (Sc p z A) as [->|A']; [lia|].
    destruct p as [|i [|j p]]; try discriminate.
    { cbn [at_path] in A'. rewrite nth_error_map in A'. destruct (nth_error vss i); cbn in A'; discriminate. }
    rewrite at_row in A'. destruct (nth_error vss i) as [vs|] eqn:Ei; [|discriminate]. cbn [at_path] in A'.
    destruct (nth_error vs j) as [v|] eqn:Ej; [|discriminate]. apply nth_error_In in Ei, Ej. rewrite Forall_forall in F. specialize (F _ Ei).
    rewrite Forall_forall in F. destruct (F _ Ej) as (z' & -> & Hz). destruct p; cbn [at_path] in A'; [|discriminate]. injection A' as ->. auto.
Qed.

(* a feature that is a list of numbers *)
Lemma lists_array ss vss m (Wd : nat -> Prop) (C : nat -> Z -> Prop) : ss <> [] -> (forall s, In s ss -> s <> []) ->
  map (@length _) vss = map (@length _) ss -> max_length ss m -> (forall i, C i 0) ->
  Forall (Forall (fun v => exists ids, v = NList (map NInt ids) /\ Wd (length ids) /\ forall i z, nth_error ids i = Some z -> C i z)) vss ->
  exists y w, pad_value (NList (map NList vss)) = Ok y /\ shaped [zlen ss; m; Z.of_nat w] y /\ Wd w /\
    forall p z, at_path p y = Some (NInt z) -> exists a b i, p = [a; b; i] /\ C i z.
Proof.
  intros Ne Nes L Hm C0 F. destruct (rows_padded ss vss Ne Nes L 1 m Hm) as (y & s & E & Ls & Sh & Hw & Sc); [|lia|].
  - eapply Forall_impl; [|exact F]. intros vs. apply Forall_impl. intros v (ids & -> & _). constructor. apply Forall_map, Forall_forall. constructor.
  - destruct s as [|w [|]]; try discriminate. destruct (Hw w eq_refl) as (vs & l & Hvs & Hl & Ew). rewrite Forall_forall in F.
    pose proof (F _ Hvs) as Fv. rewrite Forall_forall in Fv. destruct (Fv _ Hl) as (ids & El & Wi & _). injection El as ->.
    rewrite zlen_map in Ew. exists y, (length ids). unfold zlen in Ew. rewrite Ew. split; auto. split; auto. split; auto.
    intros p z A. pose proof (shaped_path _ _ _ _ Sh A) as Lp. cbn [length] in Lp. destruct p as [|a [|b [|i [|]]]]; try discriminate. exists a, b, i. split; auto.
    destruct (Sc _ z A) as [->|A']; [auto|]. rewrite at_row in A'. destruct (nth_error vss a) as [vs1|] eqn:Ea; [|discriminate]. cbn [at_path] in A'.
    destruct (nth_error vs1 b) as [v|] eqn:Eb; [|discriminate]. apply nth_error_In in Ea, Eb. specialize (F _ Ea).
    rewrite Forall_forall in F. destruct (F _ Eb) as (ids1 & -> & _ & Hz). rewrite nth_error_map in A'.
    destruct (nth_error ids1 i) as [z'|] eqn:Ei; cbn [option_map] in A'; [|discriminate]. injection A' as ->. eapply Hz; eauto.
Qed.

(* what sparsification does to numbers *)
Lemma sparse_int rate z draws y rest : sparse rate (NInt z) draws = Ok (y, rest) -> y = NInt z \/ y = NInt 1.
Proof. cbn [sparse]. destruct draws; [discriminate|]. destruct (qgt _ _); intros H; injection H as <- _; auto. Qed.
Lemma sparse_ints rate ids draws y rest : sparse rate (NList (map NInt ids)) draws = Ok (y, rest) ->
  exists ids', y = NList (map NInt ids') /\ Forall2 (fun z z' => z' = z \/ z' = 1) ids ids'.
Proof.
  intros H. apply sparse_inv in H. destruct H as (Hl & Sh & Sc). inversion Sh as [|? l' F]; subst.
  assert (G : exists ids', l' = map NInt ids' /\ length ids' = length ids).
  { clear -F. revert l' F. induction ids as [|i ids IH]; intros l' F; inversion F as [|? y ? l0 S1 F']; subst; [exists []; auto|].
    inversion S1; subst. destruct (IH _ F') as (ids' & -> & L). exists (z :: ids'). cbn. split; congruence. }
  destruct G as (ids' & -> & L). exists ids'. split; auto.
  assert (S0 : forall l, scalars (NList (map NInt l)) = l) by (induction l as [|a l IHl]; [auto|]; cbn [map scalars concat app] in *; congruence).
  rewrite !S0 in *. clear -Sc Hl. revert ids' draws Sc Hl. induction ids as [|i ids IH]; intros ids' draws Sc Hl; destruct draws as [|r draws]; cbn [length combine map] in *; try lia; subst; constructor.
  - unfold choose. cbn [fst snd]. destruct (qgt r rate); auto.
  - apply (IH _ draws); auto. lia.
Qed.
