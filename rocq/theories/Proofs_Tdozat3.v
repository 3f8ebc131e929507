(* Proofs about the tdozat wrapper: sentences and documents. *)
From Coq Require Import String Ascii ZArith NArith Bool Lia Permutation Sorted List.
From Verif Require Import Base BaseFacts Model_Datamodel Spec_Datamodel Proofs_Datamodel Proofs_Syntax Proofs_Datamodel2
  Proofs_Datamodel4 Model_Conllu Proofs_Conllu6 Model_Processors Spec_Processors Proofs_Processors Proofs_Processors2
  Model_Tdozat Spec_Tdozat Proofs_Tdozat Proofs_Tdozat2.
Import ListNotations.
Open Scope Z_scope.

Definition read_error (e : exn) : Prop := e = EIndex \/ e = EValue.

Lemma mapM_either {A B} (f : A -> result B) (good : A -> B -> Prop) (fine : A -> Prop) l :
  (forall x, In x l -> (fine x /\ exists y, f x = Ok y /\ good x y) \/ (~ fine x /\ exists e, f x = Err e /\ read_error e)) ->
  (Forall fine l /\ exists ys, mapM f l = Ok ys /\ Forall2 good l ys) \/ (~ Forall fine l /\ exists e, mapM f l = Err e /\ read_error e).
Proof.
  induction l as [|x l IH]; intros H; [left; split; [constructor|exists []; split; constructor]|]. cbn [mapM].
  destruct (H x (or_introl eq_refl)) as [(F & y & E & G)|(F & e & E & R)]; rewrite E; cbn [bind].
  - destruct IH as [(Fs & ys & M & Gs)|(Fs & e & M & R)]; [intros z Z; apply H; right; auto| |]; rewrite M; cbn [bind].
    + left. split; [constructor; auto|]. eexists. split; [reflexivity|]. constructor; auto.
    + right. split; [intros X; inversion X; auto|eauto].
  - right. split; [intros X; inversion X; auto|eauto].
Qed.

Section Documents.
Variables (bs : list batch) (extra : list str) (argsort : list Z -> list nat) (total : nat).
Hypothesis REG : regular bs.
Hypothesis NUM : numbers bs total.
Hypothesis SORT : sorting argsort.
Notation p := (fold_left cache bs empty_store).
Notation order := (map Z.of_nat (argsort (indices p))).

Lemma numbers_distinct : NoDup (concat (map fst bs)).
Proof.
  unfold numbers in NUM. eapply Permutation_NoDup; [symmetry; exact NUM|]. apply FinFun.Injective_map_NoDup; [intros x y H; lia|apply seq_NoDup].
Qed.

Lemma indices_store : indices p = concat (map fst bs).
Proof. rewrite indices_fold. reflexivity. Qed.

Lemma order_at n : (n < total)%nat -> exists r, py_index order (Z.of_nat n) = Ok (Z.of_nat r) /\ nth_error (concat (map fst bs)) r = Some (Z.of_nat n).
Proof.
  intros H. rewrite indices_store. destruct (argsort_range argsort _ total SORT NUM n H) as (r & E1 & E2). exists r. split; auto.
  rewrite py_index_nat, nth_error_map, E1. reflexivity.
Qed.

Definition token_good (n : nat) (st : Z) (x : Z * navtoken) (t' : token) : Prop :=
  same_place (nv_token (snd x)) t' /\ heads_agree st t' /\ predicted bs extra n (S (Z.to_nat (fst x))) st (nv_token (snd x)) (fill st t').

Lemma parse_sentence_spec n st v vs : (n < total)%nat -> ns_nav_tokens v = Ok vs -> Forall token_wf (map nv_token vs) ->
  (forall j, (1 <= j <= length vs)%nat -> answered bs extra n j) ->
  ((forall j, (1 <= j <= length vs)%nat -> readable bs n j) /\
   exists l, parse_sentence p extra order (Z.of_nat n) v = Ok l /\ Forall2 (token_good n st) (enumerate vs) l) \/
  (~ (forall j, (1 <= j <= length vs)%nat -> readable bs n j) /\
   exists e, parse_sentence p extra order (Z.of_nat n) v = Err e /\ read_error e).
Proof.
  intros Hn Ev W A. unfold parse_sentence. destruct (order_at n Hn) as (r & Er & Rr). rewrite Er. cbn [bind]. rewrite Ev. cbn [bind].
  pose proof numbers_distinct as ND.
  assert (IN : forall x, In x (enumerate vs) -> exists i, (i < length vs)%nat /\ fst x = Z.of_nat i /\ nth_error vs i = Some (snd x)).
  { intros x Hx. apply In_nth_error in Hx. destruct Hx as (i & Hi). rewrite enumerate_nth' in Hi. destruct (nth_error vs i) as [w|] eqn:Ew; [|discriminate].
    injection Hi as <-. exists i. split; [apply nth_error_Some; congruence|]. auto. }
  destruct (mapM_either (fun '(k, w) => parse_token p extra (Z.of_nat r) (k + 1) (nv_token w)) (token_good n st)
              (fun x => readable bs n (S (Z.to_nat (fst x)))) (enumerate vs)) as [(F & l & M & G)|(F & e & M & R)].
  - intros [k w] Hx. destruct (IN _ Hx) as (i & Hi & Ek & Ew). cbn [fst snd] in *. subst k. rewrite Nat2Z.id.
    replace (Z.of_nat i + 1) with (Z.of_nat (S i)) by lia.
    assert (Wt : token_wf (nv_token w)) by (rewrite Forall_forall in W; apply W, in_map; eapply nth_error_In; eauto).
    assert (As : answered bs extra n (S i)) by (apply A; lia).
    destruct (parse_token_spec bs REG ND extra n r (S i) st (nv_token w) Rr As Wt) as [(Rd & t' & E & S1 & S2 & S3)|(Rd & e & E & S1)].
    + left. split; auto. exists t'. split; auto. unfold token_good. cbn [fst snd]. rewrite Nat2Z.id. auto.
    + right. split; auto. exists e. split; auto.
  - left. split; [|eauto]. intros j Hj. destruct (nth_error vs (j - 1)) as [w|] eqn:Ew; [|apply nth_error_None in Ew; lia].
    rewrite Forall_forall in F. specialize (F (Z.of_nat (j - 1), w)). cbn [fst] in F. rewrite Nat2Z.id in F. replace (S (j - 1)) with j in F by lia. apply F.
    apply nth_error_In with (n := (j - 1)%nat). rewrite enumerate_nth', Ew. reflexivity.
  - right. split; [|eauto]. intros X. apply F. apply Forall_forall. intros x Hx. destruct (IN _ Hx) as (i & Hi & Ek & _). rewrite Ek, Nat2Z.id. apply X. lia.
Qed.

(* a document whose first sentence has number N *)
Definition every_in (d : document) (N : nat) (P : nat -> nat -> Prop) : Prop :=
  forall m s j, nth_error (dsents d) m = Some s -> (1 <= j <= length (tokens_of (dtokens d) s))%nat -> P (N + m)%nat j.
Definition doc_good (N : nat) (d d' : document) : Prop :=
  built d' /\ dtext d' = dtext d /\ dsents d' = dsents d /\ length (dtokens d') = length (dtokens d) /\
  forall m s i t0, nth_error (dsents d) m = Some s -> nth_error (tokens_of (dtokens d) s) i = Some t0 ->
    exists t, nth_error (tokens_of (dtokens d') s) i = Some t /\ predicted bs extra (N + m) (S i) (sstart s) t0 t.

Lemma parse_document_spec d N : doc_inv d -> (N + length (dsents d) <= total)%nat -> every_in d N (answered bs extra) ->
  exists ss, doc_nav_sentences d = Ok ss /\ zlen ss = zlen (dsents d) /\
  ((every_in d N (readable bs) /\ exists tss d', mapM (fun '(k, s) => parse_sentence p extra order (Z.of_nat N + k) s) (enumerate ss) = Ok tss /\
      from_document d (concat tss) = Ok d' /\ doc_good N d d') \/
   (~ every_in d N (readable bs) /\ exists e, mapM (fun '(k, s) => parse_sentence p extra order (Z.of_nat N + k) s) (enumerate ss) = Err e /\ read_error e)).
Proof.
  intros I T A. destruct (nav_sentences_ok d I) as (ss & E & F). exists ss. split; auto. pose proof (Forall2_length' _ _ _ F) as L.
  split; [unfold zlen; congruence|].
  assert (IN : forall x, In x (enumerate ss) -> exists m s vs, fst x = Z.of_nat m /\ nth_error ss m = Some (snd x) /\ nth_error (dsents d) m = Some s /\
     ns_nav_tokens (snd x) = Ok vs /\ map nv_token vs = tokens_of (dtokens d) s).
  { intros x Hx. apply In_nth_error in Hx. destruct Hx as (m & Hm). rewrite enumerate_nth' in Hm. destruct (nth_error ss m) as [v|] eqn:Ev; [|discriminate].
    injection Hm as <-. destruct (Forall2_nth_r _ _ _ _ _ F Ev) as (s & Hs & vs & V1 & V2 & _). exists m, s, vs. auto. }
  set (fine := fun x : Z * navsentence => forall s j, nth_error (dsents d) (Z.to_nat (fst x)) = Some s -> (1 <= j <= length (tokens_of (dtokens d) s))%nat ->
                 readable bs (N + Z.to_nat (fst x)) j).
  set (good := fun (x : Z * navsentence) (l : list token) => exists s vs, nth_error (dsents d) (Z.to_nat (fst x)) = Some s /\ map nv_token vs = tokens_of (dtokens d) s /\
                 Forall2 (token_good (N + Z.to_nat (fst x)) (sstart s)) (enumerate vs) l).
  destruct (mapM_either (fun '(k, s) => parse_sentence p extra order (Z.of_nat N + k) s) good fine (enumerate ss)) as [(Fi & tss & M & G)|(Fi & e & M & R)].
  - intros [k v] Hx. destruct (IN _ Hx) as (m & s & vs & Ek & Ev & Es & V1 & V2). cbn [fst snd] in *. subst k.
    assert (Lm : (m < length (dsents d))%nat) by (apply nth_error_Some; congruence).
    assert (Lv : length vs = length (tokens_of (dtokens d) s)) by (rewrite <- V2; symmetry; apply map_length).
    replace (Z.of_nat N + Z.of_nat m) with (Z.of_nat (N + m)) by lia.
    destruct (parse_sentence_spec (N + m) (sstart s) v vs) as [(Rd & l & El & Gl)|(Rd & e & El & R)]; auto.
    + lia.
    + rewrite V2. apply tokens_of_wf. auto.
    + intros j Hj. eapply A; eauto. lia.
    + left. split.
      * unfold fine. cbn [fst]. rewrite Nat2Z.id. intros s' j Hs Hj. assert (s' = s) by congruence. subst. apply Rd. lia.
      * exists l. split; auto. exists s, vs. cbn [fst]. rewrite Nat2Z.id. auto.
    + right. split; [|eauto]. intros X. apply Rd. intros j Hj. unfold fine in X. cbn [fst] in X. rewrite Nat2Z.id in X. apply (X s); auto. lia.
  - left. split.
    + intros m s j Hs Hj. destruct (nth_error ss m) as [v|] eqn:Ev.
      2:{ apply nth_error_None in Ev. assert (m < length (dsents d))%nat by (apply nth_error_Some; congruence). lia. }
      rewrite Forall_forall in Fi. specialize (Fi (Z.of_nat m, v)). unfold fine in Fi. cbn [fst] in Fi. rewrite Nat2Z.id in Fi. eapply Fi; eauto.
      apply nth_error_In with (n := m). rewrite enumerate_nth', Ev. reflexivity.
    + exists tss. pose proof (Forall2_length' _ _ _ G) as LG. rewrite enumerate_len' in LG.
      assert (GN : forall m s l, nth_error (dsents d) m = Some s -> nth_error tss m = Some l -> exists vs, map nv_token vs = tokens_of (dtokens d) s /\
                     Forall2 (token_good (N + m) (sstart s)) (enumerate vs) l).
      { intros m s l Hs Hl. destruct (Forall2_nth_r _ _ _ _ _ G Hl) as (x & Hx & s' & vs & Hs' & V2 & Gl). rewrite enumerate_nth' in Hx.
        destruct (nth_error ss m) as [v|] eqn:Ev; [|discriminate]. injection Hx as <-. cbn [fst] in *. rewrite Nat2Z.id in *.
        assert (s' = s) by congruence. subst. eauto. }
      destruct (reannotate d tss I) as (d' & E' & I' & B' & Td & S & F2 & Pl).
      { apply Forall2_by_nth; [congruence|]. intros m s l Hs Hl. destruct (GN _ _ _ Hs Hl) as (vs & V2 & Gl). rewrite <- V2. split.
        - apply Forall2_by_nth. { rewrite map_length, <- (enumerate_len' vs). apply (Forall2_length' _ _ _ Gl). }
          intros i x y Hx Hy. destruct (Forall2_nth_r _ _ _ _ _ Gl Hy) as (kx & Hk & (P1 & _)). rewrite enumerate_nth' in Hk. rewrite nth_error_map in Hx.
          destruct (nth_error vs i); [|discriminate]. injection Hk as <-. injection Hx as <-. exact P1.
        - apply Forall_forall. intros y Hy. apply In_nth_error in Hy. destruct Hy as (i & Hy). destruct (Forall2_nth_r _ _ _ _ _ Gl Hy) as (kx & Hk & (_ & P1 & _)). exact P1. }
      exists d'. split; auto. split; auto. split; auto. split; auto. split; auto. split; [symmetry; apply (Forall2_length' _ _ _ Pl)|].
      intros m s i t0 Hs Ht. destruct (Forall2_nth _ _ _ _ _ F2 Hs) as (l & Hl & El). destruct (GN _ _ _ Hs Hl) as (vs & V2 & Gl).
      rewrite <- V2, nth_error_map in Ht. destruct (nth_error vs i) as [v|] eqn:Ev; [|discriminate]. injection Ht as <-.
      assert (En : nth_error (enumerate vs) i = Some (Z.of_nat i, v)) by (rewrite enumerate_nth', Ev; reflexivity).
      destruct (Forall2_nth _ _ _ _ _ Gl En) as (t' & Ht' & (_ & _ & P1)). cbn [fst snd] in P1. rewrite Nat2Z.id in P1.
      exists (fill (sstart s) t'). rewrite El, nth_error_map, Ht'. split; auto.
  - right. split; [|eauto]. intros X. apply Fi. apply Forall_forall. intros x Hx. destruct (IN _ Hx) as (m & s & vs & Ek & Ev & Es & V1 & V2).
    unfold fine. rewrite Ek, Nat2Z.id. intros s' j Hs Hj. eapply X; eauto.
Qed.

(* all documents *)
Definition docs_good (N : nat) (ds ds' : list document) : Prop :=
  length ds' = length ds /\ forall k d, nth_error ds k = Some d ->
    exists d', nth_error ds' k = Some d' /\ doc_good (N + length (concat (map dsents (firstn k ds)))) d d'.
Definition every_from (ds : list document) (N : nat) (P : nat -> nat -> Prop) : Prop :=
  forall k d, nth_error ds k = Some d -> every_in d (N + length (concat (map dsents (firstn k ds)))) P.

Lemma parse_loop_spec ds : forall N, Forall built ds -> (N + length (concat (map dsents ds)) <= total)%nat -> every_from ds N (answered bs extra) ->
  (every_from ds N (readable bs) /\ exists ds', parse_loop p extra order (Z.of_nat N) ds = Ok ds' /\ docs_good N ds ds') \/
  (~ every_from ds N (readable bs) /\ exists e, parse_loop p extra order (Z.of_nat N) ds = Err e /\ read_error e).
Proof.
  induction ds as [|d ds IH]; intros N B T A.
  { left. split; [intros [|k] d H; discriminate|]. exists []. split; [reflexivity|]. split; auto. intros [|k] d H; discriminate. }
  inversion B as [|? ? B1 B2]; subst. cbn [map concat] in T. rewrite app_length in T.
  assert (SH : forall P, every_from (d :: ds) N P <-> every_in d N P /\ every_from ds (N + length (dsents d)) P).
  { intros P. split.
    - intros X. split.
      + specialize (X 0%nat d eq_refl). cbn [firstn map concat length] in X. rewrite Nat.add_0_r in X. exact X.
      + intros k d1 H. specialize (X (S k) d1 H). cbn [firstn map concat] in X. rewrite app_length, Nat.add_assoc in X. exact X.
    - intros [X Y] [|k] d1 H.
      + injection H as <-. cbn [firstn map concat length]. rewrite Nat.add_0_r. exact X.
      + cbn [firstn map concat]. rewrite app_length, Nat.add_assoc. apply Y. exact H. }
  apply SH in A. destruct A as [A1 A2]. cbn [parse_loop].
  destruct (parse_document_spec d N (built_inv _ B1) ltac:(lia) A1) as (ss & E & L & [(R & tss & d' & M & Fd & G)|(R & e & M & X)]); rewrite E; cbn [bind]; rewrite M; cbn [bind].
  2:{ right. split; [|eauto]. intros Y. apply SH in Y. tauto. }
  rewrite Fd. cbn [bind]. rewrite L. unfold zlen. rewrite <- Nat2Z.inj_add.
  destruct (IH (N + length (dsents d))%nat B2 ltac:(lia) A2) as [(R' & ds' & E' & L' & G')|(R' & e & E' & X)]; rewrite E'; cbn [bind].
  - left. split; [apply SH; auto|]. eexists. split; [reflexivity|]. split; [cbn [length]; congruence|]. intros [|k] d1 H.
    + injection H as <-. exists d'. split; auto. cbn [firstn map concat length]. rewrite Nat.add_0_r. exact G.
    + destruct (G' k d1 H) as (d2 & H2 & G2). exists d2. split; auto. cbn [firstn map concat]. rewrite app_length, Nat.add_assoc. exact G2.
  - right. split; [|eauto]. intros Y. apply SH in Y. tauto.
Qed.
End Documents.
