(* What the steps of building a network declare *)
From Coq Require Import String Ascii ZArith NArith Bool Lia List.
From Verif Require Import Base BaseFacts Model_Graph Spec_Graph Proofs_Graph.
Import ListNotations.
Open Scope Z_scope.

Definition decl := list (vkey * list Z).
Definition names_of (d : decl) : list str := map (fun kv => key_name (fst kv)) d.
Definition vars_of (d : decl) : list (str * list Z) := map (fun kv => (key_name (fst kv), snd kv)) d.
Definition names (g : graph) : list str := map fst (variables g).

(* n layers without a name were created *)
Definition inv (g : graph) (n : nat) : Prop :=
  NoDup (names g) /\ (forall k, In (default_scope k) (scopes g) <-> (k < n)%nat) /\ (n <= length (scopes g))%nat.

(* the action succeeds exactly if the condition c holds and the names it declares are new *)
Definition meets {R} (m : action R) (c : Prop) (r : R) (d : nat -> decl) (b : nat) : Prop :=
  forall g n, inv g n ->
    match m g with
    | Ok (x, g') => c /\ x = r /\ variables g' = variables g ++ vars_of (d n) /\ NoDup (names g ++ names_of (d n)) /\ inv g' (n + b)
    | Err _ => ~ (c /\ NoDup (names g ++ names_of (d n)))
    end.

Lemma vars_names d : map fst (vars_of d) = names_of d.
Proof. unfold vars_of, names_of. rewrite map_map. reflexivity. Qed.
Lemma names_app d1 d2 : names_of (d1 ++ d2) = names_of d1 ++ names_of d2.
Proof. apply map_app. Qed.
Lemma vars_app d1 d2 : vars_of (d1 ++ d2) = vars_of d1 ++ vars_of d2.
Proof. apply map_app. Qed.

Lemma NoDup_app_l {A} (l m : list A) : NoDup (l ++ m) -> NoDup l.
Proof. induction l; cbn; intros H; [constructor|]. inversion H; subst. constructor; auto. intros I. apply H2. apply in_or_app; auto. Qed.

Lemma meets_ret {R} (r : R) : meets (ret r) True r (fun _ => []) 0.
Proof. intros g n (N & S & L). cbn. rewrite !app_nil_r, Nat.add_0_r. repeat split; auto; apply S. Qed.

Lemma meets_raise {R} e (r : R) d b : meets (raise e) False r d b.
Proof. intros g n _. cbn. tauto. Qed.

Lemma meets_bind {R S} (m : action R) (f : R -> action S) c1 r1 d1 b1 c2 r2 d2 b2 :
  meets m c1 r1 d1 b1 -> (c1 -> meets (f r1) c2 r2 d2 b2) ->
  meets (andThen m f) (c1 /\ c2) r2 (fun n => d1 n ++ d2 (n + b1)%nat) (b1 + b2).
Proof.
  intros H1 H2 g n I. specialize (H1 g n I). unfold andThen, bind. destruct (m g) as [[x g1]|e].
  - destruct H1 as (C1 & -> & V1 & N1 & I1). cbn [fst snd]. specialize (H2 C1 g1 (n + b1)%nat I1).
    assert (E : names g1 = names g ++ names_of (d1 n)) by (unfold names; rewrite V1, map_app, vars_names; reflexivity).
    destruct (f r1 g1) as [[y g2]|e].
    + destruct H2 as (C2 & -> & V2 & N2 & I2). rewrite V2, V1, vars_app, names_app, app_assoc. rewrite E, <- app_assoc in N2.
      rewrite Nat.add_assoc. auto.
    + rewrite E, <- app_assoc in H2. rewrite names_app. intuition auto.
  - intros [[C1 _] N]. apply H1. split; auto. rewrite names_app, app_assoc in N. apply NoDup_app_l in N. auto.
Qed.

Lemma meets_eq {R} (m : action R) c c' r r' d d' b b' : meets m c r d b -> (c <-> c') -> (c' -> r = r' /\ b = b' /\ forall n, d n = d' n) -> meets m c' r' d' b'.
Proof.
  intros H E X g n I. specialize (H g n I). destruct (m g) as [[x g']|e].
  - destruct H as (C & -> & V & N & I'). apply E in C. destruct (X C) as (<- & <- & D). rewrite <- D. auto.
  - intros [C N]. destruct (X C) as (_ & _ & D). rewrite <- D in N. apply H. tauto.
Qed.

Lemma NoDup_snoc {A} (l : list A) x : NoDup l -> ~ In x l -> NoDup (l ++ [x]).
Proof.
  induction l as [|y l IH]; cbn; intros N I; [repeat constructor; auto|]. inversion N; subst. constructor; [|apply IH; tauto].
  rewrite in_app_iff. cbn. intuition congruence.
Qed.
Lemma NoDup_snoc_inv {A} (l : list A) x : NoDup (l ++ [x]) -> ~ In x l.
Proof. induction l as [|y l IH]; cbn; intros N; [tauto|]. inversion N; subst. rewrite in_app_iff in H1. cbn in H1. specialize (IH H2). intuition congruence. Qed.

Lemma meets_var k name shape : name = key_name k -> meets (get_variable name shape) True tt (fun _ => [(k, shape)]) 0.
Proof.
  intros -> g n (N & S & L). unfold get_variable. cbn [names_of vars_of map fst snd]. destruct (existsb _ _) eqn:E.
  - intros [_ X]. apply NoDup_snoc_inv in X. apply X. apply existsb_exists in E. destruct E as (v & I & E).
    apply str_eqb_eq in E. rewrite E.
    apply in_map. auto.
  - assert (F : ~ In (key_name k) (names g)).
    { intros I. apply in_map_iff in I. destruct I as (v & Ev & I). assert (existsb (fun w => str_eqb (key_name k) (fst w)) (variables g) = true); [|congruence].
      apply existsb_exists. exists v. split; auto. rewrite Ev. apply str_eqb_refl. }
    assert (N' : NoDup (names g ++ [key_name k])) by (apply NoDup_snoc; auto).
    repeat split; auto; try (cbn [scopes]; rewrite ?Nat.add_0_r; auto; apply S).
    unfold names. cbn [variables]. rewrite map_app. exact N'.
Qed.

Lemma inv_scope g n s : inv g n -> (forall i, s <> default_scope i) -> inv (mkGraph (variables g) (s :: scopes g)) n.
Proof.
  intros (N & S & L) D. split; [exact N|]. split; [|cbn; lia]. intros k. cbn [scopes In]. rewrite S. split; [intros [E|H]; [destruct (D k); auto|auto]|auto].
Qed.

Lemma find_first (P : nat -> bool) n m : (forall k, (k < n)%nat -> P k = false) -> P n = true -> (n < m)%nat -> find P (seq 0 m) = Some n.
Proof.
  intros F T L. replace m with (n + S (m - n - 1))%nat by lia. rewrite seq_app. cbn [Nat.add].
  assert (E : forall l, (forall k, In k l -> P k = false) -> forall l', find P (l ++ l') = find P l').
  { induction l as [|x l IH]; intros H l'; cbn; auto. rewrite (H x) by (left; auto). apply IH. intros. apply H. right; auto. }
  rewrite E by (intros k I; apply in_seq in I; apply F; lia). cbn. rewrite T. reflexivity.
Qed.
Lemma find_map {A B} (f : A -> B) (P : B -> bool) l : find P (map f l) = option_map f (find (fun a => P (f a)) l).
Proof. induction l as [|x l IH]; cbn; auto. destruct (P (f x)); auto. Qed.

Lemma open_default g n : inv g n -> open_scope None g = Ok (default_scope n, mkGraph (variables g) (default_scope n :: scopes g)).
Proof.
  intros (N & S & L). unfold open_scope. rewrite find_map. rewrite (find_first _ n).
  - reflexivity.
  - intros k K. apply negb_false_iff. apply existsb_exists. exists (default_scope k). split; [apply S; auto|apply str_eqb_refl].
  - apply negb_true_iff. destruct (existsb _ _) eqn:E; auto. apply existsb_exists in E. destruct E as (x & I & E). apply str_eqb_eq in E. subst x.
    apply S in I. lia.
  - lia.
Qed.

Lemma inv_default g n : inv g n -> inv (mkGraph (variables g) (default_scope n :: scopes g)) (S n).
Proof.
  intros (N & S & L). split; [exact N|]. split; [|cbn; lia]. intros k. cbn [scopes In]. rewrite S. split.
  - intros [E|H]; [apply default_scope_inj in E; lia|lia].
  - intros K. destruct (Nat.eq_dec k n) as [->|]; [left; auto|right; lia].
Qed.

Lemma meets_pair kk kb' s input units :
  key_name kk = s ++ of_string "/kernel" -> key_name kb' = s ++ of_string "/bias" ->
  meets (let! _ := get_variable (s ++ of_string "/kernel") [input; units] in let! _ := get_variable (s ++ of_string "/bias") [units] in ret units)
        True units (fun _ => [(kk, [input; units]); (kb', [units])]) 0.
Proof.
  intros K B. eapply meets_eq; [eapply meets_bind; [apply (meets_var kk); auto|intros _]|..].
  - eapply meets_bind; [apply (meets_var kb'); auto|intros _]. apply meets_ret.
  - tauto.
  - intros _. cbn. auto.
Qed.

Lemma meets_named s kk kb' input units :
  (forall i, s <> default_scope i) -> key_name kk = s ++ of_string "/kernel" -> key_name kb' = s ++ of_string "/bias" ->
  meets (dense (Some s) input units) True units (fun _ => [(kk, [input; units]); (kb', [units])]) 0.
Proof.
  intros D K B g n I. apply (meets_pair kk kb' s input units K B (mkGraph (variables g) (s :: scopes g)) n (inv_scope _ _ _ I D)).
Qed.

Lemma meets_unnamed input units :
  meets (dense None input units) True units (fun n => [(KUnnamed n false, [input; units]); (KUnnamed n true, [units])]) 1.
Proof.
  intros g n I. unfold dense, andThen at 1. rewrite (open_default _ _ I). cbn [bind fst snd].
  pose proof (meets_pair (KUnnamed n false) (KUnnamed n true) (default_scope n) input units eq_refl eq_refl _ _ (inv_default _ _ I)) as H.
  rewrite Nat.add_1_r. rewrite Nat.add_0_r in H. exact H.
Qed.

(* ---- sizes ---- *)

Definition bsize (a b : Z) : Z := if a =? b then a else if a =? 1 then b else a.
Lemma meets_broadcast a b : meets (broadcast a b) (combines a b) (bsize a b) (fun _ => []) 0.
Proof.
  unfold broadcast, bsize, combines. destruct (a =? b) eqn:E1; [|destruct (a =? 1) eqn:E2; [|destruct (b =? 1) eqn:E3]].
  1-3: eapply meets_eq; [apply meets_ret|split; [lia|auto]|auto].
  eapply meets_eq; [apply (meets_raise EValue a (fun _ => []) 0)|split; [tauto|lia]|auto].
Qed.

Definition unnamed_decl (x y : Z) (n : nat) : decl := [(KUnnamed n false, [x; y]); (KUnnamed n true, [y])].
Lemma meets_highway x y : meets (highway x y) (combines x y) (bsize (bsize x y) x) (unnamed_decl x x) 1.
Proof.
  unfold highway. eapply meets_eq; [eapply meets_bind; [apply meets_unnamed|intros _]|..].
  - eapply meets_bind; [apply meets_broadcast|intros _]. apply meets_broadcast.
  - unfold combines, bsize. destruct (x =? y) eqn:E1; [|destruct (x =? 1) eqn:E2]; lia.
  - intros _. cbn. auto.
Qed.

(* ---- convolutions ---- *)

Fixpoint conv_decl (mk : nat -> conv -> vkey) (i : nat) (ks : list conv) (channels : Z) : decl :=
  match ks with
  | [] => []
  | k :: ks' => (mk i k, [1; cv_size k; channels; cv_count k]) :: conv_decl mk (S i) ks' (cv_count k)
  end.
Definition out_channels (ks : list conv) (channels : Z) : Z := fold_left (fun _ k => cv_count k) ks channels.

Lemma meets_conv mk v i ks ch : (forall i k, key_name (mk i k) = conv_name v (Z.of_nat i) k) ->
  meets (conv_layers v (Z.of_nat i) ks ch) True (out_channels ks ch) (fun _ => conv_decl mk i ks ch) 0.
Proof.
  intros K. revert i ch. induction ks as [|k ks IH]; intros i ch; [apply meets_ret|]. cbn [conv_layers].
  eapply meets_eq; [eapply meets_bind; [apply (meets_var (mk i k)); auto|intros _]|..].
  - replace (Z.of_nat i + 1) with (Z.of_nat (S i)) by lia. apply IH.
  - tauto.
  - intros _. cbn. auto.
Qed.

Lemma meets_last ks : meets (last_count ks) (ks <> []) (out_channels ks 0) (fun _ => []) 0.
Proof.
  induction ks as [|k ks IH]; [apply (meets_eq _ _ _ _ _ _ _ _ _ (meets_raise EIndex (out_channels [] 0) (fun _ => []) 0)); [tauto|tauto]|].
  destruct ks as [|k2 ks].
  - eapply meets_eq; [apply meets_ret|split; [discriminate|auto]|auto].
  - change (last_count (k :: k2 :: ks)) with (last_count (k2 :: ks)). eapply meets_eq; [apply IH|split; discriminate|]. intros _. auto.
Qed.

(* ---- recurrent layers ---- *)

Definition lstm_decl (s : option sub) (i : nat) (fw : bool) (input cell : Z) : decl :=
  [(KRnn s i fw false, [input + cell; 4 * cell]); (KRnn s i fw true, [4 * cell])].
Definition scope_of (s : option sub) : str := match s with Some s => sub_name s | None => [] end.
Lemma meets_lstm s i fw input cell :
  meets (lstm (rnn_scope (scope_of s) i ++ direction fw) input cell) True tt (fun _ => lstm_decl s i fw input cell) 0.
Proof.
  unfold lstm. eapply meets_eq; [eapply meets_bind; [apply (meets_var (KRnn s i fw false)); reflexivity|intros _; apply (meets_var (KRnn s i fw true)); reflexivity]|..].
  - tauto.
  - intros _. cbn. auto.
Qed.

Fixpoint bilstm_decl (s : option sub) (cell : Z) (i n : nat) (input : Z) : decl :=
  match n with
  | O => []
  | S n' => lstm_decl s i true input cell ++ lstm_decl s i false input cell ++ bilstm_decl s cell (S i) n' (2 * cell)
  end.
Definition bilstm_size (cell : Z) (n : nat) (input : Z) : Z := match n with O => input | _ => 2 * cell end.

Lemma meets_bilstm_from s cell n : forall i input, i = 0%nat \/ input = 2 * cell ->
  meets (bilstm_layers (scope_of s) cell i n input) True (bilstm_size cell n input) (fun _ => bilstm_decl s cell i n input) 0.
Proof.
  induction n as [|n IH]; intros i input H; [apply meets_ret|]. cbn [bilstm_layers].
  eapply meets_eq; [eapply meets_bind; [apply (meets_lstm s i true)|intros _]|..].
  - eapply meets_bind; [apply (meets_lstm s i false)|intros _].
    eapply meets_bind with (c1 := True) (r1 := 2 * cell) (d1 := fun _ => []) (b1 := 0%nat).
    + destruct i as [|i]; [apply meets_ret|]. destruct H as [H|H]; [discriminate|]. subst input.
      unfold broadcast. rewrite Z.eqb_refl. apply meets_ret.
    + intros _. apply IH. auto.
  - tauto.
  - intros _. destruct n; cbn; auto.
Qed.
Lemma meets_bilstm s cell layers input :
  meets (bilstm_layer (scope_of s) cell layers input) True (bilstm_size cell (Z.to_nat layers) input)
        (fun _ => bilstm_decl s cell 0 (Z.to_nat layers) input) 0.
Proof. apply meets_bilstm_from. auto. Qed.

(* ---- subwords ---- *)

Definition agg_size (a : aggregator) (size : Z) : Z :=
  match a with
  | Rnn cell layers => bilstm_size cell (Z.to_nat layers) size
  | Cnn ks => out_channels ks 0
  | _ => size
  end.
Definition agg_decl (s : sub) (a : aggregator) (size : Z) (n : nat) : decl :=
  match a with
  | Rnn cell layers => bilstm_decl (Some s) cell 0 (Z.to_nat layers) size ++ unnamed_decl (agg_size a size) (agg_size a size) n
  | Cnn ks => conv_decl (KCnn s) 0 ks size
  | _ => []
  end.
Definition agg_bump (a : aggregator) : nat := match a with Rnn _ _ => 1%nat | _ => 0%nat end.

Lemma meets_agg s a size : meets (aggregate (sub_name s) a size) (a <> Cnn []) (agg_size a size) (agg_decl s a size) (agg_bump a).
Proof.
  destruct a as [cell layers|ks| |]; cbn [aggregate].
  - eapply meets_eq; [eapply meets_bind; [apply (meets_bilstm (Some s))|intros _; apply meets_unnamed]|..].
    + split; [discriminate|auto].
    + intros _. cbn [agg_size agg_bump]. split; auto. split; auto. intros n. unfold agg_decl, unnamed_decl. rewrite Nat.add_0_r. reflexivity.
  - eapply meets_eq; [eapply meets_bind; [apply (meets_conv (KCnn s) _ 0); reflexivity|intros _; apply meets_last]|..].
    + split; [intros [_ H] E; congruence|]. intros H. split; auto. congruence.
    + intros _. cbn. split; auto. split; auto. intros n. apply app_nil_r.
  - eapply meets_eq; [apply meets_ret|split; [discriminate|auto]|auto].
  - eapply meets_eq; [apply meets_ret|split; [discriminate|auto]|auto].
Qed.

Lemma high_scope s i : sub_name s ++ of_string "_dense_highway" <> default_scope i.
Proof. destruct i as [|i], s; unfold default_scope, sub_name; intros E; spell E; cbn [app] in E; discriminate. Qed.

Definition sub_decl (s : sub) (c : subwords) (n : nat) : decl :=
  let m := agg_size (sw_aggregator c) (sw_size c) in
  (KSub s, [sw_rows c; sw_size c]) :: agg_decl s (sw_aggregator c) (sw_size c) n ++
  if sw_highway c then [(KHigh s false, [m; m]); (KHigh s true, [m])] ++ unnamed_decl m m (n + agg_bump (sw_aggregator c)) else [].
Definition sub_bump (c : subwords) : nat := (agg_bump (sw_aggregator c) + if sw_highway c then 1 else 0)%nat.

Lemma bsize_same m : bsize m m = m.
Proof. unfold bsize. rewrite Z.eqb_refl. reflexivity. Qed.

Lemma meets_sub s c : meets (subwords_feature (sub_name s) c) (sw_aggregator c <> Cnn []) (agg_size (sw_aggregator c) (sw_size c)) (sub_decl s c) (sub_bump c).
Proof.
  unfold subwords_feature. set (m := agg_size (sw_aggregator c) (sw_size c)).
  eapply meets_eq; [eapply meets_bind; [apply (meets_var (KSub s)); reflexivity|intros _]|..].
  - eapply meets_bind; [apply meets_agg|intros _]. fold m.
    instantiate (1 := if sw_highway c then 1%nat else 0%nat).
    instantiate (1 := fun n => if sw_highway c then [(KHigh s false, [m; m]); (KHigh s true, [m])] ++ unnamed_decl m m n else []).
    instantiate (1 := m). instantiate (1 := True).
    destruct (sw_highway c); [|apply meets_ret].
    eapply meets_eq; [eapply meets_bind; [apply (meets_named _ (KHigh s false) (KHigh s true)); [apply high_scope|reflexivity|reflexivity]|intros _; apply meets_highway]|..].
    + unfold combines. tauto.
    + intros _. rewrite !bsize_same. split; auto. split; auto. intros n. rewrite Nat.add_0_r. reflexivity.
  - tauto.
  - intros _. split; auto. unfold sub_bump, sub_decl. fold m. split; [lia|]. intros n. cbn [app]. rewrite Nat.add_0_r. reflexivity.
Qed.
