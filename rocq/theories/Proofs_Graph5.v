(* When the variables of a network have different names *)
From Coq Require Import String Ascii ZArith NArith Bool Lia List.
From Verif Require Import Base BaseFacts Model_Graph Spec_Graph Proofs_Graph Proofs_Graph2 Proofs_Graph3 Proofs_Graph4.
Import ListNotations.
Open Scope Z_scope.

Definition keys (d : decl) : list vkey := map fst d.
Lemma keys_app d1 d2 : keys (d1 ++ d2) = keys d1 ++ keys d2.
Proof. apply map_app. Qed.
Lemma names_keys d : NoDup (names_of d) <-> NoDup (keys d).
Proof.
  unfold names_of, keys. rewrite <- (map_map fst key_name). split; [apply NoDup_map_inv|].
  intros N. apply FinFun.Injective_map_NoDup; auto. intros k1 k2. apply key_name_inj.
Qed.

Definition sub_group (s : sub) : nat := match s with Characters => 2 | Bpe => 3 | Morfessor => 4 end%nat.
Definition label_group (l : label_kind) : nat := match l with PosLabels => 9 | LemmaLabels => 10 | RuleLabels => 11 end%nat.
Definition group (k : vkey) : nat :=
  match k with
  | KWords | KWeDense _ => 0
  | KTrained => 1
  | KSub s | KCnn s _ _ | KHigh s _ | KRnn (Some s) _ _ _ => sub_group s
  | KRnn None _ _ _ => 5
  | KDilated _ _ => 6
  | KKernel _ _ => 7
  | KInputE | KOutput | KDenseCnn _ => 8
  | KPart _ l _ _ => label_group l
  | KBinary _ => 12
  | KUnnamed n _ => 100 + n
  end%nat.

Definition spread (gs : list nat) (d : nat -> decl) (b : nat) : Prop :=
  forall n, NoDup (keys (d n)) /\ forall k, In k (keys (d n)) -> In (group k) gs \/ (100 + n <= group k < 100 + n + b)%nat.

Lemma spread_app gs1 gs2 d1 d2 b1 b2 : spread gs1 d1 b1 -> spread gs2 d2 b2 ->
  (forall x, In x gs1 -> ~ In x gs2) -> (forall x, In x (gs1 ++ gs2) -> (x < 100)%nat) ->
  spread (gs1 ++ gs2) (fun n => d1 n ++ d2 (n + b1)%nat) (b1 + b2).
Proof.
  intros S1 S2 D L n. destruct (S1 n) as [N1 K1]. destruct (S2 (n + b1)%nat) as [N2 K2]. rewrite keys_app. split.
  - apply NoDup_app_intro; auto. intros k I1 I2. apply K1 in I1. apply K2 in I2.
    assert (forall x, In x gs1 -> (x < 100)%nat) by (intros; apply L; apply in_or_app; auto).
    assert (forall x, In x gs2 -> (x < 100)%nat) by (intros; apply L; apply in_or_app; auto).
    destruct I1 as [I1|I1], I2 as [I2|I2].
    + apply (D _ I1 I2).
    + apply H in I1. lia.
    + apply H0 in I2. lia.
    + lia.
  - intros k I. apply in_app_iff in I. rewrite in_app_iff. destruct I as [I|I]; [apply K1 in I|apply K2 in I]; intuition lia.
Qed.
Lemma spread_incl gs gs' d b : incl gs gs' -> spread gs d b -> spread gs' d b.
Proof. intros I S n. destruct (S n) as [N K]. split; auto. intros k H. destruct (K k H); auto. Qed.
Lemma spread_eq gs d d' b b' : (forall n, d n = d' n) -> b = b' -> spread gs d b -> spread gs d' b'.
Proof. intros E <- S n. rewrite <- E. apply S. Qed.
Lemma spread_nil gs : spread gs (fun _ => []) 0.
Proof. intros n. split; [constructor|intros k []]. Qed.

(* one group *)
Lemma spread_one gs (d : decl) : NoDup (keys d) -> (forall k, In k (keys d) -> In (group k) gs) -> spread gs (fun _ => d) 0.
Proof. intros N K n. split; auto. Qed.

Lemma conv_keys mk ks : forall i ch k, In k (keys (conv_decl mk i ks ch)) <-> exists j c, nth_error ks j = Some c /\ k = mk (i + j)%nat c.
Proof.
  induction ks as [|c ks IH]; intros i ch k; cbn [conv_decl keys map fst In].
  - split; [tauto|]. intros ([|j] & c & H & _); discriminate.
  - change (map fst (conv_decl mk (S i) ks (cv_count c))) with (keys (conv_decl mk (S i) ks (cv_count c))). rewrite IH. split.
    + intros [<-|(j & c' & H & ->)]; [exists 0%nat, c; rewrite Nat.add_0_r; auto|]. exists (S j), c'. rewrite Nat.add_succ_r. auto.
    + intros ([|j] & c' & H & ->); cbn in H; [left; rewrite Nat.add_0_r; congruence|]. right. exists j, c'. rewrite Nat.add_succ_r. auto.
Qed.
Lemma conv_NoDup mk ks : (forall i j c d, mk i c = mk j d -> i = j) -> forall i ch, NoDup (keys (conv_decl mk i ks ch)).
Proof.
  intros M. induction ks as [|c ks IH]; intros i ch; cbn [conv_decl keys map fst]; constructor; [|apply IH].
  intros I. apply conv_keys in I. destruct I as (j & c' & _ & E). apply M in E. lia.
Qed.
Lemma spread_conv mk g ks ch : (forall i j c d, mk i c = mk j d -> i = j) -> (forall i c, group (mk i c) = g) -> spread [g] (fun _ => conv_decl mk 0 ks ch) 0.
Proof.
  intros M G. apply spread_one; [apply conv_NoDup; auto|]. intros k I. apply conv_keys in I. destruct I as (j & c & _ & ->). rewrite G. left; auto.
Qed.

Lemma bilstm_keys s cell n : forall i input k, In k (keys (bilstm_decl s cell i n input)) -> exists j fw b, (i <= j)%nat /\ k = KRnn s j fw b.
Proof.
  induction n as [|n IH]; intros i input k; cbn [bilstm_decl]; [intros []|]. unfold lstm_decl. cbn [app keys map fst In].
  intros [<-|[<-|[<-|[<-|I]]]]; eauto. apply IH in I. destruct I as (j & fw & b & L & ->). exists j, fw, b. split; auto. lia.
Qed.
Lemma bilstm_NoDup s cell n : forall i input, NoDup (keys (bilstm_decl s cell i n input)).
Proof.
  induction n as [|n IH]; intros i input; cbn [bilstm_decl]; [constructor|]. unfold lstm_decl. cbn [app keys map fst].
  repeat (constructor; [cbn [In]; intros H; repeat (destruct H as [H|H]; [discriminate|]); apply bilstm_keys in H; destruct H as (j & fw & b & L & E); injection E; lia|]).
  apply IH.
Qed.
Lemma spread_bilstm s g cell n input : (forall i fw b, group (KRnn s i fw b) = g) -> spread [g] (fun _ => bilstm_decl s cell 0 n input) 0.
Proof.
  intros G. apply spread_one; [apply bilstm_NoDup|]. intros k I. apply bilstm_keys in I. destruct I as (j & fw & b & _ & ->). rewrite G. left; auto.
Qed.
Lemma spread_unnamed x y : spread [] (unnamed_decl x y) 1.
Proof.
  intros n. cbn. split; [repeat (constructor; [cbn; intros H; repeat (destruct H as [H|H]; [discriminate|]); exact H|]); constructor|].
  intros k [<-|[<-|[]]]; right; cbn; lia.
Qed.

Lemma In_keys k d : In k (keys d) <-> exists v, In (k, v) d.
Proof.
  unfold keys. rewrite in_map_iff. split.
  - intros ((k' & v) & <- & I). eauto.
  - intros (v & I). exists (k, v). auto.
Qed.

(* same group, but different keys *)
Lemma spread_same gs d1 d2 b1 b2 : spread gs d1 b1 -> spread gs d2 b2 -> (forall x, In x gs -> (x < 100)%nat) ->
  (forall n m k, In k (keys (d1 n)) -> In k (keys (d2 m)) -> (100 <= group k)%nat) ->
  spread gs (fun n => d1 n ++ d2 (n + b1)%nat) (b1 + b2).
Proof.
  intros S1 S2 L D n. destruct (S1 n) as [N1 K1]. destruct (S2 (n + b1)%nat) as [N2 K2]. rewrite keys_app. split.
  - apply NoDup_app_intro; auto. intros k I1 I2. pose proof (D _ _ _ I1 I2). apply K1 in I1. apply K2 in I2.
    destruct I1 as [I1|I1], I2 as [I2|I2]; try apply L in I1; try apply L in I2; lia.
  - intros k I. apply in_app_iff in I. destruct I as [I|I]; [apply K1 in I|apply K2 in I]; intuition lia.
Qed.

Lemma agg_keys s a size n k : In k (keys (agg_decl s a size n)) ->
  (exists i c, k = KCnn s i c) \/ (exists i fw b, k = KRnn (Some s) i fw b) \/ (exists m b, k = KUnnamed m b).
Proof.
  destruct a as [cell layers|ks| |]; cbn [agg_decl]; try (intros []).
  - rewrite keys_app, in_app_iff. intros [I|I].
    + apply bilstm_keys in I. destruct I as (j & fw & b & _ & ->). eauto 6.
    + right. right. cbn [unnamed_decl keys map fst In] in I. destruct I as [<-|[<-|[]]]; eauto.
  - intros I. apply conv_keys in I. destruct I as (j & c & _ & ->). eauto.
Qed.
Lemma spread_agg s a size : spread [sub_group s] (agg_decl s a size) (agg_bump a).
Proof.
  destruct a as [cell layers|ks| |]; cbn [agg_bump]; try (apply spread_nil).
  - eapply spread_eq with (d := fun n => bilstm_decl (Some s) cell 0 (Z.to_nat layers) size ++
       unnamed_decl (agg_size (Rnn cell layers) size) (agg_size (Rnn cell layers) size) (n + 0)%nat) (b := (0 + 1)%nat).
    + intros n. rewrite Nat.add_0_r. reflexivity.
    + reflexivity.
    + apply spread_incl with (gs := [sub_group s] ++ []); [apply incl_refl|]. apply spread_app.
      * apply spread_bilstm. reflexivity.
      * apply spread_unnamed.
      * intros x _ [].
      * intros x [<-|[]]. destruct s; cbn; lia.
  - apply spread_conv; [intros i j c d E; injection E; auto|reflexivity].
Qed.

Lemma sub_group_small s : (sub_group s < 100)%nat.
Proof. destruct s; cbn; lia. Qed.

Lemma spread_sub s c : spread [sub_group s] (sub_decl s c) (sub_bump c).
Proof.
  set (m := agg_size (sw_aggregator c) (sw_size c)).
  pose (hd := fun n => if sw_highway c then [(KHigh s false, [m; m]); (KHigh s true, [m])] ++ unnamed_decl m m n else []).
  assert (H : spread [sub_group s] hd (if sw_highway c then 1 else 0)).
  { unfold hd. destruct (sw_highway c); [|apply spread_nil].
    eapply spread_eq with (d := fun n => [(KHigh s false, [m; m]); (KHigh s true, [m])] ++ unnamed_decl m m (n + 0)%nat) (b := (0 + 1)%nat);
      [intros n; rewrite Nat.add_0_r; reflexivity|reflexivity|].
    apply (spread_app [sub_group s] []).
    - apply spread_one.
      + cbn. repeat (constructor; [cbn; intros X; repeat (destruct X as [X|X]; [discriminate|]); exact X|]). constructor.
      + intros k [<-|[<-|[]]]; left; auto.
    - apply spread_unnamed.
    - intros x _ [].
    - intros x [<-|[]]. apply sub_group_small. }
  eapply spread_eq with (d := fun n => [(KSub s, [sw_rows c; sw_size c])] ++ (fun n => agg_decl s (sw_aggregator c) (sw_size c) n ++ hd (n + agg_bump (sw_aggregator c))%nat) (n + 0)%nat)
    (b := (0 + (agg_bump (sw_aggregator c) + if sw_highway c then 1 else 0))%nat).
  - intros n. cbn beta. rewrite Nat.add_0_r. reflexivity.
  - reflexivity.
  - apply (spread_same [sub_group s] (fun _ => [(KSub s, [sw_rows c; sw_size c])])
      (fun n => agg_decl s (sw_aggregator c) (sw_size c) n ++ hd (n + agg_bump (sw_aggregator c))%nat) 0).
    + apply spread_one; [repeat constructor; intros []|]. intros k [<-|[]]. left; auto.
    + apply spread_same; auto using spread_agg.
      * intros x [<-|[]]. apply sub_group_small.
      * intros n m' k I J. apply agg_keys in I. unfold hd in J. destruct (sw_highway c); [|destruct J].
        cbn [app keys map fst unnamed_decl In] in J.
        destruct J as [<-|[<-|[<-|[<-|[]]]]]; try (cbn; lia); exfalso;
          destruct I as [(i & c' & E)|[(i & fw & b & E)|(m1 & b & E)]]; discriminate.
    + intros x [<-|[]]. apply sub_group_small.
    + intros n m' k [<-|[]] J. exfalso. cbn [fst] in J. rewrite keys_app, in_app_iff in J. destruct J as [J|J].
      * apply agg_keys in J. destruct J as [(i & c' & E)|[(i & fw & b & E)|(m1 & b & E)]]; discriminate.
      * unfold hd in J. destruct (sw_highway c); [|destruct J]. cbn [app keys map fst unnamed_decl In] in J.
        repeat (destruct J as [J|J]; [discriminate|]). exact J.
Qed.

Lemma pieces_decl_app a b n : pieces_decl (a ++ b) n = pieces_decl a n ++ pieces_decl b (n + pieces_bump a)%nat.
Proof.
  revert n. induction a as [|p a IH]; intros n; cbn [app pieces_decl pieces_bump fold_right]; [rewrite Nat.add_0_r; auto|].
  rewrite IH, <- app_assoc. fold (pieces_bump a). rewrite Nat.add_assoc. reflexivity.
Qed.
Lemma pieces_bump_app a b : pieces_bump (a ++ b) = (pieces_bump a + pieces_bump b)%nat.
Proof. induction a as [|p a IH]; cbn; auto. unfold pieces_bump in *. cbn. rewrite IH. lia. Qed.

Lemma spread_pieces_app gs1 gs2 a b : spread gs1 (pieces_decl a) (pieces_bump a) -> spread gs2 (pieces_decl b) (pieces_bump b) ->
  (forall x, In x gs1 -> ~ In x gs2) -> (forall x, In x (gs1 ++ gs2) -> (x < 100)%nat) ->
  spread (gs1 ++ gs2) (pieces_decl (a ++ b)) (pieces_bump (a ++ b)).
Proof.
  intros S1 S2 D L. eapply spread_eq; [intros n; symmetry; apply pieces_decl_app|symmetry; apply pieces_bump_app|]. apply spread_app; auto.
Qed.

Lemma spread_opt {C} gs (o : option C) (f : C -> piece) : (forall c, spread gs (p_decl (f c)) (p_bump (f c))) ->
  spread gs (pieces_decl (opt o f)) (pieces_bump (opt o f)).
Proof.
  intros H. destruct o as [c|]; cbn [opt pieces_decl pieces_bump fold_right]; [|apply spread_nil].
  eapply spread_eq; [intros n; symmetry; apply app_nil_r|symmetry; apply Nat.add_0_r|]. apply H.
Qed.

Lemma spread_pieces f : spread [0; 1; 2; 3; 4]%nat (pieces_decl (pieces f)) (pieces_bump (pieces f)).
Proof.
  unfold pieces.
  change [0; 1; 2; 3; 4]%nat with ([0] ++ [1] ++ [2] ++ [3] ++ [4])%nat.
  repeat (apply spread_pieces_app; [| |cbn [In app]; lia|cbn [In app]; lia]); apply spread_opt; intros c.
  - destruct c as [[rows size] [u|]]; cbn [words_piece p_decl p_bump words_decl]; (apply spread_one; cbn [keys map fst];
      [repeat (constructor; [cbn [In]; intros X; repeat (destruct X as [X|X]; [discriminate|]); exact X|]); constructor|]).
    + intros k [<-|[<-|[<-|[]]]]; left; auto.
    + intros k [<-|[]]; left; auto.
  - apply (spread_one [1%nat] [(KTrained, [fst c; snd c])]); cbn; [repeat constructor; intros []|]. intros k [<-|[]]. left; auto.
  - apply (spread_sub Characters).
  - apply (spread_sub Bpe).
  - apply (spread_sub Morfessor).
Qed.

Lemma spread_enc f e : spread [5; 6; 7]%nat (fun _ => enc_decl f e) 0.
Proof.
  destruct e as [|cell layers sk|cell layers sk ks|[ks|] sk]; cbn [enc_decl]; try apply spread_nil.
  - apply spread_incl with (gs := [5%nat]); [intros x; cbn; tauto|]. apply (spread_bilstm None). reflexivity.
  - apply spread_incl with (gs := ([5] ++ [7])%nat); [intros x; cbn; tauto|].
    apply (spread_app [5%nat] [7%nat] (fun _ => bil_decl cell layers f) (fun _ => conv_decl KKernel 0 ks 1) 0 0).
    + apply (spread_bilstm None). reflexivity.
    + apply spread_conv; [intros i j c d E; injection E; auto|reflexivity].
    + cbn. lia.
    + cbn. lia.
  - apply spread_incl with (gs := [6%nat]); [intros x; cbn; tauto|]. apply spread_conv; [intros i j c d E; injection E; auto|reflexivity].
Qed.

Lemma spread_shared f e : spread [0; 1; 2; 3; 4; 5; 6; 7]%nat (fun n => pieces_decl (pieces f) n ++ enc_decl f e) (pieces_bump (pieces f) + 0).
Proof. apply (spread_app [0; 1; 2; 3; 4]%nat [5; 6; 7]%nat _ (fun _ => enc_decl f e)); [apply spread_pieces|apply spread_enc|cbn; lia|cbn; lia]. Qed.

(* ---- tasks ---- *)

Definition lab (t : task) : nat := match t with Dense l _ _ _ => label_group l | Combo _ _ _ _ _ _ _ => 8 | Binary _ _ _ => 12 end%nat.
Definition task_groups (t : task) : list nat := match t with Combo _ _ _ _ _ _ _ => [7; 8]%nat | _ => [lab t] end.
Definition main_key (t : task) : vkey := match t with Dense l _ _ _ => KPart 0 l false false | Combo _ _ _ _ _ _ _ => KInputE | Binary _ _ _ => KBinary false end.

Lemma parts_keys l input ds parts : forall i k, In k (keys (parts_decl l input ds i parts)) -> exists j a b, (i <= j)%nat /\ k = KPart j l a b.
Proof.
  induction parts as [|p parts IH]; intros i k; cbn [parts_decl keys map fst In]; [intros []|].
  intros [<-|[<-|[<-|[<-|I]]]]; eauto. apply IH in I. destruct I as (j & a & b & L & ->). exists j, a, b. split; auto. lia.
Qed.
Lemma parts_NoDup l input ds parts : forall i, NoDup (keys (parts_decl l input ds i parts)).
Proof.
  induction parts as [|p parts IH]; intros i; cbn [parts_decl keys map fst]; [constructor|].
  repeat (constructor; [cbn [In]; intros H; repeat (destruct H as [H|H]; [discriminate|]); apply parts_keys in H; destruct H as (j & a & b & L & E); injection E; lia|]).
  apply IH.
Qed.

Lemma lab_small t : (7 <= lab t < 100)%nat.
Proof. destruct t as [[]| |]; cbn; lia. Qed.
Lemma task_groups_small t x : In x (task_groups t) -> (7 <= x < 100)%nat.
Proof. destruct t as [[]| |]; cbn; lia. Qed.

Lemma spread_task shared t : spread (task_groups t) (task_decl shared t) (task_bump t).
Proof.
  destruct t as [l name ds parts|name rows embed ds ks hw outputs|name ds rules]; cbn [task_groups lab task_decl].
  - apply spread_one; [apply parts_NoDup|]. intros k I. apply parts_keys in I. destruct I as (j & a & b & _ & ->). left; auto.
  - set (out := if hw then bsize (bsize embed (out_channels ks (embed + ds))) embed else out_channels ks (embed + ds)).
    eapply spread_eq with (b := (0 + (0 + (task_bump (Combo name rows embed ds ks hw outputs) + 0)))%nat)
      (d := fun n => [(KInputE, [rows; embed]); (KDenseCnn false, [rsize shared name; ds]); (KDenseCnn true, [ds])] ++
        (fun n => conv_decl KKernel 0 ks (embed + ds) ++
          (fun n => (fun n => if hw then unnamed_decl embed embed n else []) n ++ (fun _ => [(KOutput, [1; 1; out; outputs])]) (n + task_bump (Combo name rows embed ds ks hw outputs))%nat) (n + 0)%nat) (n + 0)%nat).
    + intros n. cbn beta. rewrite !Nat.add_0_r. reflexivity.
    + lia.
    + assert (O : spread [8%nat] (fun _ => [(KOutput, [1; 1; out; outputs])]) 0).
      { apply spread_one; [repeat constructor; intros []|]. intros k [<-|[]]. left; auto. }
      assert (U : spread [] (fun n => if hw then unnamed_decl embed embed n else []) (task_bump (Combo name rows embed ds ks hw outputs))).
      { cbn [task_bump]. destruct hw; [apply spread_unnamed|apply spread_nil]. }
      assert (C : spread [7%nat] (fun _ => conv_decl KKernel 0 ks (embed + ds)) 0).
      { apply spread_conv; [intros i j c d E; injection E; auto|reflexivity]. }
      assert (I8 : spread [8%nat] (fun _ => [(KInputE, [rows; embed]); (KDenseCnn false, [rsize shared name; ds]); (KDenseCnn true, [ds])]) 0).
      { apply spread_one; cbn [keys map fst].
        - repeat (constructor; [cbn [In]; intros X; repeat (destruct X as [X|X]; [discriminate|]); exact X|]); constructor.
        - intros k [<-|[<-|[<-|[]]]]; left; auto. }
      apply (spread_same [7; 8]%nat (fun _ => [(KInputE, [rows; embed]); (KDenseCnn false, [rsize shared name; ds]); (KDenseCnn true, [ds])])
        (fun n => conv_decl KKernel 0 ks (embed + ds) ++
          (fun n => (fun n => if hw then unnamed_decl embed embed n else []) n ++ (fun _ => [(KOutput, [1; 1; out; outputs])]) (n + task_bump (Combo name rows embed ds ks hw outputs))%nat) (n + 0)%nat) 0).
      * apply spread_incl with (gs := [8%nat]); [intros x; cbn; tauto|exact I8].
      * apply (spread_app [7%nat] [8%nat] (fun _ => conv_decl KKernel 0 ks (embed + ds))
          (fun n => (fun n => if hw then unnamed_decl embed embed n else []) n ++ (fun _ => [(KOutput, [1; 1; out; outputs])]) (n + task_bump (Combo name rows embed ds ks hw outputs))%nat) 0);
          [exact C| |cbn; lia|cbn; lia].
        apply (spread_app [] [8%nat] (fun n => if hw then unnamed_decl embed embed n else []) (fun _ => [(KOutput, [1; 1; out; outputs])])); [exact U|exact O|cbn; lia|cbn; lia].
      * cbn. lia.
      * intros n m k [<-|[<-|[<-|[]]]] J; exfalso; cbn beta in J; rewrite !keys_app, !in_app_iff in J;
          (destruct J as [J|[J|[J|[]]]];
           [apply conv_keys in J; destruct J as (j & c & _ & J); discriminate
           |destruct hw; [destruct J as [J|[J|[]]]; discriminate|destruct J]
           |discriminate]).
  - intros n. split; [constructor|intros k []].
Qed.

Lemma main_key_In shared t n : task_cond shared t -> In (main_key t) (keys (task_decl shared t n)).
Proof.
  destruct t as [l name ds parts|name rows embed ds ks hw outputs|name ds rules]; cbn [task_cond task_decl main_key]; [|cbn; auto|tauto].
  destruct parts; [tauto|]. cbn. auto.
Qed.
Lemma lab_main t1 t2 : lab t1 = lab t2 -> main_key t1 = main_key t2.
Proof. destruct t1 as [[]| |], t2 as [[]| |]; cbn; intros E; try discriminate; reflexivity. Qed.

Lemma tasks_In shared ts t k : In t ts -> (forall n, In k (keys (task_decl shared t n))) -> forall n, In k (keys (tasks_decl shared ts n)).
Proof.
  induction ts as [|t' ts IH]; cbn [In tasks_decl]; [tauto|]. intros [->|I] K n; rewrite keys_app, in_app_iff; [left; auto|right; auto].
Qed.

Lemma tasks_distinct shared ts n : Forall (task_cond shared) ts -> NoDup (keys (tasks_decl shared ts n)) -> NoDup (map lab ts).
Proof.
  intros F. revert n. induction F as [|t ts C F IH]; intros n N; cbn [map]; constructor.
  - intros I. apply in_map_iff in I. destruct I as (t' & E & I). cbn [tasks_decl] in N. rewrite keys_app in N.
    apply (NoDup_app_disjoint _ _ N (main_key t)); [apply main_key_In; auto|].
    rewrite <- (lab_main _ _ E). apply (tasks_In shared ts t'); auto. intros m. apply main_key_In. rewrite Forall_forall in F. auto.
  - cbn [tasks_decl] in N. rewrite keys_app in N. apply NoDup_app_r in N. apply (IH _ N).
Qed.

Lemma groups_lab t1 t2 x : lab t1 <> lab t2 -> In x (task_groups t1) -> ~ In x (task_groups t2).
Proof. destruct t1 as [[]| |], t2 as [[]| |]; cbn; lia. Qed.

Lemma spread_tasks shared ts : NoDup (map lab ts) -> spread (flat_map task_groups ts) (tasks_decl shared ts) (tasks_bump ts).
Proof.
  induction ts as [|t ts IH]; cbn [map]; intros N; [apply spread_nil|]. inversion N; subst. cbn [flat_map].
  apply spread_app; auto using spread_task.
  - intros x X Y. apply in_flat_map in Y. destruct Y as (t' & I & Y). apply (groups_lab t t' x) in Y; auto.
    intros E. apply H1. rewrite E. apply in_map. auto.
  - intros x X. apply in_app_iff in X. destruct X as [X|X]; [apply task_groups_small in X; lia|].
    apply in_flat_map in X. destruct X as (t' & _ & X). apply task_groups_small in X. lia.
Qed.

Lemma task_keys shared t n k : In k (keys (task_decl shared t n)) -> group k = 7%nat ->
  exists name rows embed ds ks hw outputs i c, t = Combo name rows embed ds ks hw outputs /\ nth_error ks i = Some c /\ k = KKernel i c.
Proof.
  destruct t as [l name ds parts|name rows embed ds ks hw outputs|name ds rules]; cbn [task_decl]; [| |intros []].
  - intros I E. apply parts_keys in I. destruct I as (j & a & b & _ & ->). destruct l; discriminate.
  - cbn [keys map fst In]. rewrite !map_app, !in_app_iff. intros [<-|[<-|[<-|[I|[I|[<-|[]]]]]]] E; try discriminate.
    + apply (conv_keys KKernel) in I. destruct I as (j & c & H & ->). exists name, rows, embed, ds, ks, hw, outputs, j, c. auto.
    + destruct hw; [destruct I as [<-|[<-|[]]]; discriminate|destruct I].
Qed.
Lemma tasks_keys shared ts : forall n k, In k (keys (tasks_decl shared ts n)) -> group k = 7%nat ->
  exists name rows embed ds ks hw outputs i c, In (Combo name rows embed ds ks hw outputs) ts /\ nth_error ks i = Some c /\ k = KKernel i c.
Proof.
  induction ts as [|t ts IH]; intros n k; cbn [tasks_decl]; [intros []|]. rewrite keys_app, in_app_iff. intros [I|I] E.
  - destruct (task_keys _ _ _ _ I E) as (name & rows & embed & ds & ks & hw & o & i & c & -> & H & ->).
    exists name, rows, embed, ds, ks, hw, o, i, c. split; auto. left; auto.
  - destruct (IH _ _ I E) as (name & rows & embed & ds & ks & hw & o & i & c & X & H & ->).
    exists name, rows, embed, ds, ks, hw, o, i, c. split; auto. right; auto.
Qed.
Lemma enc_kernels f e k : In k (keys (enc_decl f e)) -> group k = 7%nat ->
  exists cell layers sk ks i c, e = BiLSTM_CNN cell layers sk ks /\ nth_error ks i = Some c /\ k = KKernel i c.
Proof.
  destruct e as [|cell layers sk|cell layers sk ks|[ks|] sk]; cbn [enc_decl]; try (intros []; fail).
  - intros I E. apply bilstm_keys in I. destruct I as (j & fw & b & _ & ->). discriminate.
  - rewrite keys_app, in_app_iff. intros [I|I] E.
    + apply bilstm_keys in I. destruct I as (j & fw & b & _ & ->). discriminate.
    + apply conv_keys in I. destruct I as (j & c & H & ->). exists cell, layers, sk, ks, j, c. auto.
  - intros I E. apply conv_keys in I. destruct I as (j & c & _ & ->). discriminate.
Qed.

Theorem all_NoDup f e ts : Forall (task_cond (enc_dict f e)) ts ->
  (NoDup (names_of (all_decl f e ts)) <-> NoDup (map lab ts) /\ forall t, In t ts -> ~ shares_kernel e t).
Proof.
  intros F. rewrite names_keys. unfold all_decl. rewrite keys_app. split.
  - intros N. split; [apply NoDup_app_r in N; apply tasks_distinct in N; auto|].
    intros t I S. destruct e as [| |cell layers sk ks|]; try destruct S. destruct t as [|name rows embed ds ks' hw outputs|]; cbn in S; try contradiction.
    destruct S as (i & c & E1 & E2). apply (NoDup_app_disjoint _ _ N (KKernel i c)).
    + rewrite keys_app, in_app_iff. right. cbn [enc_decl]. rewrite keys_app, in_app_iff. right. apply conv_keys. exists i, c. auto.
    + apply (tasks_In _ _ _ _ I). intros n. cbn [task_decl keys map fst In]. right. right. right.
      rewrite !map_app, !in_app_iff. left. apply (conv_keys KKernel). exists i, c. auto.
  - intros [N S]. pose proof (spread_shared f e 0%nat) as [N1 K1]. cbn beta in N1, K1.
    pose proof (spread_tasks (enc_dict f e) ts N (pieces_bump (pieces f))) as [N2 K2].
    apply NoDup_app_intro; auto. intros k I J. pose proof (K1 k I) as G1. pose proof (K2 k J) as G2.
    assert (E : group k = 7%nat).
    { destruct G2 as [G2|G2].
      - apply in_flat_map in G2. destruct G2 as (t & _ & G2). apply task_groups_small in G2. cbn [In] in G1. lia.
      - cbn [In] in G1. lia. }
    rewrite keys_app, in_app_iff in I. destruct I as [I|I].
    + destruct (spread_pieces f 0%nat) as [_ K]. apply K in I. cbn [In] in I. lia.
    + destruct (enc_kernels _ _ _ I E) as (cell & layers & sk & ks & i & c & -> & H & ->).
      destruct (tasks_keys _ _ _ _ J E) as (name & rows & embed & ds & ks' & hw & o & i' & c' & X & H' & Y). injection Y as <- <-.
      apply (S _ X). cbn. eauto.
Qed.
