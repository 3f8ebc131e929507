(* Lemmas about the value of dropout in a run, and about how many values are dropped. *)
From Coq Require Import String Ascii ZArith NArith QArith Qround Bool List Lia.
From Verif Require Import Base BaseFacts Model_Layers Model_Network Model_Dropout Spec_Network Spec_Dropout Proofs_Network Proofs_Dropout.
Import ListNotations.

Section Feeding.
Context {T O V : Type} (teqb : T -> T -> bool) (Heq : identity_test teqb).

Lemma dropout_value_in (default : V) (f : feed T V) t v : NoDup (map fst f) -> In (t, v) f -> dropout_value teqb default f t = v.
Proof.
  intros N I. unfold dropout_value. induction f as [|[a w] f IH]; [destruct I|].
  cbn [find fst]. cbn [map fst] in N. inversion_clear N as [|? ? N1 N2]. destruct I as [I|I].
  - inversion I; subst. now rewrite (proj2 (Heq t t) eq_refl).
  - destruct (teqb t a) eqn:E; [|apply IH; assumption].
    apply Heq in E. subst a. exfalso. apply N1. now apply (in_map fst) in I.
Qed.

Lemma dropout_value_none (default : V) (f : feed T V) t : (forall v, ~ In (t, v) f) -> dropout_value teqb default f t = default.
Proof.
  intros N. unfold dropout_value. destruct (find _ f) as [[a v]|] eqn:E; [|reflexivity].
  apply find_some in E. destruct E as [I E]. cbn [fst] in E. apply Heq in E. subst a. exfalso. now apply (N v).
Qed.

Theorem predicted_default (n : network T O) t (input : dict V) f (default : V) :
  NoDup (map snd (n_inputs n) ++ map snd (n_gold n)) -> dict_ok input -> dict_get (n_gold n) n_dropout = Some t ->
  get_feed_dict teqb n input None = Ok f -> dropout_value teqb default f t = default.
Proof.
  intros N OKi G F. destruct (feed_values teqb n input None f Heq N OKi) as [_ H]; [discriminate|exact F|].
  apply dropout_value_none. intros v I. apply H in I. destruct I as [I|[g [X _]]]; [|discriminate X].
  apply given_In in I. apply dict_get_In in G. apply (in_map snd) in G. cbn [snd] in G.
  clear - N I G. induction (map snd (n_inputs n)) as [|x l IH]; [destruct I|].
  cbn [app] in N. inversion_clear N as [|? ? N1 N2]. destruct I as [->|I]; [|now apply IH].
  apply N1. apply in_or_app. now right.
Qed.

Theorem trained_value (n : network T O) t (input labels : dict V) lr d f (default : V) :
  NoDup (map snd (n_inputs n) ++ map snd (n_gold n)) -> dict_ok input -> dict_ok labels -> dict_get (n_gold n) n_dropout = Some t ->
  get_feed_dict teqb n input (Some (training_labels labels lr d)) = Ok f -> dropout_value teqb default f t = d.
Proof.
  intros N OKi OKl G F.
  destruct (feed_values teqb n input (Some (training_labels labels lr d)) f Heq N OKi) as [Nf H].
  - intros g E. inversion E; subst. unfold training_labels. now apply dict_set_ok, dict_set_ok.
  - exact F.
  - apply dropout_value_in; [exact Nf|]. apply H. right. eexists. split; [reflexivity|].
    exists n_dropout. split; [exact G|]. unfold training_labels. apply dict_get_set_same.
Qed.
End Feeding.

(* ---------- shares ---------- *)

Lemma qpos n : (0 < n)%nat -> (0 < inject_Z (Z.of_nat n))%Q.
Proof. intros H. unfold Qlt, inject_Z. cbn. lia. Qed.

(* kept exactly from n - k on *)
Lemma kept_from n k i : (0 < n)%nat -> (k <= n)%nat ->
  Qle_bool (1 - draw n k) (draw n i) = (n - k <=? i)%nat.
Proof.
  intros Hn Hk. apply Bool.eq_true_iff_eq. rewrite Qle_bool_iff, Nat.leb_le. unfold draw.
  pose proof (qpos n Hn) as P.
  assert (Q1 : (1 - inject_Z (Z.of_nat k) / inject_Z (Z.of_nat n) == inject_Z (Z.of_nat (n - k)) / inject_Z (Z.of_nat n))%Q).
  { rewrite Nat2Z.inj_sub by exact Hk. unfold Zminus. rewrite inject_Z_plus, inject_Z_opp. field.
    intros X. rewrite X in P. now apply Qlt_irrefl in P. }
  rewrite Q1. clear Q1. split.
  - intros H. apply (Qmult_le_r _ _ _ P) in H.
    assert (X : forall a, (inject_Z a / inject_Z (Z.of_nat n) * inject_Z (Z.of_nat n) == inject_Z a)%Q).
    { intros a. field. intros X. rewrite X in P. now apply Qlt_irrefl in P. }
    rewrite !X in H. rewrite <- Zle_Qle in H. lia.
  - intros H. apply Qmult_le_r; [now apply Qinv_lt_0_compat|]. rewrite <- Zle_Qle. lia.
Qed.

Lemma filter_ge m : forall n a, length (filter (fun i => (m <=? i)%nat) (seq a n)) = (a + n - Nat.max m a)%nat.
Proof.
  induction n as [|n IH]; intros a; cbn [seq filter]; [cbn; lia|].
  destruct (Nat.leb_spec m a); cbn [length]; rewrite IH; lia.
Qed.

Theorem share_kept n k : (0 < n)%nat -> (k <= n)%nat ->
  length (filter (fun i => Qle_bool (1 - draw n k) (draw n i)) (seq 0 n)) = k.
Proof.
  intros Hn Hk. rewrite (filter_ext _ (fun i => (n - k <=? i)%nat)) by (intros i; now apply kept_from).
  rewrite filter_ge. lia.
Qed.

Lemma total_split (f : nat -> Q) (g : nat -> bool) (y : Q) l :
  (forall i, f i == (if g i then y else 0))%Q -> (total (map f l) == inject_Z (Z.of_nat (length (filter g l))) * y)%Q.
Proof.
  intros H. induction l as [|i l IH].
  - cbn. now rewrite Qmult_0_l.
  - change (total (map f (i :: l))) with (f i + total (map f l))%Q. cbn [filter].
    rewrite IH, (H i). destruct (g i); cbn [length]; [|now rewrite Qplus_0_l].
    rewrite Nat2Z.inj_succ. unfold Z.succ. rewrite inject_Z_plus. ring.
Qed.

Theorem mean_kept n k x : (0 < k <= n)%nat ->
  (total (map (fun i => drop rational_dropping (1 - draw n k) (draw n i) x) (seq 0 n)) == inject_Z (Z.of_nat n) * x)%Q.
Proof.
  intros H.
  rewrite (total_split _ (fun i => Qle_bool (1 - draw n k) (draw n i)) (x / draw n k)).
  - rewrite share_kept by lia. unfold draw. field.
    pose proof (qpos k ltac:(lia)) as P. pose proof (qpos n ltac:(lia)) as P'.
    split; intros X; first [rewrite X in P; now apply Qlt_irrefl in P | rewrite X in P'; now apply Qlt_irrefl in P'].
  - intros i. unfold drop. cbn [mul divide minus one leb zero rational_dropping rationals num].
    assert (E : (1 - (1 - draw n k) == draw n k)%Q) by ring.
    destruct (Qle_bool (1 - draw n k) (draw n i)).
    + rewrite E. now rewrite Qmult_1_r.
    + now rewrite Qmult_0_r.
Qed.

(* ---------- dropout 0 ---------- *)

Section Nothing.
Context {A : arith} {W : Type} (D : dropping A).
Notation vec := (list (num A)).

Theorem all_alike (E : exact_one D) (h : (vec -> vec) * (vec -> vec)) (size : nat) :
  (forall x y, mul (divide D x zero) zero = mul (divide D y zero) zero :> num A) -> (forall v, length (fst h v) = size) ->
  exists l0, forall (u : noise A) t name heads j (shared : dict (list vec)) (b : list (list W)) s ls rows l, less_than_one D u ->
    nth_error heads j = Some h -> task_logits D zero u t (TDense name heads None) shared b s = Ok ls ->
    nth_error ls j = Some rows -> In l rows -> l = l0.
Proof.
  intros Z F. exists (snd h (repeat (mul (divide D zero zero) zero) size)).
  intros u t name heads j shared b s ls rows l L Hj T R I. cbn [task_logits] in T.
  destruct (dict_get shared name) as [vs|]; [|discriminate T]. cbn [of_option bind] in T.
  assert (T' : ls = indexed (fun j h => head_logits D zero u t j h vs) heads) by congruence. subst ls.
  rewrite nth_indexed, Hj in R. cbn [option_map] in R. assert (R' : rows = head_logits D zero u t j h vs) by congruence.
  subst rows. unfold head_logits in I. rewrite (nothing_kept D E) in I; [|exact Z|intros i c; apply L].
  rewrite map_map, map_map in I. apply in_map_iff in I. destruct I as [v [<- _]]. now rewrite F.
Qed.

Theorem kept_logits (E : exact_one D) (u v : noise A) (n : layered_net A W) b s : not_negative u -> not_negative v ->
  net_logits D (one D) u n b s = net_logits D (one D) v n b s.
Proof.
  intros Nu Nv. unfold net_logits. rewrite !(shared_one D E) by assumption. apply mapM_ext_all. intros [i t].
  cbn [fst snd]. destruct t as [name heads rules|]; [|reflexivity]. cbn [task_logits].
  destruct (dict_get _ name) as [vs|]; [|reflexivity]. cbn [of_option bind]. f_equal. apply indexed_ext. intros j h _.
  unfold head_logits. now rewrite !(nn_dropout_one D E) by (intros; first [apply Nu | apply Nv]).
Qed.
End Nothing.

(* ---------- the input of the convolution ---------- *)

Section Convolution.
Context {A : arith} {W : Type} (D : dropping A).

Lemma features_other (fs : @features A W) b s name : ~ In name (map fst fs) -> forall r,
  dict_get (fold_left (fun r nf => dict_set r (fst nf) (feature_values (snd nf) b s)) fs r) name = dict_get r name.
Proof.
  induction fs as [|[n f] fs IH]; intros N r; [reflexivity|]. cbn [fold_left fst snd]. cbn [map fst In] in N.
  rewrite IH by tauto. apply dict_get_set_other. tauto.
Qed.

Lemma convolution_from keep (u : noise A) layers sk (fs : @features A W) b s : ~ In n_bilstm_words (map fst fs) ->
  let bilstm := shared_dropped D keep u (BiLSTM layers sk) fs b s in
  exists from, dict_get bilstm (match sk with None => n_bilstm | Some _ => n_bilstm_words end) = Some from /\
    match dict_get bilstm n_bilstm_words with
    | Some xs => xs
    | None => match dict_get bilstm n_bilstm with Some xs => xs | None => [] end
    end = from.
Proof.
  intros N bilstm. unfold bilstm. cbn [shared_dropped]. unfold bilstm_shared. cbv zeta. destruct sk as [k|]; cbn [with_skip].
  - rewrite !dict_get_set_same. eauto.
  - rewrite dict_get_set_same. rewrite dict_get_set_other by discriminate. unfold build_words.
    rewrite dict_get_set_other by discriminate. rewrite features_other by exact N. cbn [dict_get]. eauto.
Qed.
End Convolution.

Theorem share_not_zero n k : (0 < n)%nat -> (k <= n)%nat ->
  length (filter (fun i => negb (Qeq_bool (drop rational_dropping (minus rational_dropping 1%Q (draw n k)) (draw n i) 1%Q) 0%Q)) (seq 0 n)) = k.
Proof.
  intros Hn Hk. etransitivity; [|exact (share_kept n k Hn Hk)]. f_equal. apply filter_ext_in. intros i Hi. apply in_seq in Hi.
  unfold drop. cbn [mul divide minus one leb zero rational_dropping rationals num].
  destruct (Qle_bool (1 - draw n k) (draw n i)) eqn:K.
  - apply negb_true_iff, not_true_iff_false. rewrite Qeq_bool_iff. intros X.
    assert (P : (0 < k)%nat).
    { rewrite kept_from in K by assumption. apply Nat.leb_le in K. lia. }
    assert (E : (1 - (1 - draw n k) == draw n k)%Q) by ring. rewrite E in X. clear E.
    assert (Y : (1 / draw n k * 1 * draw n k == 1)%Q).
    { field. unfold draw. intros Z. pose proof (qpos k P) as P1. pose proof (qpos n Hn) as P2.
      assert (P3 : (0 < inject_Z (Z.of_nat k) / inject_Z (Z.of_nat n))%Q).
      { unfold Qdiv. apply Qmult_lt_0_compat; [exact P1|]. now apply Qinv_lt_0_compat. }
      rewrite Z in P3. now apply Qlt_irrefl in P3. }
    rewrite X, Qmult_0_l in Y. discriminate Y.
  - apply negb_false_iff. rewrite Qeq_bool_iff. now rewrite Qmult_0_r.
Qed.
