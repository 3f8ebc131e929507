(* Lemmas about dropout. *)
From Coq Require Import String Ascii ZArith NArith QArith Bool List Lia.
From Verif Require Import Base Model_Layers Model_Network Model_Dropout Spec_Dropout Proofs_Layers.
Import ListNotations.

Section Indexed.
Context {X Y : Type}.

Lemma indexed_from (f : nat -> X -> Y) : forall l k i,
  nth_error (map (fun ix => f (fst ix) (snd ix)) (combine (seq k (length l)) l)) i = option_map (f (k + i)%nat) (nth_error l i).
Proof.
  induction l as [|x l IH]; intros k [|i]; cbn; try reflexivity.
  - now rewrite Nat.add_0_r.
  - rewrite IH. now replace (S k + i)%nat with (k + S i)%nat by lia.
Qed.

Lemma nth_indexed (f : nat -> X -> Y) l i : nth_error (indexed f l) i = option_map (f i) (nth_error l i).
Proof. unfold indexed. now rewrite indexed_from. Qed.

Lemma indexed_length (f : nat -> X -> Y) l : length (indexed f l) = length l.
Proof. unfold indexed. rewrite map_length, combine_length, seq_length. lia. Qed.

Lemma indexed_ext (f g : nat -> X -> Y) l : (forall i x, nth_error l i = Some x -> f i x = g i x) -> indexed f l = indexed g l.
Proof.
  intros H. unfold indexed. apply map_ext_in. intros [i x] Hi.
  cbn. apply In_nth_error in Hi. destruct Hi as [k Hk].
  assert (Hs : i = k /\ nth_error l k = Some x).
  { assert (G : forall (m : list X) a k i x, nth_error (combine (seq a (length m)) m) k = Some (i, x) -> i = (a + k)%nat /\ nth_error m k = Some x).
    { induction m as [|z m IH]; intros a [|k'] i' x' E; cbn in E; try discriminate.
      - inversion E; subst. cbn. split; [lia|reflexivity].
      - apply IH in E. destruct E as [E1 E2]. cbn. split; [lia|exact E2]. }
    apply G in Hk. exact Hk. }
  destruct Hs as [-> Hs]. now apply H.
Qed.
End Indexed.

Lemma indexed_id {X} (f : nat -> X -> X) l : (forall i x, nth_error l i = Some x -> f i x = x) -> indexed f l = l.
Proof.
  intros H. rewrite (indexed_ext f (fun _ x => x) l H). unfold indexed.
  assert (G : forall (m : list X) a, map (fun ix => snd ix) (combine (seq a (length m)) m) = m).
  { induction m as [|z m IH]; intros a; cbn; [reflexivity|]. now rewrite IH. }
  apply G.
Qed.

Lemma indexed_const {X Y} (f : X -> Y) l : indexed (fun _ x => f x) l = map f l.
Proof.
  unfold indexed.
  assert (G : forall (m : list X) a, map (fun ix => f (snd ix)) (combine (seq a (length m)) m) = map f m).
  { induction m as [|z m IH]; intros a; cbn; [reflexivity|]. now rewrite IH. }
  apply G.
Qed.

Section One.
Context {A : arith} (D : dropping A).

(* kept for certain *)
Lemma drop_one (E : exact_one D) (v x : num A) : leb zero v = true -> drop D (minus D (one D) (one D)) v x = x.
Proof.
  intros H. unfold drop. rewrite (one_minus_one D E), (one_minus_zero D E), H, (over_one D E). apply (times_one D E).
Qed.

Lemma nn_dropout_one (E : exact_one D) (u : nat -> nat -> num A) rows :
  (forall i c, leb zero (u i c) = true) -> nn_dropout D (one D) u rows = rows.
Proof.
  intros H. unfold nn_dropout. apply indexed_id. intros i v _. apply indexed_id. intros c x _. now apply drop_one.
Qed.

Lemma nn_dropout_length keep (u : nat -> nat -> num A) rows : length (nn_dropout D keep u rows) = length rows.
Proof. apply indexed_length. Qed.

Lemma nn_dropout_dropped keep (u : nat -> nat -> num A) rows : dropped D keep u rows (nn_dropout D keep u rows).
Proof.
  split; [apply nn_dropout_length|].
  intros i v H. unfold nn_dropout. rewrite nth_indexed, H. cbn [option_map]. eexists. split; [reflexivity|].
  split; [apply indexed_length|]. intros c x Hc. cbv zeta. rewrite nth_indexed, Hc. cbn [option_map]. unfold drop.
  now destruct (leb _ _).
Qed.

Lemma nn_dropout_ext keep (u v : nat -> nat -> num A) rows : (forall i c, u i c = v i c) -> nn_dropout D keep u rows = nn_dropout D keep v rows.
Proof. intros H. unfold nn_dropout. apply indexed_ext. intros i w _. apply indexed_ext. intros c x _. now rewrite H. Qed.

(* the layers: tf.layers.dropout does nothing *)
Lemma bilstm_tail (keep : num A) (u : noise A) len : forall ls k xs, (0 < k)%nat ->
  fold_left (fun hidden il =>
      layers_dropout D false keep (u (AtLayer (fst il)))
        (if (fst il =? 0)%nat then bidirectional (snd il) len hidden else map2 (map2 add) hidden (bidirectional (snd il) len hidden)))
    (combine (seq k (length ls)) ls) xs
  = fold_left (fun hidden l' => map2 (map2 add) hidden (bidirectional l' len hidden)) ls xs.
Proof.
  induction ls as [|l ls IH]; intros k xs H; cbn; [reflexivity|].
  destruct k as [|k]; [lia|]. cbn. apply IH. lia.
Qed.

Lemma bilstm_dropped_plain (keep : num A) (u : noise A) ls len xs : bilstm_dropped D keep u ls len xs = bilstm_layer ls len xs.
Proof.
  unfold bilstm_dropped, bilstm_layer. destruct ls as [|l ls]; [reflexivity|].
  cbn [length seq combine fold_left fst snd]. cbn [Nat.eqb]. cbv zeta. rewrite bilstm_tail by lia. reflexivity.
Qed.
End One.

Section Nets.
Context {A : arith} {W : Type} (D : dropping A).
Notation vec := (list (num A)).

Lemma shared_one (E : exact_one D) (u : noise A) (e : encoder A) (fs : @features A W) b s : not_negative u ->
  shared_dropped D (one D) u e fs b s = build_shared e fs b s.
Proof.
  intros N. destruct e as [|ls sk|ls sk ks|ks sk]; cbn [shared_dropped build_shared]; [reflexivity| | |];
    unfold bilstm_shared, build_bilstm; cbv zeta; rewrite ?bilstm_dropped_plain;
    rewrite ?(nn_dropout_one D E) by (intros; apply N); reflexivity.
Qed.

Lemma indexed_map_const {X Y Z'} (f : X -> Y) (g : Y -> Z') l : map g (indexed (fun _ x => f x) l) = map (fun x => g (f x)) l.
Proof. now rewrite indexed_const, map_map. Qed.

Lemma stack_from {X} (vs : list X) : forall (hs : list (X -> nat)) (acc : X -> list nat),
  fold_left (map2 (fun r x => r ++ [x])) (map (fun h => map h vs) hs) (map acc vs)
  = map (fun v => acc v ++ map (fun h => h v) hs) vs.
Proof.
  induction hs as [|h hs IH]; intros acc; cbn [map fold_left].
  - apply map_ext. intros v. now rewrite app_nil_r.
  - assert (Hm : map2 (fun r x => r ++ [x]) (map acc vs) (map h vs) = map (fun v => acc v ++ [h v]) vs).
    { clear. induction vs as [|v vs IH]; cbn; [reflexivity|]. now rewrite IH. }
    rewrite Hm, IH. apply map_ext. intros v. now rewrite <- app_assoc.
Qed.

Lemma stacked_map {X} (vs : list X) (hs : list (X -> nat)) : hs <> [] ->
  stacked (map (fun h => map h vs) hs) = Ok (map (fun v => map (fun h => h v) hs) vs).
Proof.
  destruct hs as [|h hs]; [congruence|]. intros _. cbn [map stacked]. rewrite map_map.
  now rewrite (stack_from vs hs (fun v => [h v])).
Qed.

Lemma map2_map_pair {X Y Z1 R} (f : X -> Z1) (g : Z1 -> Y -> R) : forall l m, map2 g (map f l) m = map (fun xy => g (f (fst xy)) (snd xy)) (combine l m).
Proof. induction l as [|x l IH]; intros [|y m]; cbn; try reflexivity. now rewrite IH. Qed.
Lemma map2_pair {X Y R} (g : X -> Y -> R) : forall l m, map2 g l m = map (fun xy => g (fst xy) (snd xy)) (combine l m).
Proof. induction l as [|x l IH]; intros [|y m]; cbn; try reflexivity. now rewrite IH. Qed.

Lemma task_one (E : exact_one D) (u : noise A) i (t : layered_task A W) shared b s : not_negative u -> has_parts t ->
  (do ls <- task_logits D (one D) u i t shared b s; task_answers t ls) = task_output (plain_task t) shared b s.
Proof.
  intros N H. destruct t as [name heads rules|name ids_of row d n reduce ks finish]; cbn [task_logits task_answers plain_task task_output].
  - destruct (dict_get shared name) as [vs|]; [|reflexivity]. cbn [of_option bind].
    assert (Hh : forall j h, head_logits D (one D) u i j h vs = map (fun v => snd h (fst h v)) vs).
    { intros j h. unfold head_logits. rewrite (nn_dropout_one D E) by (intros; apply N). now rewrite map_map. }
    destruct rules as [[n allowed]|].
    + rewrite (indexed_ext _ (fun _ h => map (fun xm => masked (snd xm) (snd h (fst h (fst xm))))
                 (combine vs (pad_to (longest_sentence b) (repeat false n) (map allowed s))))).
      2:{ intros j h _. now rewrite Hh, map2_map_pair. }
      rewrite indexed_map_const.
      replace (map (fun x => map (@argmax A) (map (fun xm => masked (snd xm) (snd x (fst x (fst xm)))) (combine vs (pad_to (longest_sentence b) (repeat false n) (map allowed s))))) heads)
        with (map (fun h => map h (combine vs (pad_to (longest_sentence b) (repeat false n) (map allowed s))))
                (map (fun h xm => @argmax A (masked (snd xm) (snd h (fst h (fst xm))))) heads)).
      2:{ rewrite map_map. apply map_ext. intros h. now rewrite map_map. }
      rewrite stacked_map. 2:{ intros Z. apply map_eq_nil in Z. now apply H. }
      f_equal. rewrite map2_pair. apply map_ext. intros [v m]. cbn [fst snd]. unfold dense_output. now rewrite !map_map.
    + rewrite (indexed_ext _ (fun _ h => map (fun v => snd h (fst h v)) vs)) by (intros j h _; apply Hh).
      rewrite indexed_map_const.
      replace (map (fun x => map (@argmax A) (map (fun v => snd x (fst x v)) vs)) heads)
        with (map (fun h => map h vs) (map (fun h v => @argmax A (snd h (fst h v))) heads)).
      2:{ rewrite map_map. apply map_ext. intros h. now rewrite map_map. }
      rewrite stacked_map. 2:{ intros Z. apply map_eq_nil in Z. now apply H. }
      f_equal. apply map_ext. intros v. unfold dense_output. now rewrite !map_map.
  - destruct (dict_get shared name) as [vs|]; [|reflexivity]. cbn [of_option bind]. f_equal.
    rewrite !map2_pair, map_map. apply map_ext. intros [ids v]. reflexivity.
Qed.

(* logits and answers together: the order of the two loops does not matter, since answering needs nothing but logits, which a task
   without parts lacks *)
Lemma task_answers_ok keep (u : noise A) i (t : layered_task A W) shared b s ls : has_parts t ->
  task_logits D keep u i t shared b s = Ok ls -> exists r, task_answers t ls = Ok r.
Proof.
  destruct t as [name heads rules|name ids_of row d n reduce ks finish]; cbn [task_logits task_answers has_parts]; intros H L.
  - destruct (dict_get shared name) as [vs|]; [|discriminate L]. cbn [of_option bind] in L. inversion L; subst; clear L.
    destruct heads as [|h heads]; [congruence|]. unfold indexed. cbn. eauto.
  - eauto.
Qed.

Lemma answers_split keep (u : noise A) shared b s : forall (ts : list (layered_task A W)) k, Forall has_parts ts ->
  (do ls <- mapM (fun it => task_logits D keep u (fst it) (snd it) shared b s) (combine (seq k (length ts)) ts);
   mapM (fun tl => task_answers (fst tl) (snd tl)) (combine ts ls))
  = mapM (fun it => do ls <- task_logits D keep u (fst it) (snd it) shared b s; task_answers (snd it) ls) (combine (seq k (length ts)) ts).
Proof.
  induction ts as [|t ts IH]; intros k H; cbn [length seq combine mapM fst snd]; [reflexivity|].
  inversion_clear H as [|? ? H1 H2]. specialize (IH (S k) H2).
  destruct (task_logits D keep u k t shared b s) as [l|e] eqn:L; cbn [bind]; [|reflexivity].
  destruct (task_answers_ok keep u k t shared b s l H1 L) as [r R].
  destruct (mapM (fun it => task_logits D keep u (fst it) (snd it) shared b s) (combine (seq (S k) (length ts)) ts)) as [ls|e] eqn:M;
    cbn [bind] in *.
  - cbn [combine mapM fst snd]. rewrite R. cbn [bind]. rewrite <- IH. reflexivity.
  - rewrite R. cbn [bind]. rewrite <- IH. reflexivity.
Qed.

Theorem prediction (E : exact_one D) (u : noise A) (n : layered_net A W) b s : not_negative u -> Forall has_parts (l_tasks n) ->
  net_answers D (one D) u n b s = predict_sentence (plain n) b s.
Proof.
  intros N H. unfold net_answers, net_logits. rewrite answers_split by exact H.
  unfold predict_sentence, plain. cbn [n_tasks n_encoder n_features]. rewrite shared_one by assumption.
  generalize 0%nat as k. revert H. induction (l_tasks n) as [|t ts IH]; intros H k; cbn [length seq combine mapM map fst snd]; [reflexivity|].
  inversion_clear H as [|? ? H1 H2]. rewrite task_one by assumption.
  destruct (task_output _ _ _ _) as [r|e]; cbn [bind]; [|reflexivity]. now rewrite IH.
Qed.

(* ---------- dependence on the random numbers ---------- *)

Lemma shared_same keep (u v : noise A) (e : encoder A) (fs : @features A W) b s : same_outside_layers u v ->
  shared_dropped D keep u e fs b s = shared_dropped D keep v e fs b s.
Proof.
  intros S. destruct e as [|ls sk|ls sk ks|ks sk]; cbn [shared_dropped]; [reflexivity| | |];
    unfold bilstm_shared; cbv zeta; rewrite ?bilstm_dropped_plain;
    rewrite ?(nn_dropout_ext D keep (u AtInput) (v AtInput)) by (apply S; congruence);
    rewrite ?(nn_dropout_ext D keep (u AtSkip) (v AtSkip)) by (apply S; congruence);
    try reflexivity.
  rewrite (nn_dropout_ext D keep (u AtConvolution) (v AtConvolution)) by (apply S; congruence). reflexivity.
Qed.

Lemma task_same keep (u v : noise A) i (t : layered_task A W) shared b s : same_outside_layers u v ->
  task_logits D keep u i t shared b s = task_logits D keep v i t shared b s.
Proof.
  intros S. destruct t as [name heads rules|]; [|reflexivity]. cbn [task_logits].
  destruct (dict_get shared name) as [vs|]; [|reflexivity]. cbn [of_option bind]. f_equal.
  apply indexed_ext. intros j h _. unfold head_logits.
  rewrite (nn_dropout_ext D keep (u (AtHead i j)) (v (AtHead i j))) by (apply S; congruence). reflexivity.
Qed.

Lemma mapM_ext_all {X Y} (f g : X -> result Y) : (forall x, f x = g x) -> forall l, mapM f l = mapM g l.
Proof. intros H. induction l as [|x l IH]; cbn; [reflexivity|]. now rewrite H, IH. Qed.

Theorem layers_quiet keep (u v : noise A) (n : layered_net A W) b s : same_outside_layers u v ->
  net_logits D keep u n b s = net_logits D keep v n b s.
Proof.
  intros S. unfold net_logits. rewrite (shared_same keep u v) by exact S.
  apply mapM_ext_all. intros [i t]. cbn [fst snd]. now apply task_same.
Qed.

Theorem combo_quiet keep keep' (u v : noise A) (n : layered_net A W) b s : l_encoder n = WE_charCNN -> Forall is_combo (l_tasks n) ->
  net_logits D keep u n b s = net_logits D keep' v n b s.
Proof.
  intros E H. unfold net_logits. rewrite E. cbn [shared_dropped].
  generalize 0%nat as k. revert H. induction (l_tasks n) as [|t ts IH]; intros H k; cbn [length seq combine mapM fst snd]; [reflexivity|].
  inversion_clear H as [|? ? H1 H2]. rewrite IH by exact H2. destruct t; [contradiction|]. reflexivity.
Qed.

(* ---------- nothing is kept ---------- *)

Lemma indexed_repeat {X Y} (f : nat -> X -> Y) (z : Y) l : (forall i x, f i x = z) -> indexed f l = repeat z (length l).
Proof.
  intros H. rewrite (indexed_ext f (fun _ _ => z)) by (intros; apply H). rewrite indexed_const.
  induction l as [|x l IH]; cbn; [reflexivity|]. now rewrite IH.
Qed.

Lemma nothing_kept (E : exact_one D) (u : nat -> nat -> num A) rows :
  (forall x y, mul (divide D x zero) zero = mul (divide D y zero) zero :> num A) -> (forall i c, leb (one D) (u i c) = false) ->
  nn_dropout D zero u rows = map (fun v => repeat (mul (divide D zero zero) zero) (length v)) rows.
Proof.
  intros Z L. unfold nn_dropout. rewrite <- indexed_const. apply indexed_ext. intros i v _.
  apply indexed_repeat. intros c x. unfold drop. rewrite (one_minus_zero D E), (one_minus_one D E), L. apply Z.
Qed.

End Nets.
