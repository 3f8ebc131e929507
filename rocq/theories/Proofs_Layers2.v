(* Lemmas about networks: what the output at a position of a sentence depends on. *)
From Coq Require Import String Ascii ZArith NArith Bool List Lia.
From Verif Require Import Base BaseFacts Model_Layers Spec_Layers Proofs_Layers.
Import ListNotations.
Open Scope nat_scope.

Section Networks.
Context {A : arith} {W : Type}.
Notation vec := (list (num A)).

Lemma longest_word_iff ids_of (b : list (list W)) n : 0 < n ->
  (n <= longest_word ids_of b <-> exists s w, In s b /\ In w s /\ n <= length (ids_of w)).
Proof.
  intros Hn. unfold longest_word. split.
  - intros H. assert (map (fun w => length (ids_of w)) (concat b) <> []) as Hne.
    { intros E. rewrite E in H. cbn in H. lia. }
    pose proof (maximum_in _ Hne) as Hi. apply in_map_iff in Hi as (w & E & Hw). apply in_concat in Hw as (s & Hs & Hw).
    exists s, w. rewrite E. auto.
  - intros (s & w & Hs & Hw & H). eapply Nat.le_trans; [exact H|]. apply maximum_le. apply in_map_iff. exists w. split; [reflexivity|].
    apply in_concat. eauto.
Qed.

Lemma equally_long_width ids_of (b b' : list (list W)) : equally_long ids_of b b' -> longest_word ids_of b = longest_word ids_of b'.
Proof.
  intros H. apply Nat.le_antisymm.
  - destruct (longest_word ids_of b) as [|n] eqn:E; [lia|]. apply longest_word_iff; [lia|]. apply H, longest_word_iff; lia.
  - destruct (longest_word ids_of b') as [|n] eqn:E; [lia|]. apply longest_word_iff; [lia|]. apply H, longest_word_iff; lia.
Qed.

Lemma has_longest_width ids_of (b : list (list W)) s : In s b -> has_longest ids_of b s -> equally_long ids_of b [s].
Proof.
  intros Hs H n. split.
  - intros (s' & w' & H1 & H2 & H3). destruct (H s' w' H1 H2) as (w & Hw & L). exists s, w. split; [now left|]. split; [exact Hw|]. lia.
  - intros (s' & w' & [<-|[]] & H2 & H3). exists s, w'. auto.
Qed.

Lemma longest_sentence_le (b : list (list W)) s : In s b -> length s <= longest_sentence b.
Proof. intros H. apply maximum_le, in_map, H. Qed.

Lemma longest_word_le ids_of (b : list (list W)) s w : In s b -> In w s -> length (ids_of w) <= longest_word ids_of b.
Proof. intros Hs Hw. apply maximum_le. apply in_map_iff. exists w. split; [reflexivity|]. apply in_concat. eauto. Qed.

(* ---------- features ---------- *)

Definition feature_at (f : feature A W) (b : list (list W)) (w : W) : vec :=
  match f with
  | WordLevel id_of row gate => gate (row (id_of w))
  | SubwordLevel ids_of row d agg gate => gate (aggregate agg d row (pad_to (longest_word ids_of b) 0%Z (ids_of w)))
  end.
Definition same_width (f : feature A W) (b b' : list (list W)) : Prop :=
  match f with WordLevel _ _ _ => True | SubwordLevel ids_of _ _ _ _ => longest_word ids_of b = longest_word ids_of b' end.

Lemma feature_at_same f b b' w : same_width f b b' -> feature_at f b w = feature_at f b' w.
Proof. destruct f; cbn [feature_at same_width]; [reflexivity|]. now intros ->. Qed.

Lemma subwords_nth ids_of (b : list (list W)) s p w : nth_error s p = Some w ->
  nth_error (padded_subwords ids_of b s) p = Some (pad_to (longest_word ids_of b) 0%Z (ids_of w)).
Proof.
  intros H. assert (p < length s) by (apply nth_error_Some; congruence). unfold padded_subwords.
  rewrite nth_pad_to by now rewrite map_length. now rewrite nth_error_map, H.
Qed.

Lemma feature_nth f b s p w : nth_error s p = Some w -> nth_error (feature_values f b s) p = Some (feature_at f b w).
Proof.
  intros H. assert (p < length s) by (apply nth_error_Some; congruence). destruct f; cbn [feature_values feature_at].
  - rewrite nth_error_map, nth_pad_to by now rewrite map_length. now rewrite nth_error_map, H.
  - rewrite nth_error_map. now rewrite (subwords_nth _ b s p w H).
Qed.

Lemma feature_length (f : feature A W) b s : In s b -> length (feature_values f b s) = longest_sentence b.
Proof.
  intros H. apply longest_sentence_le in H. destruct f; cbn [feature_values]; rewrite map_length; [|unfold padded_subwords];
    rewrite pad_to_length, map_length; lia.
Qed.

Definition words_at (fs : list (str * feature A W)) (b : list (list W)) (w : W) (v : vec) : vec :=
  fold_left (fun v nf => v ++ feature_at (snd nf) b w) fs v.

Lemma words_fold (fs : list (str * feature A W)) b s p w : nth_error s p = Some w -> forall vs v, nth_error vs p = Some v ->
  nth_error (fold_left (fun vs nf => map2 (@app _) vs (feature_values (snd nf) b s)) fs vs) p = Some (words_at fs b w v).
Proof.
  intros H. unfold words_at. induction fs as [|nf fs IH]; intros vs v Hv; cbn [fold_left]; [exact Hv|]. apply IH.
  rewrite nth_map2, Hv, (feature_nth _ b s p w H). reflexivity.
Qed.

Lemma words_nth (fs : list (str * feature A W)) b s p w : In s b -> nth_error s p = Some w ->
  nth_error (word_features fs b s) p = Some (words_at fs b w []).
Proof.
  intros Hs H. unfold word_features. apply words_fold; [exact H|].
  assert (p < length s) by (apply nth_error_Some; congruence). apply longest_sentence_le in Hs.
  rewrite (nth_error_nth' _ []) by (rewrite repeat_length; lia). now rewrite nth_repeat.
Qed.

Lemma words_length (fs : list (str * feature A W)) b s : In s b -> length (word_features fs b s) = longest_sentence b.
Proof.
  intros H. unfold word_features. assert (length (repeat (@nil (num A)) (longest_sentence b)) = longest_sentence b) as E by apply repeat_length.
  revert E. generalize (repeat (@nil (num A)) (longest_sentence b)).
  induction fs as [|nf fs IH]; intros vs E; cbn [fold_left]; [exact E|]. apply IH. rewrite map2_length, feature_length by exact H.
  rewrite E. apply Nat.min_id.
Qed.

Definition same_widths (fs : list (str * feature A W)) b b' : Prop := Forall (fun nf => same_width (snd nf) b b') fs.

Lemma words_at_same (fs : list (str * feature A W)) b b' w : same_widths fs b b' -> forall v, words_at fs b w v = words_at fs b' w v.
Proof.
  unfold words_at. induction 1 as [|nf fs H _ IH]; intros v; [reflexivity|]. cbn [fold_left]. now rewrite (feature_at_same _ _ _ w H), IH.
Qed.

(* ---------- agreement of tensors at the positions P ---------- *)

Section Agree.
Variables (P : nat -> Prop) (b b' : list (list W)) (s s' : list W).
Hypothesis Hs : In s b.
Hypothesis Hs' : In s' b'.

Definition agree {X} (v v' : list X) : Prop := forall t, P t -> nth_error v t = nth_error v' t.
Definition agree_dict {X} (r r' : dict (list X)) : Prop := forall k,
  match dict_get r k, dict_get r' k with Some v, Some v' => agree v v' | None, None => True | _, _ => False end.

Lemma agree_set {X} (r r' : dict (list X)) k v v' : agree_dict r r' -> agree v v' -> agree_dict (dict_set r k v) (dict_set r' k v').
Proof.
  intros H Hv j. destruct (str_eqb k j) eqn:E.
  - apply str_eqb_eq in E. subst j. rewrite !dict_get_set_same. exact Hv.
  - assert (k <> j) as N by now apply str_eqb_neq. rewrite !dict_get_set_other by exact N. apply H.
Qed.

Lemma agree_map2 {X Y R} (f : X -> Y -> R) l l' m m' : agree l l' -> agree m m' -> agree (map2 f l m) (map2 f l' m').
Proof. intros H K t Ht. rewrite !nth_map2, (H t Ht), (K t Ht). reflexivity. Qed.

Lemma agree_map {X Y} (f : X -> Y) l l' : agree l l' -> agree (map f l) (map f l').
Proof. intros H t Ht. now rewrite !nth_error_map, (H t Ht). Qed.

Hypothesis HP : forall t, P t -> t < length s /\ nth_error s t = nth_error s' t.

Lemma word_at t : P t -> exists w, nth_error s t = Some w /\ nth_error s' t = Some w.
Proof.
  intros Ht. destruct (HP t Ht) as [L E]. destruct (nth_error s t) as [w|] eqn:Ew; [|apply nth_error_None in Ew; lia].
  exists w. auto.
Qed.

Lemma feature_agree f : same_width f b b' -> agree (feature_values f b s) (feature_values f b' s').
Proof.
  intros H t Ht. destruct (word_at t Ht) as (w & E & E'). rewrite (feature_nth f b s t w E), (feature_nth f b' s' t w E').
  now rewrite (feature_at_same f b b' w H).
Qed.

Lemma words_agree fs : same_widths fs b b' -> agree (word_features fs b s) (word_features fs b' s').
Proof.
  intros H t Ht. destruct (word_at t Ht) as (w & E & E'). rewrite (words_nth fs b s t w Hs E), (words_nth fs b' s' t w Hs' E').
  now rewrite (words_at_same fs b b' w H).
Qed.

Lemma features_agree fs : same_widths fs b b' -> forall r r', agree_dict r r' ->
  agree_dict (fold_left (fun r nf => dict_set r (fst nf) (feature_values (snd nf) b s)) fs r)
             (fold_left (fun r nf => dict_set r (fst nf) (feature_values (snd nf) b' s')) fs r').
Proof.
  induction 1 as [|nf fs H _ IH]; intros r r' Hr; cbn [fold_left]; [exact Hr|]. apply IH. apply agree_set; [exact Hr|].
  now apply feature_agree.
Qed.

Lemma build_words_agree fs : same_widths fs b b' -> agree_dict (build_words fs b s) (build_words fs b' s').
Proof.
  intros H. unfold build_words. apply agree_set; [|now apply words_agree]. apply features_agree; [exact H|]. intros k. cbn. exact Logic.I.
Qed.

Lemma skip_agree sk name xs xs' ws ws' r r' : agree (X := vec) xs xs' -> agree ws ws' -> agree_dict r r' ->
  agree_dict (with_skip sk name xs ws r) (with_skip sk name xs' ws' r').
Proof.
  intros H1 H2 H3. destruct sk as [[|]|]; cbn [with_skip skip]; [| |exact H3]; apply agree_set; try exact H3;
    apply agree_map2; assumption.
Qed.

Lemma build_bilstm_agree layers sk fs xs xs' : same_widths fs b b' ->
  xs = bilstm_layer layers (length s) (word_features fs b s) -> xs' = bilstm_layer layers (length s') (word_features fs b' s') ->
  agree xs xs' -> agree_dict (build_bilstm layers sk fs b s) (build_bilstm layers sk fs b' s').
Proof.
  intros H -> -> Hx. unfold build_bilstm. apply skip_agree; [exact Hx|now apply words_agree|]. apply agree_set; [|exact Hx].
  now apply build_words_agree.
Qed.

Lemma build_cnn_agree ks r r' : agree_dict (X := vec) r r' ->
  agree_dict
    (dict_set r n_bilstm_cnn (map (word_cnn ks) match dict_get r n_bilstm_words with
                   | Some xs => xs
                   | None => match dict_get r n_bilstm with Some xs => xs | None => [] end
                   end))
    (dict_set r' n_bilstm_cnn (map (word_cnn ks) match dict_get r' n_bilstm_words with
                   | Some xs => xs
                   | None => match dict_get r' n_bilstm with Some xs => xs | None => [] end
                   end)).
Proof.
  intros H. apply agree_set; [exact H|]. apply agree_map. pose proof (H n_bilstm_words) as H1. pose proof (H n_bilstm) as H2.
  destruct (dict_get r n_bilstm_words), (dict_get r' n_bilstm_words); try contradiction; [exact H1|].
  destruct (dict_get r n_bilstm), (dict_get r' n_bilstm); try contradiction; [exact H2|]. intros t _. reflexivity.
Qed.

(* ---------- tasks ---------- *)

Definition task_ok (t : task A W) : Prop :=
  match t with
  | DenseTask _ _ _ => True
  | ComboTask _ ids_of row d _ _ _ _ => longest_word ids_of b = longest_word ids_of b' \/ row 0%Z = repeat zero d
  end.

Lemma firstn_repeat {X} (x : X) : forall k i, k <= i -> firstn k (repeat x i) = repeat x k.
Proof. induction k as [|k IH]; intros [|i] L; cbn [repeat firstn]; try reflexivity; [lia|]. f_equal. apply IH. lia. Qed.

Lemma firstn_padded {X} (x : X) l n k : n <= k -> firstn n (l ++ repeat x k) = firstn n (l ++ repeat x n).
Proof. intros H. rewrite !firstn_app. f_equal. rewrite !firstn_repeat by lia. reflexivity. Qed.

Lemma char_embeddings_eq (row : Z -> vec) d n ids : char_embeddings row d n ids = firstn n (map row ids ++ repeat (repeat zero d) n).
Proof.
  unfold char_embeddings. destruct (Nat.ltb_spec n (length (map row ids))) as [L|L].
  - rewrite firstn_app. replace (n - length (map row ids)) with 0 by lia. now rewrite firstn_O, app_nil_r.
  - unfold pad_to. rewrite firstn_app, firstn_all2 by exact L. f_equal. symmetry. apply firstn_repeat. lia.
Qed.

Lemma map_repeat' {X Y} (f : X -> Y) x n : map f (repeat x n) = repeat (f x) n.
Proof. induction n as [|n IH]; cbn [repeat map]; [reflexivity|]. now rewrite IH. Qed.

Lemma char_embeddings_zero (row : Z -> vec) d n ids m : row 0%Z = repeat zero d ->
  char_embeddings row d n (pad_to m 0%Z ids) = char_embeddings row d n ids.
Proof.
  intros H0. rewrite !char_embeddings_eq. unfold pad_to. rewrite map_app, map_repeat', H0, <- app_assoc, <- repeat_app.
  apply firstn_padded. lia.
Qed.

Lemma combo_same (row : Z -> vec) d n reduce ks finish ids m m' v : m = m' \/ row 0%Z = repeat zero d ->
  combo_output row d n reduce ks finish (pad_to m 0%Z ids) v = combo_output row d n reduce ks finish (pad_to m' 0%Z ids) v.
Proof.
  intros [->|H]; [reflexivity|]. unfold combo_output. now rewrite !(char_embeddings_zero row d n ids _ H).
Qed.

Lemma task_agree t r r' : task_ok t -> agree_dict r r' ->
  match task_output t r b s, task_output t r' b' s' with
  | Ok o, Ok o' => agree o o'
  | Err e, Err e' => e = e'
  | _, _ => False
  end.
Proof.
  intros Ht Hr. destruct t as [name heads rules|name ids_of row d n reduce ks finish]; cbn [task_output].
  - specialize (Hr name). destruct (dict_get r name) as [v|], (dict_get r' name) as [v'|]; try contradiction; cbn [of_option bind];
      [|reflexivity]. destruct rules as [[n allowed]|]; [|now apply agree_map].
    apply agree_map2; [exact Hr|]. intros t Pt. destruct (word_at t Pt) as (w & E & E').
    assert (t < length s) by (apply nth_error_Some; congruence). assert (t < length s') by (apply nth_error_Some; congruence).
    rewrite !nth_pad_to by now rewrite map_length. now rewrite !nth_error_map, E, E'.
  - specialize (Hr name). destruct (dict_get r name) as [v|], (dict_get r' name) as [v'|]; try contradiction; cbn [of_option bind];
      [|reflexivity]. intros t Pt. destruct (word_at t Pt) as (w & E & E'). rewrite !nth_map2.
    rewrite (subwords_nth ids_of b s t w E), (subwords_nth ids_of b' s' t w E'), (Hr t Pt).
    destruct (nth_error v' t) as [x|]; [|reflexivity]. f_equal. apply combo_same. exact Ht.
Qed.

Lemma tasks_agree ts r r' : Forall task_ok ts -> agree_dict r r' ->
  match mapM (fun t => task_output t r b s) ts, mapM (fun t => task_output t r' b' s') ts with
  | Ok os, Ok os' => Forall2 agree os os'
  | Err e, Err e' => e = e'
  | _, _ => False
  end.
Proof.
  intros H Hr. induction H as [|t ts Ht _ IH]; cbn [mapM]; [constructor|].
  pose proof (task_agree t r r' Ht Hr) as K.
  destruct (task_output t r b s) as [o|e], (task_output t r' b' s') as [o'|e']; cbn [bind]; try contradiction; [|exact K].
  destruct (mapM (fun t => task_output t r b s) ts) as [os|e], (mapM (fun t => task_output t r' b' s') ts) as [os'|e'];
    cbn [bind]; try contradiction; [|exact IH]. constructor; assumption.
Qed.

Lemma predict_agree (n : net A W) : Forall task_ok (n_tasks n) ->
  agree_dict (build_shared (n_encoder n) (n_features n) b s) (build_shared (n_encoder n) (n_features n) b' s') ->
  match predict_sentence n b s, predict_sentence n b' s' with
  | Ok os, Ok os' => Forall2 agree os os'
  | Err e, Err e' => e = e'
  | _, _ => False
  end.
Proof. intros H Hr. unfold predict_sentence. now apply tasks_agree. Qed.
End Agree.

(* ---------- the sentence alone ---------- *)

Lemma longest_alone (s : list W) : longest_sentence [s] = length s.
Proof. unfold longest_sentence, maximum. cbn [map fold_right]. lia. Qed.

Lemma alone_words_length (fs : list (str * feature A W)) s : length (word_features fs [s] s) = length s.
Proof. rewrite words_length by now left. apply longest_alone. Qed.

Lemma nth_ext {X} : forall l m : list X, (forall t, nth_error l t = nth_error m t) -> l = m.
Proof.
  induction l as [|x l IH]; intros [|y m] H; [reflexivity|specialize (H 0); discriminate|specialize (H 0); discriminate|].
  pose proof (H 0) as E. cbn in E. injection E as ->. f_equal. apply IH. intros t. exact (H (Datatypes.S t)).
Qed.

Lemma firstn_agree {X} n (l m : list X) : agree (fun t => t < n) l m -> firstn n l = firstn n m.
Proof.
  intros H. apply nth_ext. intros t. destruct (Nat.lt_ge_cases t n) as [L|L].
  - rewrite !nth_error_firstn by exact L. now apply H.
  - transitivity (@None X); [|symmetry]; apply nth_error_None; rewrite firstn_length; lia.
Qed.

Lemma agree_firstn {X} n (l m : list X) : firstn n l = firstn n m -> agree (fun t => t < n) l m.
Proof. intros H t L. rewrite <- (nth_error_firstn l n t L), <- (nth_error_firstn m n t L). now rewrite H. Qed.

(* all tensors have a vector for every position of the longest sentence *)
Definition lengths {X} (n : nat) (r : dict (list X)) : Prop := forall k v, dict_get r k = Some v -> length v = n.

Lemma lengths_set {X} n (r : dict (list X)) k v : lengths n r -> length v = n -> lengths n (dict_set r k v).
Proof.
  intros H Hv j x. destruct (str_eqb k j) eqn:E.
  - apply str_eqb_eq in E. subst j. rewrite dict_get_set_same. intros E. now injection E as <-.
  - apply str_eqb_neq in E. rewrite dict_get_set_other by exact E. apply H.
Qed.

Lemma bilstm_length (ls : list (lstm A)) len xs : length (bilstm_layer ls len xs) = length xs.
Proof.
  destruct ls as [|l ls]; cbn [bilstm_layer]; [reflexivity|].
  transitivity (length (bidirectional l len xs)); [|apply bidirectional_length].
  generalize (bidirectional l len xs). induction ls as [|l' ls IH]; intros ys; cbn [fold_left]; [reflexivity|].
  etransitivity; [apply IH|]. etransitivity; [apply map2_length|].
  etransitivity; [apply f_equal2; [reflexivity|apply bidirectional_length]|]. apply Nat.min_id.
Qed.

Lemma skip_lengths n sk name (xs ws : list vec) r : length xs = n -> length ws = n -> lengths n r -> lengths n (with_skip sk name xs ws r).
Proof.
  intros H1 H2 H3. destruct sk as [[|]|]; cbn [with_skip skip]; [| |exact H3]; apply lengths_set; try exact H3;
    rewrite map2_length, H1, H2; apply Nat.min_id.
Qed.

Lemma build_words_lengths (fs : list (str * feature A W)) b s : In s b -> lengths (longest_sentence b) (build_words fs b s).
Proof.
  intros H. unfold build_words. apply lengths_set; [|now apply words_length].
  assert (lengths (longest_sentence b) (@nil (str * list vec))) as E by (intros k v K; discriminate). revert E.
  generalize (@nil (str * list vec)).
  induction fs as [|nf fs IH]; intros r E; cbn [fold_left]; [exact E|]. apply IH. apply lengths_set; [exact E|]. now apply feature_length.
Qed.

Lemma build_shared_lengths (e : encoder A) (fs : list (str * feature A W)) b s : In s b ->
  lengths (longest_sentence b) (build_shared e fs b s).
Proof.
  intros H. pose proof (build_words_lengths fs b s H) as HW. pose proof (words_length fs b s H) as HL.
  assert (forall layers sk, lengths (longest_sentence b) (build_bilstm layers sk fs b s)) as HB.
  { intros layers sk. unfold build_bilstm. apply skip_lengths; [now rewrite bilstm_length|exact HL|]. apply lengths_set; [exact HW|].
    now rewrite bilstm_length. }
  destruct e as [|layers sk|layers sk ks|ks sk]; cbn [build_shared].
  - exact HW.
  - apply HB.
  - apply lengths_set; [apply HB|]. rewrite map_length. pose proof (HB layers sk) as K.
    destruct (dict_get (build_bilstm layers sk fs b s) n_bilstm_words) as [xs|] eqn:E1; [exact (K _ _ E1)|].
    destruct (dict_get (build_bilstm layers sk fs b s) n_bilstm) as [xs|] eqn:E2; [exact (K _ _ E2)|].
    exfalso. unfold build_bilstm in E2. destruct sk as [sk|]; cbn [with_skip] in E2.
    + rewrite dict_get_set_other in E2 by (vm_compute; congruence). rewrite dict_get_set_same in E2. discriminate.
    + rewrite dict_get_set_same in E2. discriminate.
  - apply skip_lengths; [now rewrite conv_layers_length|exact HL|]. apply lengths_set; [exact HW|]. now rewrite conv_layers_length.
Qed.

Lemma task_output_length (t : task A W) r b s o : In s b -> lengths (longest_sentence b) r -> task_output t r b s = Ok o ->
  length o = longest_sentence b.
Proof.
  intros Hs Hr. pose proof (longest_sentence_le b s Hs) as L.
  destruct t as [name heads rules|name ids_of row d n reduce ks finish]; cbn [task_output].
  - destruct (dict_get r name) as [v|] eqn:E; cbn [of_option bind]; [|discriminate]. apply Hr in E.
    destruct rules as [[n allowed]|]; intros K; injection K as <-.
    + rewrite map2_length, pad_to_length, map_length, E. lia.
    + now rewrite map_length.
  - destruct (dict_get r name) as [v|] eqn:E; cbn [of_option bind]; [|discriminate]. apply Hr in E.
    intros K; injection K as <-. unfold padded_subwords. rewrite map2_length, pad_to_length, map_length, E. lia.
Qed.

Lemma predict_lengths (n : net A W) b s os : In s b -> predict_sentence n b s = Ok os ->
  Forall (fun o => length o = longest_sentence b) os.
Proof.
  intros Hs. unfold predict_sentence. pose proof (build_shared_lengths (n_encoder n) (n_features n) b s Hs) as L.
  revert os. induction (n_tasks n) as [|t ts IH]; intros os; cbn [mapM].
  - intros E. injection E as <-. constructor.
  - destruct (task_output t _ b s) as [o|e] eqn:E; cbn [bind]; [|discriminate].
    destruct (mapM _ ts) as [os'|e] eqn:E'; cbn [bind]; [|discriminate]. intros K. injection K as <-. constructor.
    + exact (task_output_length t _ b s o Hs L E).
    + now apply IH.
Qed.

(* ---------- batches without Dilated_CNN ---------- *)

Definition net_ok (n : net A W) (b b' : list (list W)) : Prop :=
  same_widths (n_features n) b b' /\ Forall (task_ok b b') (n_tasks n).

Lemma alone_shared (e : encoder A) (fs : list (str * feature A W)) b s : In s b -> same_widths fs b [s] ->
  (forall ks sk, e <> Dilated_CNN ks sk) ->
  agree_dict (fun t => t < length s) (build_shared e fs b s) (build_shared e fs [s] s).
Proof.
  intros Hs Hw Hd. assert (In s [s]) as Hs' by now left.
  assert (forall t, t < length s -> t < length s /\ nth_error s t = nth_error s t) as HP by auto.
  assert (forall layers sk, agree_dict (fun t => t < length s) (build_bilstm layers sk fs b s) (build_bilstm layers sk fs [s] s)) as HB.
  { intros layers sk. apply (build_bilstm_agree _ b [s] s s Hs Hs' HP layers sk fs _ _ Hw eq_refl eq_refl).
    apply agree_firstn. pose proof (longest_sentence_le b s Hs).
    rewrite !bilstm_firstn by (rewrite words_length by assumption; rewrite ?longest_alone; lia).
    f_equal. apply firstn_agree. now apply words_agree. }
  destruct e as [|layers sk|layers sk ks|ks sk]; cbn [build_shared].
  - now apply build_words_agree.
  - apply HB.
  - apply build_cnn_agree. apply HB.
  - exfalso. exact (Hd ks sk eq_refl).
Qed.

Lemma alone_sentence (n : net A W) b s os : In s b -> net_ok n b [s] -> (forall ks sk, n_encoder n <> Dilated_CNN ks sk) ->
  predict_sentence n b s = Ok os -> predict_sentence n [s] s = Ok (map (firstn (length s)) os).
Proof.
  intros Hs [Hw Ht] Hd E. assert (In s [s]) as Hs' by now left.
  pose proof (predict_agree (fun t => t < length s) b [s] s s) as K.
  specialize (K (fun t L => conj L eq_refl) n Ht (alone_shared _ _ b s Hs Hw Hd)). rewrite E in K.
  destruct (predict_sentence n [s] s) as [os'|e] eqn:E'; [|contradiction]. f_equal.
  pose proof (predict_lengths n [s] s os' Hs' E') as L. rewrite longest_alone in L. clear E E'.
  induction K as [|o o' os os' Ho _ IH]; [reflexivity|]. inversion L as [|? ? Lo Los]; subst. cbn [map]. f_equal.
  - rewrite (firstn_agree _ _ _ Ho). symmetry. apply firstn_all2. lia.
  - exact (IH Los).
Qed.

Lemma mapM_nth {X Y} (f : X -> result Y) : forall l r i x, mapM f l = Ok r -> nth_error l i = Some x ->
  exists y, nth_error r i = Some y /\ f x = Ok y.
Proof.
  induction l as [|a l IH]; intros r [|i] x E Hx; try discriminate; cbn [mapM] in E; destruct (f a) as [y|e] eqn:Ea; cbn [bind] in E;
    try discriminate; destruct (mapM f l) as [ys|e] eqn:El; cbn [bind] in E; try discriminate; injection E as <-.
  - injection Hx as <-. exists y. auto.
  - exact (IH ys i x eq_refl Hx).
Qed.

Lemma predict_alone (n : net A W) b i s outs : nth_error b i = Some s -> net_ok n b [s] ->
  (forall ks sk, n_encoder n <> Dilated_CNN ks sk) -> predict n b = Ok outs ->
  exists o, nth_error outs i = Some o /\ predict n [s] = Ok [map (firstn (length s)) o].
Proof.
  intros Hi Hn Hd E. pose proof (nth_error_In _ _ Hi) as Hs. unfold predict in *.
  destruct (mapM_nth _ _ _ _ _ E Hi) as (o & Ho & Eo). exists o. split; [exact Ho|].
  cbn [mapM]. rewrite (alone_sentence n b s o Hs Hn Hd Eo). reflexivity.
Qed.

(* ---------- windows ---------- *)

Lemma window_shared (e : encoder A) (fs : list (str * feature A W)) b b' s s' t back forth : In s b -> In s' b' ->
  same_widths fs b b' -> window e back forth -> t + forth < length s ->
  (forall p, t <= p + back -> p <= t + forth -> nth_error s p = nth_error s' p) ->
  agree_dict (fun p => p = t) (build_shared e fs b s) (build_shared e fs b' s').
Proof.
  intros Hs Hs' Hw Hwin Ht H.
  assert (forall p, p = t -> p < length s /\ nth_error s p = nth_error s' p) as HP.
  { intros p ->. split; [lia|]. apply H; lia. }
  destruct Hwin as [|ks sk]; cbn [build_shared].
  - now apply build_words_agree.
  - assert (agree (fun p => p = t) (conv_layers ks (word_features fs b s)) (conv_layers ks (word_features fs b' s'))) as HC.
    { intros p ->. apply conv_layers_local. intros p H1 H2.
      refine (words_agree (fun p => t <= p + looks_back ks /\ p <= t + looks_ahead ks) b b' s s' Hs Hs' _ fs Hw p (conj H1 H2)).
      intros q [H3 H4]. split; [lia|]. now apply H. }
    apply skip_agree; [exact HC|now apply words_agree|]. apply agree_set; [|exact HC]. now apply build_words_agree.
Qed.

Lemma predict_window (n : net A W) b b' i i' s s' t back forth outs outs' : nth_error b i = Some s -> nth_error b' i' = Some s' ->
  net_ok n b b' -> window (n_encoder n) back forth -> t + forth < length s ->
  (forall p, t <= p + back -> p <= t + forth -> nth_error s p = nth_error s' p) ->
  predict n b = Ok outs -> predict n b' = Ok outs' ->
  exists o o', nth_error outs i = Some o /\ nth_error outs' i' = Some o' /\ Forall2 (fun x x' => nth_error x t = nth_error x' t) o o'.
Proof.
  intros Hi Hi' [Hw Htk] Hwin Ht H E E'. pose proof (nth_error_In _ _ Hi) as Hs. pose proof (nth_error_In _ _ Hi') as Hs'.
  unfold predict in *. destruct (mapM_nth _ _ _ _ _ E Hi) as (o & Ho & Eo). destruct (mapM_nth _ _ _ _ _ E' Hi') as (o' & Ho' & Eo').
  exists o, o'. split; [exact Ho|]. split; [exact Ho'|].
  pose proof (predict_agree (fun p => p = t) b b' s s') as K.
  assert (forall p, p = t -> p < length s /\ nth_error s p = nth_error s' p) as HP.
  { intros p ->. split; [lia|]. apply H; lia. }
  specialize (K HP n Htk (window_shared _ _ b b' s s' t back forth Hs Hs' Hw Hwin Ht H)). rewrite Eo, Eo' in K.
  clear -K. induction K as [|x x' o o' Hx _ IH]; constructor; [now apply Hx|exact IH].
Qed.

End Networks.
