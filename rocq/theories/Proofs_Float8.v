(* Averages over seeds in floating point. *)
From Coq Require Import String Ascii ZArith NArith QArith Qabs Lia Lqa Bool List Setoid Morphisms.
From Verif Require Import Base BaseFacts Model_Datamodel Model_Conllu Model_UDEval Model_Harness Model_Float Spec_UDEval Spec_Harness Spec_Float
  Proofs_UDEval Proofs_UDEval2 Proofs_UDEval3 Proofs_UDEval4 Proofs_UDEval5 Proofs_UDEval6 Proofs_UDEval7 Proofs_UDEval8
  Proofs_Harness Proofs_Harness5 Proofs_Float Proofs_Float2 Proofs_Float3 Proofs_Float4 Proofs_Float5 Proofs_Float6.
Import ListNotations.
Open Scope Q_scope.

Local Notation total := Spec_UDEval.total.
Definition empty_sums : fl_sums := mkFlSums None None None None.

Lemma fl_add_table_get (ms : list str) (t : table) : NoDup ms -> forall all,
  (forall m, In m ms -> exists u, dict_get all m = Some u) -> (forall m, In m ms -> exists s, dict_get t m = Some s) ->
  exists all', fl_add_table ms all (Some t) = Ok all' /\
    (forall k u s, In k ms -> dict_get t k = Some s -> dict_get all k = Some u -> dict_get all' k = Some (fl_add_score u s)) /\
    (forall k, ~ In k ms -> dict_get all' k = dict_get all k).
Proof.
  induction ms as [|m ms IH]; intros ND all HA HT.
  - exists all. split; [reflexivity|]. split; [intros k u s [] | auto].
  - inversion ND as [|? ? Nm ND']; subst.
    unfold fl_add_table. cbn [foldM]. destruct (HA m (or_introl eq_refl)) as (u & Eu). destruct (HT m (or_introl eq_refl)) as (s & Es).
    rewrite Eu. cbn [of_option bind]. rewrite Es. cbn [of_option bind].
    destruct (IH ND' (dict_set all m (fl_add_score u s))) as (all' & E & G & N).
    + intros m' Im. destruct (list_eq_dec N.eq_dec m m') as [<-|D].
      * rewrite dict_get_set_same. eauto.
      * rewrite dict_get_set_other by auto. apply HA. right. auto.
    + intros m' Im. apply HT. right. auto.
    + exists all'. split; [exact E|]. split.
      * intros k u' s' [<- | Ik] Ek Eu'.
        -- rewrite N by exact Nm. rewrite dict_get_set_same. congruence.
        -- apply G; auto. rewrite dict_get_set_other by (intros ->; contradiction). exact Eu'.
      * intros k Nk. rewrite N by (intro X; apply Nk; now right). apply dict_get_set_other. intros ->. apply Nk. now left.
Qed.

Lemma fl_tables_get (ms : list str) (ts : list table) : NoDup ms -> forall all,
  (forall m, In m ms -> exists u, dict_get all m = Some u) ->
  (forall t m, In t ts -> In m ms -> exists s, dict_get t m = Some s) ->
  exists all', foldM (fl_add_table ms) all (map Some ts) = Ok all' /\
    forall k u ss, In k ms -> dict_get all k = Some u -> scores_for k ts ss -> dict_get all' k = Some (fold_left fl_add_score ss u).
Proof.
  intro ND. induction ts as [|t ts IH]; intros all HA HT.
  - exists all. split; [reflexivity|]. intros k u ss Ik E S0. inversion S0; subst. exact E.
  - cbn [map foldM]. destruct (fl_add_table_get ms t ND all HA (fun m => HT t m (or_introl eq_refl))) as (all1 & E1 & G1 & _).
    rewrite E1. cbn [bind]. destruct (IH all1) as (all' & E & G).
    + intros m Im. destruct (HA m Im) as (u & Eu). destruct (HT t m (or_introl eq_refl) Im) as (s & Es). rewrite (G1 _ _ _ Im Es Eu). eauto.
    + intros t' m It. apply HT. right. auto.
    + exists all'. split; [exact E|]. intros k u ss Ik Eu S0. inversion S0 as [|? s ? ss' S1 S2]; subst. cbn [fold_left].
      apply G; auto.
Qed.

Lemma fl_start_get (ms : list str) m : In m ms -> dict_get (dict_update [] (map (fun m => (m, empty_sums)) ms)) m = Some empty_sums.
Proof.
  assert (G : forall ms d, (In m ms \/ dict_get d m = Some empty_sums) -> dict_get (dict_update d (map (fun m => (m, empty_sums)) ms)) m = Some empty_sums).
  { clear. induction ms as [|m' ms IH]; intros d H; cbn [map].
    - destruct H as [[]|H]. exact H.
    - change (dict_update d ((m', empty_sums) :: map (fun m => (m, empty_sums)) ms)) with (dict_update (dict_set d m' empty_sums) (map (fun m => (m, empty_sums)) ms)).
      apply IH. destruct (list_eq_dec N.eq_dec m' m) as [->|N]; [right; apply dict_get_set_same|].
      destruct H as [[H|H]|H]; [congruence|auto|]. right. rewrite dict_get_set_other by auto. auto. }
  intros Im. apply G. auto.
Qed.

(* the sums of the fields *)
Definition field_sum (qs : list Q) : option number := match qs with [] => None | _ => Some (num_sum Float qs) end.

Lemma field_sum_snoc qs q : field_sum (qs ++ [q]) = fl_plus (field_sum qs) q.
Proof.
  unfold field_sum, fl_plus, num_sum. destruct qs as [|x qs]; [reflexivity|].
  rewrite <- app_comm_cons. rewrite app_comm_cons, fold_left_app. reflexivity.
Qed.

Lemma fold_scores ss vs : map s_aligned ss = map Some vs ->
  fold_left fl_add_score ss empty_sums =
  mkFlSums (field_sum (map s_precision ss)) (field_sum (map s_recall ss)) (field_sum (map s_f1 ss)) (field_sum vs).
Proof.
  revert vs. induction ss as [|s ss IH] using rev_ind; intros vs H.
  - destruct vs; [reflexivity | discriminate].
  - destruct vs as [|v vs _] using rev_ind; [rewrite map_app in H; destruct (map s_aligned ss); discriminate|].
    rewrite !map_app in H. cbn [map] in H. apply app_inj_tail in H. destruct H as [H1 H2].
    rewrite fold_left_app, (IH vs H1), !map_app. cbn [map fold_left fl_add_score fs_p fs_r fs_f fs_a].
    unfold fl_add_score. cbn [fs_p fs_r fs_f fs_a]. rewrite H2, !field_sum_snoc. reflexivity.
Qed.

Definition fmean (vs : list Q) : Q := value (num_div (num_sum Float vs) (Int (zlen vs))).

Lemma fl_averages metrics ts : NoDup metrics -> ts <> [] ->
  (forall t m, In t ts -> In m metrics -> exists s q, dict_get t m = Some s /\ s_aligned s = Some q) ->
  exists out, fl_average_scores metrics (map Some ts) = Ok out /\
    forall m ss, In m metrics -> scores_for m ts ss -> exists s, dict_get out m = Some s /\
      forall a vs, Forall2 (attribute a) ss vs -> attribute a s (fmean vs).
Proof.
  intros ND Nt HT.
  destruct (fl_tables_get metrics ts ND (dict_update [] (map (fun m => (m, empty_sums)) metrics))) as (all & E & G).
  { intros m Im. exists empty_sums. now apply fl_start_get. }
  { intros t m It Im. destruct (HT t m It Im) as (s & q & Es & _). eauto. }
  unfold fl_average_scores.
  match goal with |- context [bind ?x _] => assert (E2 : x = Ok all) by exact E; rewrite E2; clear E2 end. cbn [bind].
  match goal with |- context [fl_mean_of ?n _] => assert (Zt : n = zlen ts) by (unfold zlen; now rewrite map_length); rewrite Zt; clear Zt end.
  assert (Row : forall m, In m metrics -> exists ss vs u s, scores_for m ts ss /\ map s_aligned ss = map Some vs /\ dict_get all m = Some u /\
     fl_mean_of (zlen ts) u = Ok s /\ s = mkScore (fmean (map s_precision ss)) (fmean (map s_recall ss)) (fmean (map s_f1 ss)) (Some (fmean vs))).
  { intros m Im. destruct (scores_for_exists m ts) as (ss & vs & S0 & Al); [intros t It; now apply HT|].
    pose proof (G m empty_sums ss Im (fl_start_get metrics m Im) S0) as Gm. rewrite (fold_scores ss vs Al) in Gm.
    assert (Ls : length ss = length ts) by (clear - S0; induction S0; cbn; congruence).
    assert (Lv : length vs = length ts) by (apply (f_equal (@length _)) in Al; rewrite !map_length in Al; congruence).
    exists ss, vs. eexists. eexists. split; [exact S0|]. split; [exact Al|]. split; [exact Gm|].
    unfold fl_mean_of. cbn [fs_p fs_r fs_f fs_a]. unfold field_sum.
    destruct ss as [|s0 ss]; [destruct ts; [congruence | discriminate]|].
    destruct vs as [|v0 vs]; [destruct ts; [congruence | discriminate]|].
    split; [reflexivity|]. unfold fmean. 
    assert (Zl : forall l : list Q, length l = length ts -> zlen l = zlen ts) by (intros; unfold zlen; congruence).
    rewrite !Zl by (rewrite ?map_length; assumption). reflexivity. }
  assert (Fold : forall ms out, (forall m, In m ms -> In m metrics) ->
     exists out', foldM (fun out m => do u <- of_option EKey (dict_get all m); do s <- fl_mean_of (zlen ts) u; Ok (dict_set out m s)) out ms = Ok out' /\
       (forall m u s, In m ms -> dict_get all m = Some u -> fl_mean_of (zlen ts) u = Ok s -> dict_get out' m = Some s) /\
       (forall m, ~ In m ms -> dict_get out' m = dict_get out m)).
  { induction ms as [|m ms IH]; intros out H.
    - exists out. split; [reflexivity|]. split; [intros m u s [] | auto].
    - destruct (Row m (H m (or_introl eq_refl))) as (ss & vs & u & s & _ & _ & Eu & Es & _). cbn [foldM]. rewrite Eu. cbn [of_option bind].
      rewrite Es. cbn [bind]. destruct (IH (dict_set out m s) (fun m' Im => H m' (or_intror Im))) as (out' & E' & G' & N').
      exists out'. split; [exact E'|]. split.
      + intros k u' s' Ik Eu' Es'. destruct (in_dec (list_eq_dec N.eq_dec) k ms) as [J|J]; [now apply (G' k u')|].
        destruct Ik as [<-|Ik]; [|contradiction]. rewrite N' by exact J. rewrite dict_get_set_same. congruence.
      + intros k Nk. rewrite N' by (intro X; apply Nk; now right). apply dict_get_set_other. intros ->. apply Nk. now left. }
  destruct (Fold metrics [] (fun m Im => Im)) as (out & E' & G' & _). exists out. split; [exact E'|].
  intros m ss Im S0. destruct (Row m Im) as (ss' & vs & u & s & S' & Al & Eu & Es & ->).
  assert (ss' = ss) as ->.
  { clear - S0 S'. revert ss' S'. induction S0 as [|t s ts ss E S0 IH]; intros ss' S'; inversion S'; subst; [reflexivity|]. f_equal; [congruence | auto]. }
  eexists. split; [exact (G' m u _ Im Eu Es)|].
  intros a ws F. destruct a.
  - assert (ws = map s_precision ss) as -> by (clear - F; induction F as [|? ? ? ? A F IH]; [reflexivity|]; inversion A; subst; cbn; congruence).
    apply at_precision.
  - assert (ws = map s_recall ss) as -> by (clear - F; induction F as [|? ? ? ? A F IH]; [reflexivity|]; inversion A; subst; cbn; congruence).
    apply at_recall.
  - assert (ws = map s_f1 ss) as -> by (clear - F; induction F as [|? ? ? ? A F IH]; [reflexivity|]; inversion A; subst; cbn; congruence).
    apply at_f1.
  - assert (ws = vs) as ->.
    { clear - F Al. revert vs Al. induction F as [|? ? ? ? A F IH]; intros [|v vs] Al; try discriminate; [reflexivity|].
      cbn [map] in Al. injection Al as A1 A2. inversion A; subst. f_equal; [congruence | auto]. }
    apply at_aligned. reflexivity.
Qed.

(* ---- the mean of a list ---- *)

Lemma zlen_pos {A} (l : list A) : l <> [] -> 0 < inject_Z (zlen l).
Proof. intro N. change 0 with (inject_Z 0). rewrite <- Zlt_Qlt. unfold zlen. destruct l; [congruence | cbn [length]; lia]. Qed.

Lemma fmean_eq vs : vs <> [] -> (zlen vs <= 9007199254740992)%Z -> fmean vs == to_double (fsum (fun v => v) vs / inject_Z (zlen vs)).
Proof.
  intros N B. destruct (num_sum_kind (fun v => v) vs) as [K V]. unfold fmean.
  assert (Z0 : (0 <= zlen vs)%Z) by (unfold zlen; lia).
  assert (D : to_double (inject_Z (zlen vs)) == inject_Z (zlen vs)) by (apply to_double_exact, double_Z; lia).
  change (num_sum Float vs) with (num_sum (fun v => Float v) vs).
  destruct (as_float_value _ K) as [A _].
  assert (F : value (num_div (num_sum (fun v => Float v) vs) (Int (zlen vs)))
              == to_double (as_float (num_sum (fun v => Float v) vs) / as_float (Int (zlen vs)))).
  { destruct vs as [|v vs]; [congruence|].
    assert (X : exists q, num_sum (fun v => Float v) (v :: vs) = Float q).
    { unfold num_sum. cbn [fold_left]. cbn [num_add]. generalize (to_double (as_float (Int 0) + as_float (Float v))). intro q0. clear.
      revert q0. induction vs as [|w vs IH]; intro q0; [eexists; reflexivity|]. cbn [fold_left num_add]. apply IH. }
    destruct X as (q & ->). reflexivity. }
  rewrite F. cbn [as_float]. rewrite A, V, D. reflexivity.
Qed.

Lemma fsum_from_bound vs : Forall unit_interval vs -> forall t k, (0 <= k)%Z -> (k + zlen vs <= 9007199254740992)%Z -> 0 <= t -> t <= inject_Z k ->
  0 <= fsum_from (fun v => v) t vs <= inject_Z (k + zlen vs).
Proof.
  induction 1 as [|v vs [V0 V1] F IH]; intros t k K B T0 T1.
  - unfold fsum_from, zlen. cbn. rewrite Z.add_0_r. lra.
  - unfold zlen in *. cbn [length] in *. unfold fsum_from. cbn [fold_left]. change (fold_left _ vs ?t) with (fsum_from (fun v => v) t vs).
    replace (k + Z.of_nat (S (length vs)))%Z with ((k + 1) + Z.of_nat (length vs))%Z in * by lia.
    apply IH; try lia.
    + apply to_double_ge; [apply double_0 | lra].
    + apply to_double_le; [apply double_Z; lia | rewrite inject_Z_plus; change (inject_Z 1) with 1; lra].
Qed.

Lemma fmean_unit vs : vs <> [] -> (zlen vs <= 9007199254740992)%Z -> Forall unit_interval vs -> unit_interval (fmean vs).
Proof.
  intros N B F. unfold unit_interval. rewrite (fmean_eq vs N B). apply to_double_unit.
  pose proof (fsum_from_bound vs F 0 0 ltac:(lia) ltac:(exact B) (Qle_refl 0) (Qle_refl 0)) as H. fold (fsum (fun v => v) vs) in H. rewrite Z.add_0_l in H.
  pose proof (zlen_pos vs N) as P. split.
  - apply Qle_shift_div_l; [exact P | lra].
  - apply Qle_shift_div_r; [exact P | lra].
Qed.

Lemma fsum_from_ones vs : Forall (fun v => v == 1) vs -> forall t k, (0 <= k)%Z -> (k + zlen vs <= 9007199254740992)%Z -> t == inject_Z k ->
  fsum_from (fun v => v) t vs == inject_Z (k + zlen vs).
Proof.
  induction 1 as [|v vs V F IH]; intros t k K B T.
  - unfold fsum_from, zlen. cbn. now rewrite Z.add_0_r.
  - unfold zlen in *. cbn [length] in *. unfold fsum_from. cbn [fold_left]. change (fold_left _ vs ?t) with (fsum_from (fun v => v) t vs).
    replace (k + Z.of_nat (S (length vs)))%Z with ((k + 1) + Z.of_nat (length vs))%Z in * by lia.
    apply IH; try lia. rewrite T, V. change 1 with (inject_Z 1). rewrite <- inject_Z_plus. apply to_double_exact, double_Z. lia.
Qed.

Lemma fmean_ones vs : vs <> [] -> (zlen vs <= 9007199254740992)%Z -> Forall (fun v => v == 1) vs -> fmean vs == 1.
Proof.
  intros N B F. rewrite (fmean_eq vs N B). unfold fsum. rewrite (fsum_from_ones vs F 0 0); [|lia|exact B|reflexivity].
  rewrite Z.add_0_l. pose proof (zlen_pos vs N) as P.
  assert (X : inject_Z (zlen vs) / inject_Z (zlen vs) == 1) by (field; lra). rewrite X. apply to_double_exact, double_1.
Qed.

Lemma fsum_from_zeros vs : Forall (fun v => v == 0) vs -> forall t, t == 0 -> fsum_from (fun v => v) t vs == 0.
Proof.
  induction 1 as [|v vs V F IH]; intros t T; [exact T|]. unfold fsum_from. cbn [fold_left]. apply IH. assert (X : t + v == 0) by lra. rewrite X. apply to_double_exact, double_0.
Qed.

Lemma fmean_zeros vs : vs <> [] -> (zlen vs <= 9007199254740992)%Z -> Forall (fun v => v == 0) vs -> fmean vs == 0.
Proof.
  intros N B F. rewrite (fmean_eq vs N B). unfold fsum. rewrite (fsum_from_zeros vs F 0 ltac:(reflexivity)).
  assert (X : 0 / inject_Z (zlen vs) == 0) by (unfold Qdiv; ring). rewrite X. apply to_double_exact, double_0.
Qed.

Lemma fmean_one v : double v -> fmean [v] == v.
Proof.
  intro D. rewrite fmean_eq; [|discriminate|unfold zlen; cbn; lia]. unfold fsum, fsum_from. cbn [fold_left]. change (inject_Z (zlen [v])) with 1.
  assert (X : to_double (0 + v) == v) by (rewrite Qplus_0_l; now apply to_double_exact). rewrite X.
  assert (Y : v / 1 == v) by field. rewrite Y. now apply to_double_exact.
Qed.

Lemma fmean_two v w : double v -> double w -> lies_between v w (fmean [v; w]).
Proof.
  intros D E.
  assert (H : fmean [v; w] == to_double (v + w) / 2).
  { rewrite fmean_eq; [|discriminate|unfold zlen; cbn; lia]. unfold fsum, fsum_from. cbn [fold_left]. change (inject_Z (zlen [v; w])) with 2.
    assert (X : to_double (0 + v) == v) by (rewrite Qplus_0_l; now apply to_double_exact). rewrite X.
    apply to_double_exact, double_half, double_to_double. }
  unfold lies_between. rewrite H.
  assert (G : forall x y, double x -> double y -> x <= y -> x <= to_double (x + y) / 2 <= y).
  { intros x y Dx Dy L. pose proof (to_double_ge (x + y) (2 * x) (double_twice x Dx) ltac:(lra)).
    pose proof (to_double_le (x + y) (2 * y) (double_twice y Dy) ltac:(lra)). split.
    - apply Qle_shift_div_l; lra.
    - apply Qle_shift_div_r; lra. }
  destruct (Qlt_le_dec w v) as [L | L].
  - right. assert (X : v + w == w + v) by ring. rewrite X. apply G; auto; lra.
  - left. now apply G.
Qed.

Lemma fsum_from_mono vs ws : Forall2 Qle vs ws -> forall t u, t <= u -> fsum_from (fun v => v) t vs <= fsum_from (fun v => v) u ws.
Proof.
  induction 1 as [|v w vs ws L F IH]; intros t u T; [exact T|]. unfold fsum_from. cbn [fold_left]. apply IH. apply to_double_mono. lra.
Qed.

Lemma fmean_mono vs ws : vs <> [] -> (zlen vs <= 9007199254740992)%Z -> Forall2 Qle vs ws -> fmean vs <= fmean ws.
Proof.
  intros N B F. assert (L : zlen ws = zlen vs) by (unfold zlen; f_equal; clear - F; induction F; cbn; congruence).
  rewrite (fmean_eq vs N B). rewrite (fmean_eq ws); [|intros ->; inversion F; congruence|lia]. rewrite L. apply to_double_mono.
  unfold Qdiv. apply Qmult_le_compat_r; [|pose proof (zlen_pos vs N); apply Qinv_le_0_compat; lra].
  apply fsum_from_mono; [exact F | lra].
Qed.

Lemma fmean_error vs : vs <> [] -> (zlen vs <= 9007199254740992)%Z -> Forall unit_interval vs ->
  Qabs (fmean vs - meanq vs) <= inject_Z (zlen vs + 2) * eps.
Proof.
  intros N B F. rewrite (fmean_eq vs N B). pose proof (zlen_pos vs N) as P.
  set (l := map (fun v => (v, v)) vs).
  assert (Zl : zlen l = zlen vs) by (unfold zlen, l; now rewrite map_length).
  assert (El : forall p, In p l -> 0 <= fst p <= 1 /\ 0 <= snd p <= 1 /\ Qabs (snd p - fst p) <= eps).
  { intros p Ip. apply in_map_iff in Ip. destruct Ip as (v & <- & Iv). rewrite Forall_forall in F. pose proof (F v Iv) as U. cbn [fst snd].
    split; [exact U|]. split; [exact U|]. assert (X : v - v == 0) by ring. rewrite X. cbn. pose proof eps_pos. lra. }
  pose proof (proj2 (fsum_error l ltac:(rewrite Zl; exact B) El)) as E. rewrite Zl in E.
  unfold l in E. rewrite fsum_map in E. cbn [snd] in E.
  assert (T : total fst (map (fun v : Q => (v, v)) vs) == sumq vs).
  { clear. induction vs as [|v vs IH]; [reflexivity|]. cbn [map sumq]. rewrite total_cons, IH. reflexivity. }
  rewrite T in E. set (S0 := fsum (fun x => x) vs) in *.
  pose proof (fsum_from_bound vs F 0 0 ltac:(lia) ltac:(exact B) (Qle_refl 0) (Qle_refl 0)) as H. fold (fsum (fun v => v) vs) in H. fold S0 in H.
  rewrite Z.add_0_l in H. set (n := inject_Z (zlen vs)) in *. set (x := S0 / n).
  assert (X : x * n == S0) by (unfold x; field; lra).
  pose proof (to_double_err x) as R. fold eps in R. pose proof eps_pos as Ep.
  assert (U : 0 <= x <= 1) by (unfold x; split; [apply Qle_shift_div_l | apply Qle_shift_div_r]; lra).
  rewrite (Qabs_pos x) in R by lra.
  assert (M : meanq vs * n == sumq vs) by (unfold meanq; fold (zlen vs); fold n; field; lra).
  apply Qabs_Qle_condition in E. apply Qabs_Qle_condition in R. apply Qabs_Qle_condition.
  rewrite inject_Z_plus in E. fold n in E. change (inject_Z 1) with 1 in E. rewrite inject_Z_plus. fold n. change (inject_Z 2) with 2.
  set (m := meanq vs) in *.
  assert (D : (n + 1) * eps >= x - m /\ x - m >= - ((n + 1) * eps)).
  { assert (E1 : (x - m) * n == S0 - sumq vs) by (rewrite <- M, <- X; ring). split.
    - destruct (Qlt_le_dec ((n + 1) * eps) (x - m)) as [K | K]; [exfalso | lra]. nra.
    - destruct (Qlt_le_dec (x - m) (- ((n + 1) * eps))) as [K | K]; [exfalso | lra]. nra. }
  split; nra.
Qed.
