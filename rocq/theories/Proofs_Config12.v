(* Configurations: the initial values of the matrices. *)
From Coq Require Import String Ascii ZArith NArith QArith Bool List Lia Permutation.
From Verif Require Import Base BaseFacts Proofs_Datamodel Model_Datamodel Spec_Datamodel Model_Vocab Model_Lemma Model_Features Spec_Features Model_Builder Spec_Builder
  Proofs_Features Proofs_Features5 Proofs_Features6 Proofs_Builder3 Proofs_Builder5 Model_Neural Spec_Neural Spec_Gold Proofs_Gold Proofs_Gold2 Model_Network Spec_Network Proofs_Network Proofs_Network2 Proofs_Network3
  Model_Config Spec_Config Proofs_Config Proofs_Config2 Proofs_Config3 Proofs_Config4 Proofs_Config5 Proofs_Config6 Proofs_Config7 Proofs_Config8 Proofs_Config9 Proofs_Config10.
Import ListNotations.
Open Scope Z_scope.

(* ---- initial values of merged builders ---- *)
Lemma parts_initial_total B (cls : B -> Z) (wrap : B -> builder B) T (init : B -> result (dict T)) bs l b es :
  (forall x, buildable (wrap x) /\ exists ws, leaves (wrap x) = [(ws, x)]) -> (forall x, initial B T init (wrap x) = init x) ->
  (forall x d, init x = Ok d -> dict_ok d) -> bs <> [] -> parts B wrap bs l -> merge_builders B cls bs = Ok b ->
  Forall2 (fun x e => init x = Ok e) l es -> NoDup (flat_map dict_keys es) ->
  exists d, initial B T init b = Ok d /\ dict_ok d /\ Permutation d (concat es).
Proof.
  intros Wo Wi Io Ne P Em F N.
  assert (Pb : Forall buildable bs) by (apply (parts_buildable _ _ Wo _ _ P)).
  destruct (merge_initial' B cls T init Io bs Ne Pb) as (b' & Em' & Tot). rewrite Em in Em'. injection Em' as <-.
  assert (X : exists ds, Forall2 (fun c d => initial B T init c = Ok d) bs ds /\ concat ds = concat es /\ flat_map dict_keys ds = flat_map dict_keys es).
  { clear Ne Pb Em Tot N. revert es F. induction P as [|bs l P IH|x bs l P IH]; intros es F.
    - inversion F; subst. exists []. auto.
    - destruct (IH es F) as (ds & F' & E & E'). exists ([] :: ds). split; [constructor; auto; reflexivity|auto].
    - inversion F as [|? e ? es' Hx Hl]; subst. destruct (IH es' Hl) as (ds & F' & E & E'). exists (e :: ds). split; [constructor; auto; rewrite Wi; auto|]. cbn [concat flat_map]. split; congruence. }
  destruct X as (ds & Fd & Ec & Ek).
  destruct (Tot ds Fd) as (d & Ed & _).
  - rewrite <- Ek in N. clear -N. intros i j d e k Hi Hj Hd He. revert i j Hi Hj. induction ds as [|d0 ds IH]; intros i j Hi Hj; [destruct i; discriminate|].
    cbn [flat_map] in N. apply NoDup_app_iff in N. destruct N as (N1 & N2 & N3).
    assert (Out : forall n x, nth_error ds n = Some x -> In k (dict_keys x) -> In k (dict_keys d0) -> False).
    { intros n x Hn Hx H0. apply (N3 k H0). apply in_flat_map. exists x. split; auto. eapply nth_error_In; eauto. }
    destruct i as [|i], j as [|j]; cbn [nth_error] in *.
    + reflexivity.
    + injection Hi as <-. exfalso. eauto.
    + injection Hj as <-. exfalso. eauto.
    + f_equal. eauto.
  - exists d. split; auto. destruct (parts_initial B cls wrap Wo T init bs l b d Io Ne P Em Ed) as (Od & es' & F' & Pm). split; auto.
    assert (es' = es) as <-; auto. clear -F F'. revert es' F'. induction F; intros es' F'; inversion F'; subst; auto. f_equal; [congruence|auto].
Qed.

(* ---- the vectors of a file ---- *)
Section Files.
Variables (V : Type) (to_float : str -> result V) (zero : V).

Lemma rows_distinct first lines w2i h n rows : 2 <= first -> build_embeddings V to_float zero first lines = Ok (w2i, (h, Some n), Ok rows) -> NoDup (map fst rows).
Proof.
  intros F2 H. unfold build_embeddings in H. apply bind_ok_iff in H. destruct H as ([vecs sz] & R & H).
  destruct (read_spec _ _ _ _ _ R) as (O & _). cbn [fst snd] in H. assert (Nv := number_numbered first (dict_keys vecs) O).
  injection H as <- <- -> Hr. unfold initial_values in Hr. cbn [of_option bind] in Hr. injection Hr as <-. cbn [map fst]. constructor.
  - rewrite map_map. cbn [fst]. intros J. apply in_map_iff in J. destruct J as ([w v] & E & J). cbn [fst] in E. apply (nb_range _ _ Nv) in E. unfold PADDING in E. lia.
  - rewrite map_map. cbn [fst]. change (map (fun x => dict_get (number_from first (dict_keys vecs)) (fst x)) vecs) with (map (fun x => (fun w => dict_get (number_from first (dict_keys vecs)) w) (fst x)) vecs).
    rewrite <- map_map. fold (dict_keys vecs). unfold dict_ok in O.
    assert (G : forall l, NoDup l -> incl l (dict_keys vecs) -> NoDup (map (fun w => dict_get (number_from first (dict_keys vecs)) w) l)).
    { induction l as [|w l IH]; intros D I; cbn [map]; [constructor|]. inversion D as [|? ? D1 D2]; subst. constructor; [|apply IH; auto; intros x J; apply I; right; auto].
      intros J. apply in_map_iff in J. destruct J as (w' & E & J). destruct (dict_get (number_from first (dict_keys vecs)) w) as [i|] eqn:Ew.
      - assert (w' = w) by (eapply (nb_inj _ _ Nv); eauto). subst. contradiction.
      - apply (proj2 (number_mem first _ w O)); [apply I; left; reflexivity|exact Ew]. }
    apply G; [exact O|apply incl_refl].
Qed.

Lemma file_rows first lines w2i h n rows : 2 <= first -> 0 < n -> build_embeddings V to_float zero first lines = Ok (w2i, (h, Some n), rows) ->
  exists ps, (do r <- rows; numbered_rows V r) = Ok ps /\ NoDup (map fst ps) /\ In (0, repeat zero (Z.to_nat n)) ps /\
    (forall r v, In (r, v) ps -> 0 <= r < h /\ zlen v = n) /\
    (forall w vec, last_vector to_float lines w vec <-> exists i, dict_get w2i w = Some i /\ In (i, vec) ps) /\
    (forall i vec, In (i, vec) ps -> i <> 0 -> exists w, dict_get w2i w = Some i).
Proof.
  intros F2 Pn E. destruct (embeddings_spec V to_float zero first lines w2i h (Some n) rows F2 E) as (Wm & Wr & Wi & Le & Ln).
  assert (Hne : lines <> []) by (intros ->; vm_compute in E; discriminate E).
  destruct (Ln Hne) as (n' & vs & En & -> & Zv & Wd & Iv). injection En as <-. pose proof (rows_distinct _ _ _ _ _ _ F2 E) as Nd.
  assert (X : forall l, (forall r v, In (r, v) l -> exists i : Z, r = Some i) -> exists ps, numbered_rows V l = Ok ps /\ map (fun iv => (Some (fst iv), snd iv)) ps = l).
  { clear. induction l as [|[r v] l IH]; intros H; [exists []; auto|]. destruct (H r v (or_introl eq_refl)) as (i & ->). destruct IH as (ps & E & El); [intros; eapply H; right; eauto|].
    exists ((i, v) :: ps). unfold numbered_rows in *. cbn [mapM fst snd of_option bind]. rewrite E. cbn [bind map fst snd]. split; congruence. }
  destruct (X ((Some 0, repeat zero (Z.to_nat n)) :: vs)) as (ps & Ep & El).
  { intros r v [J|J]; [injection J as <- _; eauto|]. apply Iv in J. destruct J as (w & i & -> & _). eauto. }
  assert (Inp : forall i v, In (i, v) ps <-> In (Some i, v) ((Some 0, repeat zero (Z.to_nat n)) :: vs)).
  { intros i v. rewrite <- El. rewrite in_map_iff. split; [intros J; exists (i, v); auto|]. intros ([i' v'] & E' & J). cbn [fst snd] in E'. injection E' as -> ->. exact J. }
  exists ps. split; [exact Ep|]. split; [|split; [|split; [|split]]].
  - rewrite <- El, map_map in Nd. cbn [fst] in Nd. rewrite <- (map_map fst Some) in Nd. apply NoDup_map_inv in Nd. exact Nd.
  - apply Inp. left. reflexivity.
  - intros r v J. apply Inp in J. unfold zlen in Zv. destruct J as [J|J].
    + injection J as <- <-. unfold zlen. rewrite repeat_length. lia.
    + split; [|eauto]. apply Iv in J. destruct J as (w & i & E' & Hi & _). injection E' as ->. apply Wr in Hi. lia.
  - intros w vec. split.
    + intros L. destruct (dict_get w2i w) as [i|] eqn:Ei.
      * exists i. split; auto. apply Inp. right. apply Iv. eauto.
      * exfalso. apply (proj2 (Wm w)); [|exact Ei]. destruct L as (b & line & a & Hl & (nums & Hs & _) & _). exists line. split; [rewrite Hl; apply in_app_iff; right; left; reflexivity|]. rewrite Hs. reflexivity.
    + intros (i & Hi & J). apply Inp in J. destruct J as [J|J].
      * injection J as <- _. apply Wr in Hi. lia.
      * apply Iv in J. destruct J as (w' & i' & E' & Hi' & L). injection E' as <-. rewrite (Wi w w' i Hi Hi'). exact L.
  - intros i vec J N0. apply Inp in J. destruct J as [J|J]; [injection J as <- _; congruence|]. apply Iv in J. destruct J as (w & i' & E' & Hi & _). injection E' as <-. eauto.
Qed.
End Files.

(* ---- every file is written ---- *)
Definition writes (p : str) (inits : list (initializer tensor nat)) : Prop := exists ix vs up, In (IMatrix p ix vs up) inits.
Lemma writes_incl p l l' : incl l l' -> writes p l -> writes p l'.
Proof. intros I (ix & vs & up & J). exists ix, vs, up. auto. Qed.

Lemma steps_run shapes inputs l : forall g r is g' r' is', foldM (run_step shapes inputs) (g, r, is) l = Ok (g', r', is') ->
  incl is is' /\ forall f, In f l -> exists g0 g1 nt i, f shapes inputs g0 = Ok (g1, nt, i) /\ incl i is'.
Proof.
  induction l as [|f l IH]; intros g r is g' r' is' E; cbn [foldM] in E.
  - injection E as <- <- <-. split; [apply incl_refl|intros f []].
  - apply bind_ok_iff in E. destruct E as ([[g1 r1] i1] & E1 & E). unfold run_step in E1 at 1. apply bind_ok_iff in E1. destruct E1 as ([[g0 nt] i] & E0 & E1). injection E1 as <- <- <-.
    destruct (IH _ _ _ _ _ _ E) as [I H]. apply incl_app_inv in I. destruct I as [I1 I2]. split; auto. intros f' [<-|J]; eauto 8.
Qed.

Lemma add_layer_same name s : snd (add_layer name s) = snd s.
Proof. destruct s as [[g r] i]. reflexivity. Qed.
Lemma add_skip_same name sk s s' : add_skip name sk s = Ok s' -> snd s' = snd s.
Proof.
  destruct sk as [|same| |]; cbn [add_skip]; intros E; try discriminate.
  - injection E as <-. reflexivity.
  - destruct same; cbn [negb raise_if bind] in E; [|discriminate]. injection E as <-. apply add_layer_same.
  - injection E as <-. apply add_layer_same.
Qed.

Lemma words_write shapes inputs g g1 nt i : words_step shapes inputs g = Ok (g1, nt, i) -> writes n_word_embeddings i.
Proof.
  intros E. unfold words_step in E. apply bind_ok_iff in E. destruct E as (ids & E1 & E).
  apply bind_ok_iff in E. destruct E as (sh & E2 & E). apply bind_ok_iff in E. destruct E as (rows & E3 & E). apply bind_ok_iff in E. destruct E as (cols & E4 & E).
  apply bind_ok_iff in E. destruct E as ([g0 e] & E5 & E). cbn [fst snd] in E. unfold matrix_initializer, layer, placeholder in E. injection E as _ _ <-. eexists _, _, _. left. reflexivity.
Qed.
Lemma subwords_write name c lines shapes inputs g g1 nt i : sw_source c = Pretrained lines -> subwords_step name c shapes inputs g = Ok (g1, nt, i) -> writes name i.
Proof.
  intros Es E. unfold subwords_step in E. apply bind_ok_iff in E. destruct E as (ids & E1 & E).
  apply bind_ok_iff in E. destruct E as (sh & E2 & E). apply bind_ok_iff in E. destruct E as (rows & E3 & E). rewrite Es in E.
  apply bind_ok_iff in E. destruct E as (cols & E4 & E). apply bind_ok_iff in E. destruct E as ([g0 e] & E5 & E). cbn [fst snd] in E.
  unfold matrix_initializer, layer, placeholder in E. injection E as _ _ <-. eexists _, _, _. left. reflexivity.
Qed.

Lemma shared_writes k fc shapes inputs g g' r inits p first lines : shared_build k fc shapes inputs g = Ok (g', r, inits) ->
  configured_file fc [] p first lines -> writes p inits.
Proof.
  intros E C. unfold shared_build in E. apply bind_ok_iff in E. destruct E as ([[g1 r1] i1] & E1 & E).
  assert (Ei : inits = i1).
  { destruct k as [|layers sk|layers sk|kernels sk].
    - injection E as _ _ <-. reflexivity.
    - apply bind_ok_iff in E. destruct E as (u & _ & E). apply add_skip_same in E. rewrite add_layer_same in E. exact E.
    - apply bind_ok_iff in E. destruct E as (u & _ & E). apply bind_ok_iff in E. destruct E as (s' & E2 & E). apply add_skip_same in E2. rewrite add_layer_same in E2.
      injection E as E. apply (f_equal snd) in E. rewrite add_layer_same in E. cbn [snd] in *. congruence.
    - apply bind_ok_iff in E. destruct E as (u & _ & E). apply add_skip_same in E. rewrite add_layer_same in E. exact E. }
  subst i1. clear E. unfold shared_layers in E1. apply bind_ok_iff in E1. destruct E1 as ([[g0 r0] i0] & E0 & E1). apply bind_ok_iff in E1. destruct E1 as (lens & _ & E1).
  apply steps_run in E0. destruct E0 as [_ H]. unfold layer, placeholder in E1. apply bind_ok_iff in E1. destruct E1 as (u & _ & E1). injection E1 as _ _ <-.
  assert (Sub : forall c name, sw_source c = Pretrained lines -> In (subwords_step name c) (shared_steps fc) -> writes name i0).
  { intros c name Es J. destruct (H _ J) as (ga & gb & nt & i & Er & Inc). eapply writes_incl; [exact Inc|]. eapply subwords_write; eauto. }
  destruct C as [(-> & _ & lc & Ew)|[(-> & _ & c & Ec & Es)|[(-> & _ & c & Ec & Es)|[(-> & _ & c & Ec & Es)|(tc & [] & _)]]]].
  - assert (J : In words_step (shared_steps fc)) by (unfold shared_steps; rewrite Ew; apply in_app_iff; left; left; reflexivity).
    destruct (H _ J) as (ga & gb & nt & i & Er & Inc). eapply writes_incl; [exact Inc|]. eapply words_write; eauto.
  - apply (Sub c); auto. unfold shared_steps. rewrite Ec, !in_app_iff. right. right. left. left. reflexivity.
  - apply (Sub c); auto. unfold shared_steps. rewrite Ec, !in_app_iff. right. right. right. left. left. reflexivity.
  - apply (Sub c); auto. unfold shared_steps. rewrite Ec, !in_app_iff. right. right. right. right. left. reflexivity.
Qed.

Lemma tasks_write stack_dict shapes shi sh l : forall ts g b g' b', mapM (make_task stack_dict) l = Ok ts -> foldM (build_task shapes shi sh) (g, b) ts = Ok (g', b') ->
  incl (b_inits b) (b_inits b') /\ forall tc c lines, In tc l -> tc_kind tc = lemma_combo -> tc_input tc = Some c -> sw_source c = Pretrained lines -> writes n_input (b_inits b').
Proof.
  induction l as [|tc l IH]; intros ts g b g' b' Em E; cbn [mapM] in Em.
  - injection Em as <-. cbn [foldM] in E. injection E as <- <-. split; [apply incl_refl|intros ? ? ? []].
  - apply bind_ok_iff in Em. destruct Em as (t & Et & Em). apply bind_ok_iff in Em. destruct Em as (ts' & Em & H). injection H as <-.
    cbn [foldM] in E. apply bind_ok_iff in E. destruct E as ([g1 b1] & E1 & E). destruct (IH _ _ _ _ _ Em E) as [I H].
    unfold build_task in E1. apply bind_ok_iff in E1. destruct E1 as ([ga d1] & Ea & E1). cbn [fst snd] in E1. apply bind_ok_iff in E1. destruct E1 as ([gb d2] & Eb & E1). cbn [fst snd] in E1.
    apply bind_ok_iff in E1. destruct E1 as (dr & _ & E1). apply bind_ok_iff in E1. destruct E1 as ([gc [[o lo] x]] & Ec & E1). cbn [fst snd] in E1.
    apply bind_ok_iff in E1. destruct E1 as (is & Ex & E1). injection E1 as <- <-. cbn [b_inits] in *. apply incl_app_inv in I. destruct I as [I1 I2].
    split; auto. intros tc' c lines [<-|J] Ek Ei Es; [|eauto]. clear IH H Em E. destruct tc as [kind sn ws rules inp out]. cbn [tc_kind tc_input] in Ek, Ei. subst kind inp.
    unfold make_task in Et. cbn [tc_kind tc_rules tc_input tc_output tc_weights tc_shared_name of_option bind] in Et.
    apply bind_ok_iff in Et. destruct Et as ([[th seg] mx] & Eo & Et).
    apply bind_ok_iff in Et. destruct Et as (w & Ew & Et). apply bind_ok_iff in Et. destruct Et as (u & _ & Et). injection Et as <-. cbn [k_build] in Ec.
    unfold combo_build in Ec. apply bind_ok_iff in Ec. destruct Ec as (u' & _ & Ec). apply bind_ok_iff in Ec. destruct Ec as (ids & _ & Ec). apply bind_ok_iff in Ec. destruct Ec as (ish & _ & Ec).
    apply bind_ok_iff in Ec. destruct Ec as (rows & _ & Ec). apply bind_ok_iff in Ec. destruct Ec as ([ge e] & _ & Ec). rewrite Es in Ec. cbn [fst snd] in Ec.
    unfold matrix_initializer, layer, placeholder in Ec. apply bind_ok_iff in Ec. destruct Ec as (osh & _ & Ec). apply bind_ok_iff in Ec. destruct Ec as (n & _ & Ec). apply bind_ok_iff in Ec. destruct Ec as (lab & _ & Ec).
    injection Ec as _ _ _ <-. cbn [of_option] in Ex. injection Ex as <-. eapply writes_incl; [exact I2|]. eexists _, _, _. left. reflexivity.
Qed.

Section SetUp.
Variables (V : Type) (to_float : str -> result V) (zero : V) (lower : str -> str) (stack_dict : result unit).
Notation train_set_up := (train_set_up V to_float zero lower stack_dict).

Lemma set_up_writes known k fc tcs ds su p first lines : train_set_up known k fc tcs ds = Ok su -> configured_file fc tcs p first lines -> writes p (n_initializers (su_network su)).
Proof.
  intros E C. unfold Model_Config.train_set_up in E. apply bind_ok_iff in E. destruct E as (tasks & Et & E).
  destruct (feature_providers (make_shared k fc) tasks) as [ps sb] eqn:Ep.
  assert (Esb : sb = mkShared ps (s_inputs (make_shared k fc)) (s_build (make_shared k fc))) by (unfold feature_providers in Ep; injection Ep as <- <-; reflexivity).
  apply bind_ok_iff in E. destruct E as (fb & Ef & E). apply bind_ok_iff in E. destruct E as (lb & El & E).
  apply bind_ok_iff in E. destruct E as (fsh & Efs & E). apply bind_ok_iff in E. destruct E as (lsh & Els & E).
  apply bind_ok_iff in E. destruct E as (shapes & Esh & E). apply bind_ok_iff in E. destruct E as ([net g] & Eb & E). injection E as <-. cbn [fst snd su_network] in *.
  assert (Eb' : build hyper_placeholders sum_losses (optimize known) operation (make_shared k fc) tasks shapes empty_graph = Ok (net, g)) by (rewrite Esb in Eb; exact Eb).
  clear Eb Ef El Efs Els Esh. unfold build in Eb'. destruct (hyper_placeholders empty_graph) as [g0 [dr lr]] eqn:Eh. cbn [fst snd make_shared s_inputs s_build] in Eb'.
  destruct (placeholders_of (shared_placeholders fc) g0) as [g1 shi]. cbn [bind fst snd] in Eb'.
  apply bind_ok_iff in Eb'. destruct Eb' as ([g2 [sh shin]] & Es & E). cbn [fst snd] in E. apply bind_ok_iff in Es. destruct Es as ([[g2' sh'] shin'] & Es & H). injection H as -> -> ->.
  apply bind_ok_iff in E. destruct E as ([g3 b] & Eb & E). cbn [fst snd] in E. destruct (tasks_write _ _ _ _ _ _ _ _ _ _ Et Eb) as [_ Hw].
  destruct (b_losses b) as [|l0 ls]; [discriminate|]. destruct (sum_losses (l0 :: ls) g3) as [g4 loss].
  apply bind_ok_iff in E. destruct E as (lr' & _ & E). apply bind_ok_iff in E. destruct E as ([g5 op] & Eo & E). cbn [fst snd] in E. destruct (operation g5) as [g6 init]. injection E as <- _. cbn [n_initializers].
  assert (W : writes p (shin ++ b_inits b)).
  { destruct C as [C|[C|[C|[C|(tc & It & Ek & -> & _ & c & Ec & Ecs)]]]].
    - eapply writes_incl; [apply incl_appl, incl_refl|]. eapply (shared_writes _ _ _ _ _ _ _ _ p first lines Es). left. exact C.
    - eapply writes_incl; [apply incl_appl, incl_refl|]. eapply (shared_writes _ _ _ _ _ _ _ _ p first lines Es). right. left. exact C.
    - eapply writes_incl; [apply incl_appl, incl_refl|]. eapply (shared_writes _ _ _ _ _ _ _ _ p first lines Es). right. right. left. exact C.
    - eapply writes_incl; [apply incl_appl, incl_refl|]. eapply (shared_writes _ _ _ _ _ _ _ _ p first lines Es). right. right. right. left. exact C.
    - eapply writes_incl; [apply incl_appr, incl_refl|]. eapply Hw; eauto. }
  eapply writes_incl; [|exact W]. apply incl_tl, incl_refl.
Qed.
End SetUp.
