(* Feeding a network and its copy, initialization, building. *)
From Coq Require Import String Ascii ZArith NArith Bool List Lia.
From Verif Require Import Base BaseFacts Model_Network Spec_Network Proofs_Network.
Import ListNotations.
Open Scope Z_scope.

(* ------------------------------------------------------------------ *)
(* A network and its copy are fed alike                                *)

Section Alike.
Context {T T' V : Type} (tname : T -> str) (tname' : T' -> str) (teqb : T -> T -> bool) (teqb' : T' -> T' -> bool)
        (D : identity_test teqb) (D' : identity_test teqb') (A : list T) (A' : list T')
        (I : forall a b, In a A -> In b A -> tname a = tname b -> a = b)
        (I' : forall a b, In a A' -> In b A' -> tname' a = tname' b -> a = b).

Definition alike (f : feed T V) (f' : feed T' V) : Prop :=
  Forall2 (fun tv tv' => tname (fst tv) = tname' (fst tv') /\ snd tv = snd tv') f f'
  /\ incl (map fst f) A /\ incl (map fst f') A'.

Lemma alike_set f f' t t' v : alike f f' -> In t A -> In t' A' -> tname t = tname' t' ->
  alike (feed_set teqb f t v) (feed_set teqb' f' t' v).
Proof.
  intros (F & B & B') J J' Q. induction F as [|[a x] [a' x'] f f' [E1 E2] F IH].
  - split; [constructor; [auto|constructor]|]. split; intros z [<-|[]]; auto.
  - cbn [fst snd map] in *. cbn [feed_set].
    assert (X : teqb t a = teqb' t' a').
    { destruct (teqb t a) eqn:E; destruct (teqb' t' a') eqn:E'; auto.
      - apply D in E. subst a. assert (t' = a'). { apply I'; auto. apply B'; left; auto. congruence. }
        apply D' in H. congruence.
      - apply D' in E'. subst a'. assert (t = a). { apply I; auto. apply B; left; auto. congruence. }
        apply D in H. congruence. }
    rewrite <- X. destruct (teqb t a).
    + split; [constructor; auto|]. auto.
    + destruct IH as (G & C & C').
      * intros z Z. apply B. right; auto.
      * intros z Z. apply B'. right; auto.
      * split; [constructor; auto|]. split; intros z [<-|Z]; auto.
        -- apply B; left; auto.
        -- apply B'; left; auto.
Qed.

Lemma alike_fill keys keys' (values : dict V) : same_dict tname tname' keys keys' ->
  incl (map snd keys) A -> incl (map snd keys') A' -> forall f f', alike f f' ->
  match fill_from teqb keys f values, fill_from teqb' keys' f' values with
  | Ok r, Ok r' => alike r r'
  | Err e, Err e' => e = e'
  | _, _ => False
  end.
Proof.
  intros S B B'. unfold fill_from. induction values as [|[k v] values IH]; intros f f' F; cbn [foldM fst snd]; [exact F|].
  assert (G : match dict_get keys k, dict_get keys' k with
              | Some t, Some t' => tname t = tname' t' /\ In t A /\ In t' A'
              | None, None => True
              | _, _ => False end).
  { clear IH F. induction S as [|[a x] [a' x'] ks ks' [E1 E2] S IH]; cbn [dict_get]; auto. cbn [fst snd map] in *. subst a'.
    destruct (str_eqb k a).
    - split; [auto|]. split; [apply B|apply B']; left; auto.
    - apply IH; intros z Z; [apply B|apply B']; right; auto. }
  destruct (dict_get keys k) as [t|], (dict_get keys' k) as [t'|]; try contradiction; cbn [of_option bind]; auto.
  destruct G as (Q & J & J'). apply IH. apply alike_set; auto.
Qed.

Lemma alike_merge h h' : alike h h' -> forall f f', alike f f' ->
  alike (fold_left (fun acc tv => feed_set teqb acc (fst tv) (snd tv)) h f)
        (fold_left (fun acc tv => feed_set teqb' acc (fst tv) (snd tv)) h' f').
Proof.
  intros (F & B & B'). induction F as [|[a x] [a' x'] h h' [E1 E2] F IH]; intros f f' G; cbn [fold_left]; auto.
  cbn [fst snd map] in *. subst x'. apply IH.
  - intros z Z. apply B; right; auto.
  - intros z Z. apply B'; right; auto.
  - apply alike_set; auto; [apply B|apply B']; left; auto.
Qed.
End Alike.

Lemma feed_alike {T O T' O' V} (tname : T -> str) (oname : O -> str) (tname' : T' -> str) (oname' : O' -> str)
      (teqb : T -> T -> bool) (teqb' : T' -> T' -> bool) (n : network T O) (n' : network T' O') (input : dict V) gold :
  identity_test teqb -> identity_test teqb' ->
  (forall a b, In a (tensors_of n) -> In b (tensors_of n) -> tname a = tname b -> a = b) ->
  (forall a b, In a (tensors_of n') -> In b (tensors_of n') -> tname' a = tname' b -> a = b) ->
  same_network tname oname tname' oname' n n' ->
  match get_feed_dict teqb n input gold, get_feed_dict teqb' n' input gold with
  | Ok f, Ok f' => Forall2 (fun tv tv' => tname (fst tv) = tname' (fst tv') /\ snd tv = snd tv') f f'
  | Err e, Err e' => e = e'
  | _, _ => False
  end.
Proof.
  intros D D' I I' (S1 & S2 & S3 & _).
  assert (B1 : incl (map snd (n_inputs n)) (tensors_of n)) by (intros x J; unfold tensors_of; rewrite !in_app_iff; auto).
  assert (B1' : incl (map snd (n_inputs n')) (tensors_of n')) by (intros x J; unfold tensors_of; rewrite !in_app_iff; auto).
  assert (B3 : incl (map snd (n_gold n)) (tensors_of n)) by (intros x J; unfold tensors_of; rewrite !in_app_iff; auto).
  assert (B3' : incl (map snd (n_gold n')) (tensors_of n')) by (intros x J; unfold tensors_of; rewrite !in_app_iff; auto).
  assert (Z : alike (V := V) tname tname' (tensors_of n) (tensors_of n') [] []).
  { split; [constructor|]. split; intros x []. }
  unfold get_feed_dict.
  pose proof (alike_fill tname tname' teqb teqb' D D' _ _ I I' _ _ input S1 B1 B1' [] [] Z) as X.
  unfold fill_from in X. fold (fill_dict teqb (n_inputs n) input) in X. fold (fill_dict teqb' (n_inputs n') input) in X.
  destruct (fill_dict teqb (n_inputs n) input) as [f|e], (fill_dict teqb' (n_inputs n') input) as [f'|e'];
    try contradiction; cbn [bind]; auto.
  destruct gold as [g|]; [|apply X].
  pose proof (alike_fill tname tname' teqb teqb' D D' _ _ I I' _ _ g S3 B3 B3' [] [] Z) as Y.
  unfold fill_from in Y. fold (fill_dict teqb (n_gold n) g) in Y. fold (fill_dict teqb' (n_gold n') g) in Y.
  destruct (fill_dict teqb (n_gold n) g) as [h|e], (fill_dict teqb' (n_gold n') g) as [h'|e'];
    try contradiction; cbn [bind]; auto.
  eapply alike_merge; eauto.
Qed.

(* ------------------------------------------------------------------ *)
(* Initialization                                                      *)

Section Init.
Context {T O M V : Type} (meqb : M -> M -> bool) (D : identity_test meqb) (matrix : T -> M) (fresh : store M V).

Lemma write_rows_other m rvs : forall (st : store M V) m' r, (m' <> m \/ ~ In r (map fst rvs)) ->
  fold_left (write_row meqb m) rvs st m' r = st m' r.
Proof.
  induction rvs as [|[r0 v0] rvs IH]; intros st m' r H; auto. cbn [fold_left]. rewrite IH.
  - unfold write_row. cbn [fst snd]. destruct (meqb m' m) eqn:E; auto. apply D in E. destruct H as [H|H]; [congruence|].
    cbn [map fst In] in H. destruct (r =? r0) eqn:E2; auto. apply Z.eqb_eq in E2. subst. tauto.
  - destruct H as [H|H]; auto. cbn [map fst In] in H. tauto.
Qed.

Lemma write_rows_in m rvs : NoDup (map fst rvs) -> forall (st : store M V) r v, In (r, v) rvs ->
  fold_left (write_row meqb m) rvs st m r = v.
Proof.
  induction rvs as [|[r0 v0] rvs IH]; intros N st r v J; [destruct J|]. cbn [map fst] in N. inversion N; subst.
  cbn [fold_left]. destruct J as [J|J].
  - injection J as -> ->. rewrite write_rows_other by auto. unfold write_row. cbn [fst snd].
    assert (E : meqb m m = true) by (apply D; auto). rewrite E, Z.eqb_refl. reflexivity.
  - apply IH; auto.
Qed.

Lemma combine_unzip {A B} (l : list (A * B)) : combine (map fst l) (map snd l) = l.
Proof. induction l as [|[a b] l IH]; auto. cbn [map combine fst snd]. rewrite IH. reflexivity. Qed.

Lemma unzip_ok {A B} (l : list (A * B)) r : unzip l = Ok r -> combine (fst r) (snd r) = l /\ l <> [].
Proof.
  destruct l as [|x l]; [discriminate|]. cbn [unzip]. intros H. injection H as <-. cbn [fst snd].
  split; [apply (combine_unzip (x :: l))|discriminate].
Qed.

(* the initializers of matrices only *)
Lemma matrices_store params (l : list (initializer T O)) : only_matrices l -> NoDup (written matrix l) ->
  (forall p ps, dict_get params p = Some ps -> NoDup (map fst ps)) ->
  forall rs, init_calls params l = (rs, None) ->
  (forall p ix vs up, In (IMatrix p ix vs up) l -> exists ps, dict_get params p = Some ps /\ ps <> [])
  /\ forall (st : store M V) m r,
      fold_left (apply_run meqb matrix fresh) rs st m r
      = match find (fun i => match i with IGlobal _ => false | IMatrix _ _ _ up => meqb m (matrix up) end) l with
        | Some (IMatrix p _ _ _) =>
            match dict_get params p with
            | Some ps => match find (fun rv => r =? fst rv) ps with Some rv => snd rv | None => st m r end
            | None => st m r
            end
        | _ => st m r
        end.
Proof.
  intros O1 ND NP. induction l as [|i l IH]; intros rs H.
  - cbn [init_calls] in H. injection H as <-. split; [intros p ix vs up []|]. reflexivity.
  - inversion O1; subst. destruct i as [|p ix vs up]; [contradiction|]. cbn [written flat_map app] in ND.
    inversion ND as [|? ? N0 ND']; subst. cbn [init_calls] in H. unfold init_call in H.
    destruct (dict_get params p) as [ps|] eqn:E; cbn [of_option bind] in H; [|discriminate].
    destruct (unzip ps) as [rv|] eqn:E2; cbn [bind] in H; [|discriminate].
    destruct (init_calls params l) as [rs' e'] eqn:E3. injection H as <- ->.
    destruct (unzip_ok _ _ E2) as [C NE]. destruct (IH H3 ND' rs' eq_refl) as [IH1 IH2]. split.
    + intros p' ix' vs' up' [J|J]; [|eapply IH1; eauto]. injection J as <- <- <- <-. exists ps. auto.
    + intros st m r. cbn [fold_left apply_run find]. rewrite IH2. rewrite C.
      destruct (meqb m (matrix up)) eqn:Em.
      * apply D in Em. subst m. rewrite E.
        destruct (find _ l) as [[|p' ix' vs' up']|] eqn:F.
        -- apply find_some in F. destruct F as [_ F]. discriminate.
        -- exfalso. apply find_some in F. destruct F as [J F]. apply D in F. apply N0. rewrite F. unfold written.
           apply in_flat_map. eexists; split; [exact J|]. left; auto.
        -- destruct (find (fun rv0 => r =? fst rv0) ps) as [[r0 v0]|] eqn:Fr.
           ++ apply find_some in Fr. destruct Fr as [J Q]. cbn [fst] in Q. apply Z.eqb_eq in Q. subst r0.
              cbn [snd]. apply write_rows_in; auto. eapply NP; eauto.
           ++ apply write_rows_other. right. intros J. apply in_map_iff in J. destruct J as ([r0 v0] & Q & J).
              cbn [fst] in Q. subst r0. pose proof (find_none _ _ Fr _ J) as Z. cbn [fst] in Z. apply Z.eqb_neq in Z. auto.
      * assert (X : fold_left (write_row meqb (matrix up)) ps st m r = st m r).
        { apply write_rows_other. left. intros ->. assert (meqb (matrix up) (matrix up) = true) by (apply D; auto). congruence. }
        destruct (find _ l) as [[|p' ix' vs' up']|]; auto. destruct (dict_get params p'); auto.
        destruct (find (fun rv0 => r =? fst rv0) l0); auto.
Qed.

Lemma initialize_store (n : network T O) op l params st0 st :
  n_initializers n = IGlobal op :: l -> only_matrices l -> NoDup (written matrix l) ->
  (forall p ps, dict_get params p = Some ps -> NoDup (map fst ps)) ->
  model_initialize meqb matrix fresh n params st0 = Ok st ->
  (forall p ix vs up r v ps, In (IMatrix p ix vs up) l -> dict_get params p = Some ps -> In (r, v) ps ->
                             st (matrix up) r = v)
  /\ (forall m r, (forall p ix vs up ps v, In (IMatrix p ix vs up) l -> matrix up = m -> dict_get params p = Some ps ->
                                           ~ In (r, v) ps) -> st m r = fresh m r)
  /\ (forall p ix vs up, In (IMatrix p ix vs up) l -> exists ps, dict_get params p = Some ps /\ ps <> []).
Proof.
  intros E O1 ND NP H. unfold model_initialize in H. rewrite E in H. cbn [init_calls init_call] in H.
  destruct (init_calls params l) as [rs e] eqn:C. destruct e; [discriminate|]. injection H as <-.
  cbn [fold_left apply_run]. destruct (matrices_store params l O1 ND NP rs C) as [A B].
  assert (U : forall p ix vs up p' ix' vs' up', In (IMatrix p ix vs up) l -> In (IMatrix p' ix' vs' up') l ->
              matrix up = matrix up' -> p = p').
  { clear - ND. induction l as [|i l IH]; [intros ? ? ? ? ? ? ? ? []|].
    assert (X : forall p ix vs up, In (IMatrix (T := T) (O := O) p ix vs up) l -> In (matrix up) (written matrix l)).
    { intros p ix vs up J. unfold written. apply in_flat_map. eexists; split; [exact J|]. left; auto. }
    destruct i as [|p0 ix0 vs0 up0].
    - cbn [written flat_map app] in ND. intros p ix vs up p' ix' vs' up' [J|J] [J'|J'] Q; try discriminate. eapply IH; eauto.
    - cbn [written flat_map app] in ND. inversion ND as [|? ? N0 ND']; subst.
      intros p ix vs up p' ix' vs' up' [J|J] [J'|J'] Q.
      + congruence.
      + injection J as -> -> -> ->. exfalso. apply N0. rewrite Q. eapply X; eauto.
      + injection J' as -> -> -> ->. exfalso. apply N0. rewrite <- Q. eapply X; eauto.
      + eapply IH; eauto. }
  split; [|split; [|exact A]].
  - intros p ix vs up r v ps J Ep Jr. rewrite B.
    destruct (find _ l) as [[|p' ix' vs' up']|] eqn:F.
    + apply find_some in F. destruct F as [_ F]. discriminate.
    + apply find_some in F. destruct F as [J' F]. apply D in F. assert (p = p') by (eapply U; eauto). subst p'.
      rewrite Ep. destruct (find (fun rv => r =? fst rv) ps) as [[r0 v0]|] eqn:Fr.
      * apply find_some in Fr. destruct Fr as [Jr' Q]. cbn [fst] in Q. apply Z.eqb_eq in Q. subst r0. cbn [snd].
        assert (Np : NoDup (map fst ps)) by (eapply NP; eauto). clear - Np Jr Jr'.
        induction ps as [|[a b] ps IH]; [destruct Jr|]. cbn [map fst] in Np. inversion Np; subst.
        destruct Jr as [Jr|Jr], Jr' as [Jr'|Jr'].
        -- congruence.
        -- injection Jr as -> ->. apply (in_map fst) in Jr'. tauto.
        -- injection Jr' as -> ->. apply (in_map fst) in Jr. tauto.
        -- auto.
      * exfalso. pose proof (find_none _ _ Fr _ Jr) as Z. cbn [fst] in Z. rewrite Z.eqb_refl in Z. discriminate.
    + exfalso. pose proof (find_none _ _ F _ J) as Z. cbn in Z. assert (meqb (matrix up) (matrix up) = true) by (apply D; auto).
      congruence.
  - intros m r Hn. rewrite B. destruct (find _ l) as [[|p' ix' vs' up']|] eqn:F; auto.
    apply find_some in F. destruct F as [J' F]. apply D in F.
    destruct (dict_get params p') as [ps|] eqn:Ep; auto.
    destruct (find (fun rv => r =? fst rv) ps) as [[r0 v0]|] eqn:Fr; auto.
    apply find_some in Fr. destruct Fr as [Jr' Q]. cbn [fst] in Q. apply Z.eqb_eq in Q. subst r0. exfalso.
    eapply Hn; eauto.
Qed.

Lemma init_calls_total params (l : list (initializer T O)) :
  (forall p ix vs up, In (IMatrix p ix vs up) l -> exists ps : list (Z * V), dict_get params p = Some ps /\ ps <> []) ->
  exists rs, init_calls params l = (rs, None).
Proof.
  induction l as [|i l IH]; intros H; [exists []; auto|].
  destruct IH as [rs E]. { intros p ix vs up J. eapply H. right; eauto. }
  cbn [init_calls]. destruct i as [op|p ix vs up]; cbn [init_call].
  - rewrite E. eauto.
  - destruct (H p ix vs up (or_introl eq_refl)) as (ps & Ep & NE). rewrite Ep. cbn [of_option bind].
    destruct ps as [|x ps]; [congruence|]. cbn [unzip bind]. rewrite E. eauto.
Qed.
End Init.

(* ------------------------------------------------------------------ *)
(* Building                                                            *)

Lemma update_get {V} (e d : dict V) k : dict_ok e ->
  dict_get (dict_update d e) k = match dict_get e k with Some v => Some v | None => dict_get d k end.
Proof. intros H. rewrite dict_get_update; auto. Qed.

Lemma last_binding_app {V} (ds es : list (dict V)) k :
  last_binding (ds ++ es) k = match last_binding es k with Some t => Some t | None => last_binding ds k end.
Proof.
  induction ds as [|d ds IH]; cbn [app last_binding].
  - destruct (last_binding es k); auto.
  - rewrite IH. destruct (last_binding es k); auto.
Qed.

Lemma build_tasks {T O G SH P} (shapes : SH) (sh_inputs sh : dict T) dropout (tasks : list (task T O G SH P)) :
  dict_ok sh_inputs -> Forall task_ok tasks ->
  forall g b r, dict_get (b_gold b) n_dropout = Some dropout ->
  foldM (build_task shapes sh_inputs sh) (g, b) tasks = Ok r ->
  exists cs, tasks_called shapes sh_inputs sh dropout g tasks cs (fst r)
    /\ b_losses (snd r) = b_losses b ++ map c_loss cs
    /\ b_inits (snd r) = b_inits b ++ flat_map c_inits cs
    /\ (forall k, dict_get (b_inputs (snd r)) k = match last_binding (map c_inputs cs) k with
                                                  | Some t => Some t | None => dict_get (b_inputs b) k end)
    /\ (forall k, dict_get (b_gold (snd r)) k = match last_binding (map c_gold cs) k with
                                                | Some t => Some t | None => dict_get (b_gold b) k end)
    /\ (forall k, dict_get (b_outputs (snd r)) k = match last_binding (map c_output cs) k with
                                                   | Some t => Some t | None => dict_get (b_outputs b) k end)
    /\ (forall c, In c cs -> ~ In n_dropout (dict_keys (c_gold c)) /\ ~ In n_lr (dict_keys (c_gold c)))
    /\ (dict_ok (b_inputs b) -> dict_ok (b_inputs (snd r)))
    /\ (dict_ok (b_gold b) -> dict_ok (b_gold (snd r)))
    /\ (dict_ok (b_outputs b) -> dict_ok (b_outputs (snd r))).
Proof.
  intros OKs F. induction F as [|t ts (K1 & K2 & K3) F IH]; intros g b r HD H.
  - cbn [foldM] in H. injection H as <-. exists []. cbn [map flat_map last_binding fst snd].
    split; [constructor|]. rewrite !app_nil_r. repeat (split; [auto|]). auto.
  - cbn [foldM] in H. apply bind_ok_iff in H. destruct H as ([g' b'] & H1 & H).
    unfold build_task in H1. cbn [fst snd] in H1.
    apply bind_ok_iff in H1. destruct H1 as ([g1 di] & E1 & H1). cbn [fst snd] in H1.
    apply bind_ok_iff in H1. destruct H1 as ([g2 dg] & E2 & H1). cbn [fst snd] in H1.
    apply bind_ok_iff in H1. destruct H1 as (dp & E3 & H1). cbn [fst snd] in H1.
    apply bind_ok_iff in H1. destruct H1 as ([g3 [[out l] inits]] & E4 & H1). cbn [fst snd] in H1.
    apply bind_ok_iff in H1. destruct H1 as (il & E5 & H1).
    destruct inits as [il'|]; cbn [of_option] in E5; [|discriminate]. injection E5 as ->.
    injection H1 as <- <-.
    destruct (K2 _ _ _ _ E2) as (OKg & Nd & Nl). pose proof (K1 _ _ _ _ E1) as OKi. pose proof (K3 _ _ _ _ _ _ _ _ _ _ E4) as OKo.
    change (of_string "dropout_probability") with n_dropout in Nd. change (of_string "learning_rate") with n_lr in Nl.
    assert (HD' : dict_get (dict_update (b_gold b) dg) n_dropout = Some dropout).
    { rewrite update_get by auto. apply dict_get_None in Nd. rewrite Nd. auto. }
    rewrite HD' in E3. cbn [of_option] in E3. injection E3 as <-.
    pose proof (fun hd => IH _ _ _ hd H) as IH'. cbn [b_losses b_inits b_inputs b_gold b_outputs] in IH'.
    destruct (IH' HD') as (cs & C & L & I & Gi & Gg & Go & NN & Oi & Og & Oo). cbn [b_losses b_inits b_inputs b_gold b_outputs] in *.
    exists (mkContribution di dg out l il :: cs). cbn [map flat_map last_binding c_inputs c_gold c_output c_loss c_inits].
    split.
    { econstructor; cbn [c_inputs c_gold c_output c_loss c_inits]; try eassumption.
      split; [apply dict_update_ok; auto|]. intros k. apply update_get, OKs. }
    split; [rewrite L, <- app_assoc; auto|]. split; [rewrite I, <- app_assoc; auto|].
    split. { intros k. rewrite Gi. destruct (last_binding (map c_inputs cs) k); auto. apply update_get, OKi. }
    split. { intros k. rewrite Gg. destruct (last_binding (map c_gold cs) k); auto. apply update_get, OKg. }
    split. { intros k. rewrite Go. destruct (last_binding (map c_output cs) k); auto. apply update_get, OKo. }
    split. { intros c [<-|J]; auto. }
    repeat split; intros X; [apply Oi|apply Og|apply Oo]; apply dict_update_ok; auto.
Qed.

Lemma last_binding_none {V} (ds : list (dict V)) k : (forall d, In d ds -> ~ In k (dict_keys d)) -> last_binding ds k = None.
Proof.
  induction ds as [|d ds IH]; intros H; auto. cbn [last_binding]. rewrite IH.
  - apply dict_get_None, H. left; auto.
  - intros e J. apply H. right; auto.
Qed.

Lemma last_binding_disjoint {V} (ds : list (dict V)) d k t :
  disjoint_names ds -> In d ds -> dict_get d k = Some t -> last_binding ds k = Some t.
Proof.
  intros F. induction F as [|a ds A F IH]; intros J H; [destruct J|]. cbn [last_binding].
  destruct J as [->|J].
  - rewrite last_binding_none; auto. intros e Je. rewrite Forall_forall in A. apply (A e Je).
    apply dict_get_In in H. apply (in_map fst) in H. exact H.
  - rewrite IH; auto.
Qed.

Lemma build_spec_net {T O G SH P} placeholders sum_losses optimize global_init
      (sb : shared T O G SH P) (tasks : list (task T O G SH P)) (shapes : SH) (g g' : G) n :
  shared_ok sb -> Forall task_ok tasks ->
  build placeholders sum_losses optimize global_init sb tasks shapes g = Ok (n, g') ->
  exists g0 dropout lr g1 sh_inputs g2 sh sh_inits cs g3 g4 g5 init,
    placeholders g = (g0, (dropout, lr))
    /\ s_inputs sb shapes g0 = Ok (g1, sh_inputs)
    /\ s_build sb shapes sh_inputs dropout g1 = Ok (g2, (sh, sh_inits))
    /\ tasks_called shapes sh_inputs sh dropout g2 tasks cs g3
    /\ cs <> []
    /\ sum_losses (map c_loss cs) g3 = (g4, n_loss n)
    /\ optimize (n_loss n) lr g4 = Ok (g5, n_optimizer n)
    /\ global_init g5 = (g', init)
    /\ n_initializers n = IGlobal init :: sh_inits ++ flat_map c_inits cs
    /\ (forall k, dict_get (n_inputs n) k = last_binding (sh_inputs :: map c_inputs cs) k)
    /\ (forall k, dict_get (n_outputs n) k = last_binding (map c_output cs) k)
    /\ (forall k, dict_get (n_gold n) k
                  = if str_eqb k (of_string "dropout_probability") then Some dropout
                    else if str_eqb k (of_string "learning_rate") then Some lr
                    else last_binding (map c_gold cs) k)
    /\ dict_ok (n_inputs n) /\ dict_ok (n_outputs n) /\ dict_ok (n_gold n).
Proof.
  intros OKs F H. unfold build in H. destruct (placeholders g) as [g0 [dropout lr]] eqn:EP. cbn [fst snd] in H.
  apply bind_ok_iff in H. destruct H as ([g1 sh_inputs] & E1 & H). cbn [fst snd] in H.
  apply bind_ok_iff in H. destruct H as ([g2 [sh sh_inits]] & E2 & H). cbn [fst snd] in H.
  apply bind_ok_iff in H. destruct H as ([g3 b] & E3 & H). cbn [fst snd] in H.
  pose proof (OKs _ _ _ _ E1) as OKi.
  pose proof (fun hd => build_tasks shapes sh_inputs sh dropout tasks OKi F _ _ _ hd E3) as BT.
  destruct (BT eq_refl)
    as (cs & C & L & I & Gi & Gg & Go & NN & Oi & Og & Oo).
  cbn [fst snd b_losses b_inits b_inputs b_gold b_outputs app] in *.
  destruct (b_losses b) as [|l0 ls] eqn:EL; [discriminate|].
  destruct (sum_losses (l0 :: ls) g3) as [g4 loss] eqn:ES.
  assert (NL : dict_get (b_gold b) n_lr = Some lr).
  { rewrite Gg. rewrite last_binding_none; [reflexivity|]. intros d J. apply in_map_iff in J. destruct J as (c & <- & J).
    apply (NN c J). }
  assert (ND : dict_get (b_gold b) n_dropout = Some dropout).
  { rewrite Gg. rewrite last_binding_none; [reflexivity|]. intros d J. apply in_map_iff in J. destruct J as (c & <- & J).
    apply (NN c J). }
  rewrite NL in H. cbn [of_option bind] in H.
  apply bind_ok_iff in H. destruct H as ([g5 op] & E5 & H). cbn [fst snd] in H.
  destruct (global_init g5) as [g6 init] eqn:EG. injection H as <- <-.
  cbn [n_loss n_optimizer n_inputs n_outputs n_gold n_initializers].
  exists g0, dropout, lr, g1, sh_inputs, g2, sh, sh_inits, cs, g3, g4, g5, init.
  repeat (split; [first [assumption | reflexivity | idtac]|]); auto.
  - destruct cs; [discriminate|congruence].
  - rewrite <- L. exact ES.
  - rewrite I. reflexivity.
  - intros k. rewrite Gi. cbn [last_binding]. destruct (last_binding (map c_inputs cs) k); auto.
    rewrite update_get by auto. destruct (dict_get sh_inputs k); auto.
  - intros k. rewrite Go. destruct (last_binding (map c_output cs) k); auto.
  - intros k. destruct (str_eqb_spec k (of_string "dropout_probability")) as [->|N1]; [exact ND|].
    destruct (str_eqb_spec k (of_string "learning_rate")) as [->|N2]; [exact NL|].
    rewrite Gg. destruct (last_binding (map c_gold cs) k); auto. cbn [dict_get].
    apply str_eqb_neq in N1. apply str_eqb_neq in N2.
    change n_dropout with (of_string "dropout_probability"). change n_lr with (of_string "learning_rate").
    rewrite N1, N2. reflexivity.
  - apply Oi. apply dict_update_ok. constructor.
  - apply Oo. constructor.
  - apply Og. cbv [dict_ok dict_keys map fst]. constructor; [|constructor; [simpl; tauto|constructor]].
    intros [H|[]]. discriminate H.
Qed.
