(* Merging builders: the basic extractors keep their wrappers, and the features are the same. *)
From Coq Require Import ZArith NArith QArith Bool List Permutation Lia.
From Verif Require Import Base BaseFacts Proofs_Datamodel Model_Vocab Proofs_Vocab Model_Features Proofs_Features Proofs_Features5 Model_Builder
  Spec_Builder Proofs_Builder Proofs_Builder3 Proofs_Builder4.
Import ListNotations.

Lemma mapM_map {A B C} (f : A -> B) (g : B -> result C) l : mapM g (map f l) = mapM (fun x => g (f x)) l.
Proof. induction l as [|x l IH]; cbn [map mapM]; [auto|]. rewrite IH. reflexivity. Qed.

Lemma mapM_perm {A C} (f : A -> result C) l1 l2 : Permutation l1 l2 -> forall r1, mapM f l1 = Ok r1 ->
  exists r2, mapM f l2 = Ok r2 /\ Permutation r1 r2.
Proof.
  induction 1; intros r1 E.
  - exists r1. auto.
  - cbn [mapM] in *. destruct (f x) as [y|]; cbn [bind] in *; [|discriminate].
    destruct (mapM f l) as [r|]; cbn [bind] in *; [|discriminate]. injection E as <-.
    destruct (IHPermutation r eq_refl) as [r2 [-> Hp]]. cbn [bind]. eauto.
  - cbn [mapM] in *. destruct (f x) as [a|], (f y) as [b|]; cbn [bind] in *; try discriminate.
    destruct (mapM f l) as [r|]; cbn [bind] in *; [|discriminate]. injection E as <-. eexists; split; [reflexivity|]. constructor.
  - destruct (IHPermutation1 _ E) as [r2 [E2 P2]]. destruct (IHPermutation2 _ E2) as [r3 [E3 P3]]. exists r3. split; [auto|]. etransitivity; eauto.
Qed.

Lemma concat_perm {A} (l1 l2 : list (list A)) : Permutation l1 l2 -> Permutation (concat l1) (concat l2).
Proof.
  induction 1; cbn [concat]; auto.
  - apply Permutation_app_head; auto.
  - rewrite !app_assoc. apply Permutation_app_tail, Permutation_app_comm.
  - etransitivity; eauto.
Qed.

Lemma dict_ok_perm {V} (d e : dict V) : Permutation d e -> dict_ok d -> dict_ok e.
Proof. unfold dict_ok, dict_keys. intros H. apply Permutation_NoDup. apply Permutation_map. exact H. Qed.

Lemma dict_ok_app {V} (d e : dict V) : dict_ok (d ++ e) -> dict_ok d /\ dict_ok e.
Proof. unfold dict_ok, dict_keys. rewrite map_app, NoDup_app_iff. tauto. Qed.

Lemma mapM_concat {A C} (f : A -> result C) ls rs : Forall2 (fun l r => mapM f l = Ok r) ls rs -> mapM f (concat ls) = Ok (concat rs).
Proof.
  induction 1; cbn [concat]; [reflexivity|]. rewrite mapM_app, H. cbn [bind]. rewrite IHForall2. reflexivity.
Qed.

Section Structure.
Variables (B : Type) (cls : B -> Z).
Definition Qs (bs rs : list (builder B)) : Prop := Permutation (concat (map leaves rs)) (concat (map leaves bs)).

Lemma leaves_single (rs : list (builder B)) : leaves (single B rs) = concat (map leaves rs).
Proof. destruct rs as [|b [|c r]]; cbn [single leaves map concat]; auto. rewrite app_nil_r. reflexivity. Qed.

Lemma leaves_map (f : builder B -> builder B) (w : wrapper) bs : (forall b, leaves (f b) = map (fun wl => (w :: fst wl, snd wl)) (leaves b)) ->
  concat (map leaves (map f bs)) = map (fun wl => (w :: fst wl, snd wl)) (concat (map leaves bs)).
Proof. intros H. induction bs as [|b bs IH]; cbn [map concat]; [auto|]. rewrite map_app, H, IH. reflexivity. Qed.

Lemma leaves_repeat n : concat (map leaves (repeat (BEmpty B) n)) = [].
Proof. induction n; cbn [repeat map concat leaves app]; auto. Qed.

Theorem merge_structure bs : bs <> [] -> Forall buildable bs ->
  exists b, merge_builders B cls bs = Ok b /\ buildable b /\ Permutation (leaves b) (concat (map leaves bs)).
Proof.
  intros Hne Hb. assert (M : exists b, merge B cls (S (bsizes B bs)) bs = Ok b /\ buildable b /\ Qs bs [b]).
  { apply (merge_ok B cls Qs); auto; unfold Qs.
  - intros l. reflexivity.
  - intros a b c d H1 H2. rewrite !map_app, !concat_app. apply Permutation_app; auto.
  - intros a b c H1 H2. rewrite H2. apply concat_perm, Permutation_map. symmetry. exact H1.
  - intros n. rewrite leaves_repeat. constructor.
  - intros n. rewrite leaves_repeat. constructor.
  - intros cs b _ H. rewrite (leaves_map (BPad B) WPad cs) by reflexivity. cbn [map concat leaves] in *. rewrite app_nil_r in *. apply Permutation_map. exact H.
  - intros cs b _ H. rewrite (leaves_map (BSparse B) WSparse cs) by reflexivity. cbn [map concat leaves] in *. rewrite app_nil_r in *. apply Permutation_map. exact H.
  - intros cs b _ H. rewrite (leaves_map (BIter B) WIter cs) by reflexivity. cbn [map concat leaves] in *. rewrite app_nil_r in *. apply Permutation_map. exact H.
  - intros bss b _ H. rewrite H. clear. induction bss as [|bs bss IH]; cbn [map concat leaves]; [auto|].
    rewrite map_app, concat_app. apply Permutation_app_head, IH.
  - intros cs rs _ H. cbn [map concat]. rewrite app_nil_r, leaves_single. exact H. }
  destruct M as [b [E [H1 H2]]]. exists b. split; [exact E|]. split; [exact H1|]. unfold Qs in H2. cbn [map concat] in H2. rewrite app_nil_r in H2. exact H2.
Qed.
End Structure.

Section Features.
Variables (B : Type) (cls : B -> Z) (O : Type) (elements : O -> result (list O)) (basic : B -> O -> result (dict nested)).
Variable sparsify : O -> str -> Q -> nested -> nested.
Hypothesis basic_ok : forall b x d, basic b x = Ok d -> dict_ok d.
Notation features := (features B O elements basic sparsify).

Lemma builder_ind' (P : builder B -> Prop) :
  (forall b, P (BBasic B b)) -> P (BEmpty B) -> (forall b, P b -> P (BPad B b)) -> (forall b, P b -> P (BSparse B b)) ->
  (forall b, P b -> P (BIter B b)) -> (forall bs, Forall P bs -> P (BComp B bs)) -> forall b, P b.
Proof.
  intros H1 H2 H3 H4 H5 H6. fix IH 1. intros [b| |b|b|b|bs]; [apply H1|exact H2|apply H3, IH|apply H4, IH|apply H5, IH|]. apply H6. induction bs; constructor; auto.
Qed.

Lemma features_comp bs rate x : bs <> [] -> features (BComp B bs) rate x =
  match bs with [b] => features b rate x | _ => do ds <- mapM (fun b => features b rate x) bs; merge_dicts ds end.
Proof.
  intros H. destruct bs as [|b [|c bs]]; [congruence|reflexivity|].
  change (features (BComp B (b :: c :: bs)) rate x) with
    (do ds <- (fix go (bs : list (builder B)) : result (list (dict nested)) :=
                 match bs with [] => Ok [] | b :: bs' => do d <- features b rate x; do ds <- go bs'; Ok (d :: ds) end) (b :: c :: bs);
     merge_dicts ds).
  f_equal. generalize (b :: c :: bs) as l. induction l as [|b' l IH]; [reflexivity|]. cbn [mapM]. rewrite IH. reflexivity.
Qed.

Lemma map_keys {V W} (f : str -> V -> W) (d : dict V) : dict_keys (map (fun kv => (fst kv, f (fst kv) (snd kv))) d) = dict_keys d.
Proof. unfold dict_keys. rewrite map_map. reflexivity. Qed.

Lemma pad_values_keys d e : pad_values d = Ok e -> dict_keys e = dict_keys d.
Proof.
  unfold pad_values. intros H. apply (proj1 (mapM_ok _ _ _)) in H. unfold dict_keys. induction H as [|[k v] y d e H _ IH]; cbn [map]; [auto|].
  f_equal; [|exact IH]. cbn [fst snd] in H. destruct (pad_value v); cbn [bind] in H; [|discriminate]. injection H as <-. reflexivity.
Qed.

Lemma features_dict_ok b : forall rate x d, features b rate x = Ok d -> dict_ok d.
Proof.
  induction b as [b| |b IH|b IH|b IH|bs IH] using builder_ind'; intros rate x d.
  - apply basic_ok.
  - intros H; injection H as <-. constructor.
  - cbn [Model_Builder.features]. intros H. apply bind_ok_iff in H as [d0 [H1 H2]]. unfold dict_ok. rewrite (pad_values_keys _ _ H2). eapply IH; eauto.
  - cbn [Model_Builder.features]. intros H. apply bind_ok_iff in H as [d0 [H1 H2]]. injection H2 as <-. unfold dict_ok.
    rewrite (map_keys (fun k v => sparsify x k rate v)). eapply IH; eauto.
  - cbn [Model_Builder.features]. intros H. apply bind_ok_iff in H as [xs [_ H]]. apply bind_ok_iff in H as [ds [_ H]]. injection H as <-.
    unfold dict_ok. rewrite (map_keys (fun _ l => NList l)). apply collect_ok.
  - destruct bs as [|b bs]; [discriminate|]. rewrite features_comp by discriminate. destruct bs as [|c bs].
    + inversion IH; subst. eauto.
    + intros H. apply bind_ok_iff in H as [ds [H1 H2]]. apply mapM_ok in H1.
      assert (Hok : Forall dict_ok ds).
      { clear H2. revert IH. induction H1; intros IH; constructor; inversion IH; subst; eauto. }
      apply merge_dicts_inv in H2 as [-> H2]; auto.
Qed.

Lemma mapM_features_ok bs rate x ds : mapM (fun b => features b rate x) bs = Ok ds -> Forall dict_ok ds.
Proof.
  rewrite mapM_ok. induction 1; constructor; auto. eapply features_dict_ok; eauto.
Qed.

(* the features of a composite *)
Lemma features_comp_inv bs rate x d : bs <> [] -> features (BComp B bs) rate x = Ok d ->
  exists es, mapM (fun b => features b rate x) bs = Ok es /\ d = concat es.
Proof.
  intros Hne. rewrite features_comp by exact Hne. destruct bs as [|b [|c bs]]; [congruence| |].
  - intros E. cbn [mapM]. rewrite E. cbn [bind]. exists [d]. cbn [concat]. rewrite app_nil_r. auto.
  - intros H. apply bind_ok_iff in H as [ds [H1 H2]]. pose proof (mapM_features_ok _ _ _ _ H1) as Hok.
    apply merge_dicts_inv in H2 as [-> _]; auto. eauto.
Qed.
Lemma features_single rs rate x es : rs <> [] -> mapM (fun b => features b rate x) rs = Ok es -> dict_ok (concat es) ->
  features (single B rs) rate x = Ok (concat es).
Proof.
  intros Hne E Hk. pose proof (mapM_features_ok _ _ _ _ E) as Hok. destruct rs as [|b [|c rs]]; [congruence| |].
  - cbn [single mapM] in *. destruct (features b rate x); cbn [bind] in E; [|discriminate]. injection E as <-. cbn [concat]. rewrite app_nil_r. reflexivity.
  - cbn [single]. rewrite features_comp by discriminate. rewrite E. cbn [bind]. apply merge_dicts_ok; auto.
Qed.

Definition Qf (bs rs : list (builder B)) : Prop := forall rate x ds,
  mapM (fun b => features b rate x) bs = Ok ds -> dict_ok (concat ds) ->
  exists es, mapM (fun b => features b rate x) rs = Ok es /\ Permutation (concat es) (concat ds).

Lemma Qf_one bs b : Qf bs [b] -> forall rate x ds, mapM (fun b => features b rate x) bs = Ok ds -> dict_ok (concat ds) ->
  exists e, features b rate x = Ok e /\ Permutation e (concat ds).
Proof.
  intros H rate x ds E Hk. destruct (H rate x ds E Hk) as [es [E2 P]]. cbn [mapM] in E2.
  destruct (features b rate x) as [e|]; cbn [bind] in E2; [|discriminate]. injection E2 as <-. cbn [concat] in P. rewrite app_nil_r in P. eauto.
Qed.

Lemma keys_concat_eq {V W} (ds : list (dict V)) (es : list (dict W)) : Forall2 (fun d e => dict_keys d = dict_keys e) ds es ->
  dict_keys (concat ds) = dict_keys (concat es).
Proof. intros H. rewrite !dict_keys_concat. unfold keys_of. induction H; cbn [map concat]; congruence. Qed.

Lemma mapM_bind {A C D} (f : A -> result C) (g : C -> result D) l r : mapM (fun x => do y <- f x; g y) l = Ok r ->
  exists m, mapM f l = Ok m /\ mapM g m = Ok r.
Proof.
  revert r. induction l as [|x l IH]; intros r E; cbn [mapM] in *.
  - exists []. auto.
  - destruct (f x) as [y|]; cbn [bind] in *; [|discriminate]. destruct (g y) as [z|] eqn:Eg; cbn [bind] in *; [|discriminate].
    destruct (mapM (fun x => do y <- f x; g y) l) as [r'|]; cbn [bind] in *; [|discriminate]. injection E as <-.
    destruct (IH r' eq_refl) as [m [-> Em]]. cbn [bind]. exists (y :: m). cbn [mapM]. rewrite Eg, Em. auto.
Qed.

Lemma pad_values_concat ds es : mapM pad_values ds = Ok es -> pad_values (concat ds) = Ok (concat es).
Proof. intros H. unfold pad_values. apply mapM_concat. apply mapM_ok in H. exact H. Qed.

Lemma hits_none {V} k (fs : list (dict V)) : (forall f, In f fs -> ~ In k (dict_keys f)) -> hits k fs = [].
Proof.
  unfold hits. induction fs as [|f fs IH]; intros H; cbn [map concat]; [auto|]. rewrite (proj2 (dict_get_None f k)) by (apply H; left; auto).
  apply IH. intros; apply H; right; auto.
Qed.

Lemma hits_keys {V} k (fs : list (dict V)) f : In f fs -> In k (dict_keys f) -> hits k fs <> [].
Proof.
  unfold hits. induction fs as [|g fs IH]; intros Hf Hk; [destruct Hf|]. cbn [map concat]. intros E. apply app_eq_nil in E as [E1 E2].
  destruct Hf as [->|Hf]; [|apply IH; auto]. destruct (dict_get f k) eqn:E; [discriminate|]. apply dict_get_None in E. auto.
Qed.

Lemma Qf_iter bs b : bs <> [] -> Qf bs [b] -> Qf (map (BIter B) bs) [BIter B b].
Proof.
  intros Hne H rate x ds E Hk. rewrite mapM_map in E. cbn [mapM Model_Builder.features] in *.
  destruct (elements x) as [xs|e] eqn:Ex; cbn [bind] in *.
  2: { destruct bs as [|b' bs]; [congruence|discriminate]. }
  (* fss: for every builder the features of the elements *)
  apply mapM_ok in E.
  assert (Hfs : exists fss, Forall2 (fun c fs => mapM (features c rate) xs = Ok fs) bs fss /\
      ds = map (fun fs => map (fun kv => (fst kv, NList (snd kv))) (collect fs)) fss).
  { clear -E. induction E as [|c d bs ds H _ [fss [IH1 IH2]]]; [exists []; split; auto|].
    apply bind_ok_iff in H as [fs [H1 H2]]. injection H2 as <-. exists (fs :: fss). split; [constructor; auto|]. rewrite IH2. reflexivity. }
  destruct Hfs as [fss [Hfs ->]]. clear E.
  assert (Hokf : Forall (Forall dict_ok) fss).
  { clear -Hfs basic_ok. induction Hfs as [|c fs bs fss E _ IH]; constructor; auto. apply mapM_ok in E.
    induction E; constructor; auto. eapply features_dict_ok; eauto. }
  assert (Hkc : NoDup (concat (map (fun fs => dict_keys (collect fs)) fss))).
  { unfold dict_ok in Hk. rewrite dict_keys_concat in Hk. unfold keys_of in Hk. rewrite map_map in Hk.
    erewrite map_ext in Hk; [exact Hk|]. intros fs. apply (map_keys (fun _ l => NList l)). }
  (* for every element the merged builder gives the features of all *)
  assert (Hel : exists es, mapM (features b rate) xs = Ok es /\
    Forall2 (fun i e => exists col, Forall2 (fun (fs : list (dict nested)) f => nth_error fs i = Some f) fss col /\ Permutation e (concat col)) (seq 0 (length xs)) es).
  { assert (Hcols : forall i y, nth_error xs i = Some y -> exists col, Forall2 (fun (fs : list (dict nested)) f => nth_error fs i = Some f) fss col /\
                      mapM (fun c => features c rate y) bs = Ok col).
    { intros i y Hy. clear -Hfs Hy. induction Hfs as [|c fs bs fss E _ [col [IH1 IH2]]]; [exists []; split; auto|].
      apply mapM_ok in E. destruct (Forall2_nth _ _ _ _ _ E Hy) as [f [Hf1 Hf2]]. exists (f :: col). split; [constructor; auto|].
      cbn [mapM]. rewrite Hf2, IH2. reflexivity. }
    assert (Hcolok : forall i col, Forall2 (fun (fs : list (dict nested)) f => nth_error fs i = Some f) fss col -> dict_ok (concat col)).
    { intros i col Hc. unfold dict_ok. rewrite dict_keys_concat. unfold keys_of. clear -Hc Hokf Hkc. induction Hc as [|fs f fss col Hf Hc' IH]; cbn [map concat]; [constructor|].
      inversion Hokf as [|? ? Hfs1 Hfs2]; subst. cbn [map concat] in Hkc. apply NoDup_app_iff in Hkc as [K1 [K2 K3]].
      apply NoDup_app_iff. repeat split.
      - rewrite Forall_forall in Hfs1. apply Hfs1. eapply nth_error_In; eauto.
      - apply IH; auto.
      - intros k Hk1 Hk2. apply (K3 k).
        + apply dict_mem_In, dict_mem_get. rewrite collect_get by exact Hfs1.
          pose proof (hits_keys k fs f (nth_error_In _ _ Hf) Hk1). destruct (hits k fs); [congruence|discriminate].
        + clear -Hk2 Hc' Hfs2. induction Hc' as [|fs f fss col Hf _ IH]; cbn [map concat] in *; [destruct Hk2|].
          inversion Hfs2 as [|? ? Hfs3 Hfs4]; subst. apply in_or_app. apply in_app_or in Hk2 as [Hk2|Hk2]; [left|right; auto].
          apply dict_mem_In, dict_mem_get. rewrite collect_get by exact Hfs3.
          pose proof (hits_keys k fs f (nth_error_In _ _ Hf) Hk2). destruct (hits k fs); [congruence|discriminate]. }
    assert (Hone : forall i y, nth_error xs i = Some y -> exists e, features b rate y = Ok e /\
      exists col, Forall2 (fun (fs : list (dict nested)) f => nth_error fs i = Some f) fss col /\ Permutation e (concat col)).
    { intros i y Hy. destruct (Hcols i y Hy) as [col [Hc1 Hc2]].
      destruct (Qf_one _ _ H rate y col Hc2 (Hcolok i col Hc1)) as [e [He1 He2]]. exists e. split; [exact He1|]. eauto. }
    clear -Hone. revert Hone.
    enough (G : forall k, (forall i y, nth_error xs i = Some y -> exists e, features b rate y = Ok e /\
        exists col, Forall2 (fun (fs : list (dict nested)) f => nth_error fs (k + i)%nat = Some f) fss col /\ Permutation e (concat col)) ->
      exists es, mapM (features b rate) xs = Ok es /\
        Forall2 (fun i e => exists col, Forall2 (fun (fs : list (dict nested)) f => nth_error fs i = Some f) fss col /\ Permutation e (concat col)) (seq k (length xs)) es)
      by (intros Hone; apply (G 0%nat); exact Hone).
    induction xs as [|y xs IH]; intros k Hone; [exists []; split; [reflexivity|constructor]|].
    destruct (Hone 0%nat y eq_refl) as [e [He1 He2]]. rewrite Nat.add_0_r in He2.
    destruct (IH (S k)) as [es [Hes1 Hes2]].
    { intros i z Hz. destruct (Hone (S i) z Hz) as [e' H']. exists e'. rewrite <- plus_n_Sm in H'. exact H'. }
    exists (e :: es). split; [cbn [mapM]; rewrite He1, Hes1; reflexivity|]. cbn [length seq]. constructor; auto. }
  destruct Hel as [es [Hes Hcol]]. rewrite Hes. cbn [bind]. eexists; split; [reflexivity|]. cbn [concat]. rewrite app_nil_r.
  assert (Heok : Forall dict_ok es).
  { clear -Hes basic_ok. apply mapM_ok in Hes. induction Hes; constructor; auto. eapply features_dict_ok; eauto. }
  assert (Hlen : Forall (fun fs => length fs = length xs) fss).
  { clear -Hfs. induction Hfs as [|c fs bs fss E _ IH]; constructor; auto. eapply mapM_length; eauto. }
  apply dict_equiv_perm.
  - unfold dict_ok. rewrite (map_keys (fun _ l => NList l)). apply collect_ok.
  - exact Hk.
  - intros k. 
    assert (Hmg : forall (d : dict (list nested)), dict_get (map (fun kv => (fst kv, NList (snd kv))) d) k = option_map NList (dict_get d k)).
    { clear. induction d as [|[k' v] d IH]; cbn [map dict_get fst snd]; [auto|]. destruct (str_eqb k k'); auto. }
    rewrite Hmg, collect_get by exact Heok.
    (* which builder has the name *)
    destruct (in_dec (list_eq_dec N.eq_dec) k (concat (map (fun fs => dict_keys (collect fs)) fss))) as [Hin|Hin].
    + apply in_concat in Hin as [ks [Hks Hin]]. apply in_map_iff in Hks as [fs [<- Hfsin]].
      apply in_split in Hfsin as [f1 [f2 Ef]]. subst fss.
      assert (Hget : dict_get (concat (map (fun fs => map (fun kv => (fst kv, NList (snd kv))) (collect fs)) (f1 ++ fs :: f2))) k
                     = option_map NList (dict_get (collect fs) k)).
      { apply dict_mem_In, dict_mem_get in Hin. destruct (dict_get (collect fs) k) as [l|] eqn:El; [|congruence]. cbn [option_map].
        apply In_dict_get; [exact Hk|]. apply in_concat. exists (map (fun kv => (fst kv, NList (snd kv))) (collect fs)). split.
        - apply in_map_iff. exists fs. split; [reflexivity|]. apply in_or_app. right; left; auto.
        - apply dict_get_In in El. apply in_map_iff. exists (k, l). auto. }
      rewrite Hget. rewrite Forall_app in Hokf. destruct Hokf as [Hok1 Hok2]. inversion Hok2 as [|? ? Hok3 Hok4]; subst.
      rewrite collect_get by exact Hok3. do 2 f_equal.
      rewrite map_app in Hkc. cbn [map] in Hkc. rewrite concat_app in Hkc. cbn [concat] in Hkc.
      apply NoDup_app_iff in Hkc as [_ [Hkc2 Hkc3]]. apply NoDup_app_iff in Hkc2 as [_ [_ Hkc4]].
      assert (Hno : forall g, In g f1 \/ In g f2 -> Forall dict_ok g -> forall f, In f g -> ~ In k (dict_keys f)).
      { intros g Hg Hgok f Hf Hkf.
        assert (Hkg : In k (dict_keys (collect g))).
        { apply dict_mem_In, dict_mem_get. rewrite collect_get by exact Hgok. pose proof (hits_keys k g f Hf Hkf). destruct (hits k g); [congruence|discriminate]. }
        destruct Hg as [Hg|Hg].
        - apply (Hkc3 k); [|apply in_or_app; left; exact Hin]. apply in_concat. exists (dict_keys (collect g)). split; [|exact Hkg].
          apply in_map_iff. eauto.
        - apply (Hkc4 k); [exact Hin|]. apply in_concat. exists (dict_keys (collect g)). split; [|exact Hkg].
          apply in_map_iff. eauto. }
      (* element by element *)
      assert (Hl : length fs = length xs).
      { rewrite Forall_forall in Hlen. apply Hlen. apply in_or_app. right; left; auto. }
      clear -Hcol Heok Hno Hok1 Hok3 Hok4 Hl.
      unfold hits. f_equal. apply nth_error_ext. intros i. rewrite !nth_error_map.
      destruct (nth_error es i) as [e|] eqn:Ee.
      * destruct (Forall2_nth_r _ _ _ _ _ Hcol Ee) as [i' [Hi' [col [Hc Hp]]]].
        assert (i' = i) as ->.
        { pose proof (nth_error_Some_lt' _ _ _ Hi') as Hlt. rewrite seq_length in Hlt.
          rewrite (nth_error_nth' (seq 0 (length xs)) 0%nat) in Hi' by (rewrite seq_length; exact Hlt). rewrite seq_nth in Hi' by exact Hlt. simpl in Hi'. congruence. }
        apply Forall2_app_inv_l in Hc as [c1 [c2 [Hc1 [Hc2 ->]]]]. inversion Hc2 as [|? f ? c3 Hf Hc3]; subst.
        rewrite Hf. cbn [option_map]. f_equal.
        assert (Hke : dict_get e k = dict_get f k); [|rewrite Hke; reflexivity].
        assert (Heok' : dict_ok e) by (rewrite Forall_forall in Heok; apply Heok; eapply nth_error_In; eauto).
        assert (Hfok : dict_ok f) by (rewrite Forall_forall in Hok3; apply Hok3; eapply nth_error_In; eauto).
        destruct (dict_get f k) as [v|] eqn:Ev.
        -- apply In_dict_get; [exact Heok'|]. eapply Permutation_in; [symmetry; exact Hp|]. rewrite concat_app. apply in_or_app. right.
           cbn [concat]. apply in_or_app. left. apply dict_get_In. exact Ev.
        -- apply dict_get_None. intros Hin. apply in_map_iff in Hin as [[k' v] [E Hin]]. cbn [fst] in E. subst k'.
           eapply Permutation_in in Hin; [|exact Hp]. rewrite concat_app in Hin. cbn [concat] in Hin.
           assert (Hcase : forall gs c, (forall g, In g gs -> In g f1 \/ In g f2) -> Forall (Forall dict_ok) gs ->
             Forall2 (fun (fs : list (dict nested)) f => nth_error fs i = Some f) gs c -> In (k, v) (concat c) -> False).
           { intros gs c Hgs Hgok Hfa Hinc. apply in_concat in Hinc as [d [Hd Hkd]]. apply In_nth_error in Hd as [j Hj].
             destruct (Forall2_nth_r _ _ _ _ _ Hfa Hj) as [g [Hg Hgd]]. apply nth_error_In in Hg, Hgd.
             rewrite Forall_forall in Hgok. apply (Hno g (Hgs g Hg) (Hgok g Hg) d Hgd). apply (in_map fst) in Hkd. exact Hkd. }
           apply in_app_or in Hin as [Hin|Hin]; [apply (Hcase f1 c1); auto|]. apply in_app_or in Hin as [Hin|Hin].
           ++ rewrite (In_dict_get _ _ _ Hfok Hin) in Ev. discriminate.
           ++ apply (Hcase f2 c3); auto.
      * apply nth_error_None in Ee. pose proof (Forall2_length' _ _ _ Hcol) as Hle. rewrite seq_length in Hle.
        change (@length (list (str * nested)) es) with (length es) in *.
        rewrite (proj2 (nth_error_None fs i)) by lia. reflexivity.
    + assert (Hnone : dict_get (concat (map (fun fs => map (fun kv => (fst kv, NList (snd kv))) (collect fs)) fss)) k = None).
      { apply dict_get_None. rewrite dict_keys_concat. unfold keys_of. rewrite map_map. intros Hc. apply Hin.
        apply in_concat in Hc as [ks [Hks Hc]]. apply in_map_iff in Hks as [fs [<- Hfsin]]. rewrite (map_keys (fun _ l => NList l)) in Hc.
        apply in_concat. exists (dict_keys (collect fs)). split; [|exact Hc]. apply in_map_iff. eauto. }
      rewrite Hnone. rewrite hits_none; [reflexivity|]. intros e He Hke. apply Hin.
      apply In_nth_error in He as [j Hj]. destruct (Forall2_nth_r _ _ _ _ _ Hcol Hj) as [i [_ [col [Hc Hp]]]].
      apply in_map_iff in Hke as [[k' v] [E Hke]]. cbn [fst] in E. subst k'. eapply Permutation_in in Hke; [|exact Hp].
      apply in_concat in Hke as [d [Hd Hkd]]. apply In_nth_error in Hd as [m Hm]. destruct (Forall2_nth_r _ _ _ _ _ Hc Hm) as [fs [Hfsin Hfd]].
      apply nth_error_In in Hfsin, Hfd. apply in_concat. exists (dict_keys (collect fs)). split; [apply in_map_iff; eauto|].
      apply dict_mem_In, dict_mem_get. rewrite Forall_forall in Hokf. rewrite collect_get by auto.
      pose proof (hits_keys k fs d Hfd (in_map fst _ _ Hkd)) as Hh. destruct (hits k fs); [contradiction|discriminate].
Qed.

Theorem merge_features bs : bs <> [] -> Forall buildable bs -> exists b, merge_builders B cls bs = Ok b /\
  forall rate x ds, mapM (fun c => features c rate x) bs = Ok ds -> disjoint_parts ds ->
    exists d, features b rate x = Ok d /\ union_of ds d.
Proof.
  intros Hne Hb. assert (M : exists b, merge B cls (S (bsizes B bs)) bs = Ok b /\ buildable b /\ Qf bs [b]).
  { apply (merge_ok B cls Qf); auto.
    - intros cs rate x ds E _. exists ds. auto.
    - intros a b c d H1 H2 rate x ds E Hk. rewrite mapM_app in E. apply bind_ok_iff in E as [d1 [E1 E]]. apply bind_ok_iff in E as [d2 [E2 E]].
      injection E as <-. rewrite concat_app in Hk. apply dict_ok_app in Hk as [K1 K2].
      destruct (H1 _ _ _ E1 K1) as [e1 [F1 P1]]. destruct (H2 _ _ _ E2 K2) as [e2 [F2 P2]].
      exists (e1 ++ e2). rewrite mapM_app, F1. cbn [bind]. rewrite F2. split; [reflexivity|]. rewrite !concat_app. apply Permutation_app; auto.
    - intros a b c Hp H rate x ds E Hk. destruct (mapM_perm _ _ _ Hp _ E) as [ds2 [E2 P2]]. apply concat_perm in P2.
      destruct (H _ _ _ E2 (dict_ok_perm _ _ P2 Hk)) as [es [E3 P3]]. exists es. split; [exact E3|]. rewrite P3. symmetry. exact P2.
    - intros n rate x ds E _. exists []. split; [reflexivity|]. assert (concat ds = []) as ->; [|constructor].
      revert ds E. induction n as [|n IH]; intros ds E; cbn [repeat mapM] in E.
      + injection E as <-. reflexivity.
      + cbn [Model_Builder.features bind] in E. destruct (mapM _ (repeat (BEmpty B) n)) as [r|]; cbn [bind] in E; [|discriminate].
        injection E as <-. cbn [concat app]. apply IH. reflexivity.
    - intros n rate x ds E _. exists [[]]. split; [reflexivity|]. assert (concat ds = []) as ->; [|constructor].
      revert ds E. induction (S n) as [|k IH]; intros ds E; cbn [repeat mapM] in E.
      + injection E as <-. reflexivity.
      + cbn [Model_Builder.features bind] in E. destruct (mapM _ (repeat (BEmpty B) k)) as [r|]; cbn [bind] in E; [|discriminate].
        injection E as <-. cbn [concat app]. apply IH. reflexivity.
    - intros cs b _ H rate x ds E Hk. rewrite mapM_map in E. cbn [Model_Builder.features] in E. apply mapM_bind in E as [ds0 [E1 E2]].
      assert (Hk0 : dict_ok (concat ds0)).
      { unfold dict_ok. rewrite (keys_concat_eq ds0 ds); [exact Hk|]. apply mapM_ok in E2. eapply Forall2_impl; [|exact E2].
        intros d e He. symmetry. apply pad_values_keys. exact He. }
      destruct (Qf_one _ _ H rate x ds0 E1 Hk0) as [e [F P]]. apply pad_values_concat in E2.
      symmetry in P. destruct (mapM_perm _ _ _ P _ E2) as [e2 [F2 P2]]. exists [e2]. cbn [mapM Model_Builder.features]. rewrite F. cbn [bind].
      unfold pad_values. rewrite F2. split; [reflexivity|]. cbn [concat]. rewrite app_nil_r. symmetry. exact P2.
    - intros cs b _ H rate x ds E Hk. rewrite mapM_map in E. cbn [Model_Builder.features] in E. apply mapM_bind in E as [ds0 [E1 E2]].
      rewrite mapM_total in E2. injection E2 as <-.
      match type of Hk with dict_ok ?t => replace t with (map (fun kv => (fst kv, sparsify x (fst kv) rate (snd kv))) (concat ds0)) in *
        by exact (concat_map (fun kv => (fst kv, sparsify x (fst kv) rate (snd kv))) ds0) end. unfold dict_ok in Hk. rewrite (map_keys (fun k v => sparsify x k rate v)) in Hk.
      destruct (Qf_one _ _ H 0%Q x ds0 E1 Hk) as [e [F P]]. eexists. cbn [mapM Model_Builder.features]. rewrite F. cbn [bind]. split; [reflexivity|].
      cbn [concat]. rewrite app_nil_r. apply Permutation_map. exact P.
    - apply Qf_iter.
    - intros bss b Hbss H rate x ds E Hk. rewrite mapM_map in E.
      assert (G : exists ess, Forall2 (fun l r => mapM (fun c => features c rate x) l = Ok r) bss ess /\ ds = map (@concat _) ess).
      { apply mapM_ok in E. clear -E Hbss basic_ok. induction E as [|l d bss ds Hd _ IH]; [exists []; split; auto|].
        inversion Hbss; subst. destruct IH as [ess [I1 I2]]; [assumption|]. apply features_comp_inv in Hd as [es [G1 G2]]; [|assumption].
        exists (es :: ess). split; [constructor; auto|]. rewrite G2, I2. reflexivity. }
      destruct G as [ess [G1 ->]]. apply mapM_concat in G1.
      assert (Hcc : concat (map (@concat _) ess) = concat (concat ess)).
      { clear. induction ess as [|e ess IH]; cbn [map concat]; [auto|]. rewrite concat_app, IH. reflexivity. }
      rewrite Hcc in *. apply (H _ _ _ G1 Hk).
    - intros cs rs Hr H rate x ds E Hk. destruct (H _ _ _ E Hk) as [es [E2 P]].
      exists [concat es]. cbn [mapM]. rewrite (features_single rs rate x es Hr E2 (dict_ok_perm _ _ (Permutation_sym P) Hk)). cbn [bind].
      split; [reflexivity|]. cbn [concat]. rewrite app_nil_r. exact P. }
  destruct M as [b [E [_ HQ]]]. exists b. split; [exact E|]. intros rate x ds Ed Hd.
  pose proof (mapM_features_ok _ _ _ _ Ed) as Hok. apply (disjoint_iff ds Hok) in Hd.
  destruct (Qf_one _ _ HQ rate x ds Ed Hd) as [d [Fd P]]. exists d. split; [exact Fd|].
  destruct (concat_union ds Hok Hd) as [U1 U2]. split; [eapply dict_ok_perm; [symmetry; exact P|exact Hd]|].
  intros k v. rewrite <- U2. assert (Heq : dict_get d k = dict_get (concat ds) k); [|rewrite Heq; reflexivity].
  apply perm_dict_equiv; auto. eapply dict_ok_perm; [symmetry; exact P|exact Hd].
Qed.
End Features.

Section Initial.
Variables (B : Type) (cls : B -> Z) (T : Type) (init : B -> result (dict T)).
Hypothesis init_ok : forall b d, init b = Ok d -> dict_ok d.
Notation initial := (initial B T init).

Lemma initial_comp bs : bs <> [] -> initial (BComp B bs) =
  match bs with [b] => initial b | _ => do ds <- mapM initial bs; merge_dicts ds end.
Proof.
  intros H. destruct bs as [|b [|c bs]]; [congruence|reflexivity|].
  change (initial (BComp B (b :: c :: bs))) with
    (do ds <- (fix go (bs : list (builder B)) : result (list (dict T)) :=
                 match bs with [] => Ok [] | b :: bs' => do d <- initial b; do ds <- go bs'; Ok (d :: ds) end) (b :: c :: bs);
     merge_dicts ds).
  f_equal. generalize (b :: c :: bs) as l. induction l as [|b' l IH]; [reflexivity|]. cbn [mapM]. rewrite IH. reflexivity.
Qed.

Lemma initial_dict_ok b : forall d, initial b = Ok d -> dict_ok d.
Proof.
  induction b as [b| |b IH|b IH|b IH|bs IH] using builder_ind'; intros d; auto.
  - apply init_ok.
  - intros H; injection H as <-. constructor.
  - destruct bs as [|b bs]; [discriminate|]. rewrite initial_comp by discriminate. destruct bs as [|c bs].
    + inversion IH; subst. eauto.
    + intros H. apply bind_ok_iff in H as [ds [H1 H2]]. apply mapM_ok in H1.
      assert (Hok : Forall dict_ok ds).
      { clear H2. revert IH. induction H1; intros IH; constructor; inversion IH; subst; eauto. }
      apply merge_dicts_inv in H2 as [-> H2]; auto.
Qed.
Lemma mapM_initial_ok bs ds : mapM initial bs = Ok ds -> Forall dict_ok ds.
Proof. rewrite mapM_ok. induction 1; constructor; auto. eapply initial_dict_ok; eauto. Qed.

Lemma initial_comp_inv bs d : bs <> [] -> initial (BComp B bs) = Ok d -> exists es, mapM initial bs = Ok es /\ d = concat es.
Proof.
  intros Hne. rewrite initial_comp by exact Hne. destruct bs as [|b [|c bs]]; [congruence| |].
  - intros E. cbn [mapM]. rewrite E. cbn [bind]. exists [d]. cbn [concat]. rewrite app_nil_r. auto.
  - intros H. apply bind_ok_iff in H as [ds [H1 H2]]. pose proof (mapM_initial_ok _ _ H1) as Hok.
    apply merge_dicts_inv in H2 as [-> _]; auto. eauto.
Qed.
Lemma initial_single rs es : rs <> [] -> mapM initial rs = Ok es -> dict_ok (concat es) -> initial (single B rs) = Ok (concat es).
Proof.
  intros Hne E Hk. pose proof (mapM_initial_ok _ _ E) as Hok. destruct rs as [|b [|c rs]]; [congruence| |].
  - cbn [single mapM] in *. destruct (initial b); cbn [bind] in E; [|discriminate]. injection E as <-. cbn [concat]. rewrite app_nil_r. reflexivity.
  - cbn [single]. rewrite initial_comp by discriminate. rewrite E. cbn [bind]. apply merge_dicts_ok; auto.
Qed.

Definition Qi (bs rs : list (builder B)) : Prop := forall ds,
  mapM initial bs = Ok ds -> dict_ok (concat ds) -> exists es, mapM initial rs = Ok es /\ Permutation (concat es) (concat ds).

Theorem merge_initial bs : bs <> [] -> Forall buildable bs -> exists b, merge_builders B cls bs = Ok b /\
  forall ds, mapM initial bs = Ok ds -> disjoint_parts ds -> exists d, initial b = Ok d /\ union_of ds d.
Proof.
  intros Hne Hb.
  assert (M : exists b, merge B cls (S (bsizes B bs)) bs = Ok b /\ buildable b /\ Qi bs [b]).
  { apply (merge_ok B cls Qi); auto.
    - intros cs ds E _. exists ds. auto.
    - intros a b c d H1 H2 ds E Hk. rewrite mapM_app in E. apply bind_ok_iff in E as [d1 [E1 E]]. apply bind_ok_iff in E as [d2 [E2 E]].
      injection E as <-. rewrite concat_app in Hk. apply dict_ok_app in Hk as [K1 K2].
      destruct (H1 _ E1 K1) as [e1 [F1 P1]]. destruct (H2 _ E2 K2) as [e2 [F2 P2]].
      exists (e1 ++ e2). rewrite mapM_app, F1. cbn [bind]. rewrite F2. split; [reflexivity|]. rewrite !concat_app. apply Permutation_app; auto.
    - intros a b c Hp H ds E Hk. destruct (mapM_perm _ _ _ Hp _ E) as [ds2 [E2 P2]]. apply concat_perm in P2.
      destruct (H _ E2 (dict_ok_perm _ _ P2 Hk)) as [es [E3 P3]]. exists es. split; [exact E3|]. rewrite P3. symmetry. exact P2.
    - intros n ds E _. exists []. split; [reflexivity|]. assert (concat ds = []) as ->; [|constructor].
      revert ds E. induction n as [|n IH]; intros ds E; cbn [repeat mapM] in E.
      + injection E as <-. reflexivity.
      + cbn [Model_Builder.initial bind] in E. destruct (mapM _ (repeat (BEmpty B) n)) as [r|]; cbn [bind] in E; [|discriminate].
        injection E as <-. cbn [concat app]. apply IH. reflexivity.
    - intros n ds E _. exists [[]]. split; [reflexivity|]. assert (concat ds = []) as ->; [|constructor].
      revert ds E. induction (S n) as [|k IH]; intros ds E; cbn [repeat mapM] in E.
      + injection E as <-. reflexivity.
      + cbn [Model_Builder.initial bind] in E. destruct (mapM _ (repeat (BEmpty B) k)) as [r|]; cbn [bind] in E; [|discriminate].
        injection E as <-. cbn [concat app]. apply IH. reflexivity.
    - intros cs b _ H ds E Hk. rewrite mapM_map in E. apply (H ds E Hk).
    - intros cs b _ H ds E Hk. rewrite mapM_map in E. apply (H ds E Hk).
    - intros cs b _ H ds E Hk. rewrite mapM_map in E. apply (H ds E Hk).
    - intros bss b Hbss H ds E Hk. rewrite mapM_map in E.
      assert (G : exists ess, Forall2 (fun l r => mapM initial l = Ok r) bss ess /\ ds = map (@concat _) ess).
      { apply mapM_ok in E. clear -E Hbss init_ok. induction E as [|l d bss ds Hd _ IH]; [exists []; split; auto|].
        inversion Hbss; subst. destruct IH as [ess [I1 I2]]; [assumption|]. apply initial_comp_inv in Hd as [es [G1 G2]]; [|assumption].
        exists (es :: ess). split; [constructor; auto|]. rewrite G2, I2. reflexivity. }
      destruct G as [ess [G1 ->]]. apply mapM_concat in G1.
      assert (Hcc : concat (map (@concat _) ess) = concat (concat ess)).
      { clear. induction ess as [|e ess IH]; cbn [map concat]; [auto|]. rewrite concat_app, IH. reflexivity. }
      rewrite Hcc in *. apply (H _ G1 Hk).
    - intros cs rs Hr H ds E Hk. destruct (H _ E Hk) as [es [E2 P]].
      exists [concat es]. cbn [mapM]. rewrite (initial_single rs es Hr E2 (dict_ok_perm _ _ (Permutation_sym P) Hk)). cbn [bind].
      split; [reflexivity|]. cbn [concat]. rewrite app_nil_r. exact P. }
  destruct M as [b [E [_ HQ]]]. exists b. split; [exact E|]. intros ds Ed Hd.
  pose proof (mapM_initial_ok _ _ Ed) as Hok. apply (disjoint_iff ds Hok) in Hd.
  destruct (HQ ds Ed Hd) as [es [Fd P]]. cbn [mapM] in Fd. destruct (initial b) as [d|]; cbn [bind] in Fd; [|discriminate].
  injection Fd as <-. cbn [concat] in P. rewrite app_nil_r in P. exists d. split; [reflexivity|].
  destruct (concat_union ds Hok Hd) as [U1 U2]. split; [eapply dict_ok_perm; [symmetry; exact P|exact Hd]|].
  intros k v. rewrite <- U2. assert (Heq : dict_get d k = dict_get (concat ds) k); [|rewrite Heq; reflexivity].
  apply perm_dict_equiv; auto. eapply dict_ok_perm; [symmetry; exact P|exact Hd].
Qed.
End Initial.

Theorem merge_features' : forall B (cls : B -> Z) O (elements : O -> result (list O)) (basic : B -> O -> result (dict nested)) sparsify,
  (forall b x d, basic b x = Ok d -> dict_ok d) ->
  forall bs, bs <> [] -> Forall buildable bs -> exists b, merge_builders B cls bs = Ok b /\
    forall rate x ds, Forall2 (fun c d => features B O elements basic sparsify c rate x = Ok d) bs ds -> disjoint_parts ds ->
      exists d, features B O elements basic sparsify b rate x = Ok d /\ union_of ds d.
Proof.
  intros B cls O elements basic sparsify Hb bs Hne Hbb.
  destruct (merge_features B cls O elements basic sparsify Hb bs Hne Hbb) as [b [E H]]. exists b. split; [exact E|].
  intros rate x ds Hf. apply H. apply mapM_ok. exact Hf.
Qed.

Theorem merge_initial' : forall B (cls : B -> Z) T (init : B -> result (dict T)),
  (forall b d, init b = Ok d -> dict_ok d) ->
  forall bs, bs <> [] -> Forall buildable bs -> exists b, merge_builders B cls bs = Ok b /\
    forall ds, Forall2 (fun c d => initial B T init c = Ok d) bs ds -> disjoint_parts ds ->
      exists d, initial B T init b = Ok d /\ union_of ds d.
Proof.
  intros B cls T init Hb bs Hne Hbb. destruct (merge_initial B cls T init Hb bs Hne Hbb) as [b [E H]]. exists b. split; [exact E|].
  intros ds Hf. apply H. apply mapM_ok. exact Hf.
Qed.
