(* Setters, equality, order of Pos, printing. *)
From Coq Require Import String ZArith NArith Bool Lia Permutation Sorted List.
From Verif Require Import Base BaseFacts Model_Datamodel Spec_Datamodel Proofs_Datamodel Proofs_Syntax Proofs_Datamodel2.
Import ListNotations.
Open Scope Z_scope.

(* ------------------------------------------------------------------ *)
(* equality of python values *)

Section PyvalInd.
  Variable P : pyval -> Prop.
  Hypothesis Hnone : P PNone.
  Hypothesis Hbool : forall b, P (PBool b).
  Hypothesis Hint : forall z, P (PInt z).
  Hypothesis Hstr : forall s, P (PStr s).
  Hypothesis Hlist : forall l, Forall P l -> P (PList l).
  Hypothesis Hdict : forall d, Forall (fun kv => P (snd kv)) d -> P (PDict d).
  Fixpoint pyval_ind' (v : pyval) : P v :=
    match v with
    | PNone => Hnone
    | PBool b => Hbool b
    | PInt z => Hint z
    | PStr s => Hstr s
    | PList l => Hlist l ((fix go l : Forall P l :=
        match l with [] => Forall_nil _ | x :: l' => Forall_cons x (pyval_ind' x) (go l') end) l)
    | PDict d => Hdict d ((fix go d : Forall (fun kv => P (snd kv)) d :=
        match d with [] => Forall_nil _ | x :: d' => Forall_cons x (pyval_ind' (snd x)) (go d') end) d)
    end.
End PyvalInd.

Lemma pyval_eqb_list a b : pyval_eqb (PList a) (PList b) = list_eqb pyval_eqb a b.
Proof.
  simpl. revert b. induction a as [|x a IH]; intros [|y b]; simpl; auto. rewrite IH. auto.
Qed.

Lemma pyval_eqb_dict a b : pyval_eqb (PDict a) (PDict b) = dict_eqb pyval_eqb a b.
Proof.
  simpl. unfold dict_eqb. f_equal. induction a as [|[k v] a IH]; simpl; auto.
  destruct (dict_get b k); auto. rewrite IH. auto.
Qed.

Lemma dict_eqb_ext {V} (eqb : V -> V -> bool) (a b : dict V) : dict_ok a -> dict_ok b ->
  (dict_eqb eqb a b = true <-> forall k, get_rel (fun v w => eqb v w = true) (dict_get a k) (dict_get b k)).
Proof.
  intros Oa Ob. unfold dict_eqb. rewrite andb_true_iff, Nat.eqb_eq, forallb_forall. split.
  - intros [L F] k.
    assert (I : incl (dict_keys a) (dict_keys b)).
    { intros x Hx. apply in_map_iff in Hx. destruct Hx as ([k' v] & <- & Hx).
      specialize (F _ Hx). simpl in *. destruct (dict_get b k') eqn:G; [|discriminate].
      apply dict_get_In, (in_map fst) in G. auto. }
    assert (J : incl (dict_keys b) (dict_keys a)).
    { apply NoDup_length_incl; auto. rewrite !dict_keys_length. lia. }
    destruct (dict_get a k) as [v|] eqn:Ga; simpl.
    + apply dict_get_In in Ga. specialize (F _ Ga). simpl in F. destruct (dict_get b k); auto. discriminate.
    + destruct (dict_get b k) eqn:Gb; auto.
      apply dict_get_In, (in_map fst) in Gb. apply J in Gb. apply dict_get_None in Ga. contradiction.
  - intros H. split.
    + assert (I : forall k, In k (dict_keys a) <-> In k (dict_keys b)).
      { intros k. specialize (H k). unfold get_rel in H.
        destruct (dict_get a k) eqn:Ga, (dict_get b k) eqn:Gb; try tauto.
        - apply dict_get_In, (in_map fst) in Ga. apply dict_get_In, (in_map fst) in Gb. simpl in *. tauto.
        - apply dict_get_None in Ga. apply dict_get_None in Gb. tauto. }
      rewrite <- (dict_keys_length a), <- (dict_keys_length b).
      apply Nat.le_antisymm; (apply NoDup_incl_length; [auto|]; intros x Hx; apply I; auto).
    + intros [k v] Hx. simpl. specialize (H k). rewrite (In_dict_get _ _ _ Oa Hx) in H. simpl in H.
      destruct (dict_get b k); auto.
Qed.

Lemma get_snd {V} (P : V -> Prop) (d : dict V) k v : Forall (fun kv => P (snd kv)) d -> dict_get d k = Some v -> P v.
Proof. intros F G. apply dict_get_In in G. rewrite Forall_forall in F. apply (F _ G). Qed.

Lemma pyval_eqb_refl x : pyval_wf x -> pyval_eqb x x = true.
Proof.
  induction x as [|b|z|s|l IH|d IH] using pyval_ind'; intros W; inversion W as [| | | |? F|? O F]; subst.
  - auto.
  - simpl. apply eqb_reflx.
  - simpl. apply Z.eqb_refl.
  - simpl. apply str_eqb_refl.
  - rewrite pyval_eqb_list. clear W. induction IH as [|x l Hx IH IHl]; simpl; auto. inversion F; subst. rewrite Hx, IHl; auto.
  - rewrite pyval_eqb_dict. apply dict_eqb_ext; auto. intros k. destruct (dict_get d k) eqn:G; simpl; auto.
    exact (get_snd (fun x => pyval_wf x -> pyval_eqb x x = true) _ _ _ IH G (get_snd _ _ _ _ F G)).
Qed.

Ltac pv_atoms := repeat match goal with
  | H : Bool.eqb _ _ = true |- _ => apply eqb_prop in H; subst
  | H : (_ =? _) = true |- _ => apply Z.eqb_eq in H; subst
  | H : str_eqb _ _ = true |- _ => apply str_eqb_eq in H; subst
  end.

Lemma pyval_eqb_sym x : forall y, pyval_wf x -> pyval_wf y -> pyval_eqb x y = true -> pyval_eqb y x = true.
Proof.
  induction x as [|b|z|s|l IH|d IH] using pyval_ind'; intros y Wx Wy E; destruct y as [|b'|z'|s'|l'|d']; try discriminate E.
  - auto.
  - simpl in *. pv_atoms. apply eqb_reflx.
  - simpl in *. pv_atoms. apply Z.eqb_refl.
  - simpl in *. pv_atoms. apply Z.eqb_refl.
  - simpl in *. pv_atoms. apply Z.eqb_refl.
  - simpl in *. pv_atoms. apply str_eqb_refl.
  - rewrite pyval_eqb_list in *. inversion Wx as [| | | |? Fx|]; subst. inversion Wy as [| | | |? Fy|]; subst. clear Wx Wy.
    revert l' Fy E. induction IH as [|x l Hx IH IHl]; intros [|y l'] Fy E; simpl in *; try discriminate; auto.
    inversion Fx; subst. inversion Fy; subst. apply andb_true_iff in E. destruct E. rewrite Hx, IHl; auto.
  - rewrite pyval_eqb_dict in *. inversion Wx as [| | | | |? Ox Fx]; subst. inversion Wy as [| | | | |? Oy Fy]; subst.
    apply dict_eqb_ext; auto. intros k. pose proof (proj1 (dict_eqb_ext _ _ _ Ox Oy) E k) as H. unfold get_rel in *.
    destruct (dict_get d k) eqn:G, (dict_get d' k) eqn:G'; try tauto.
    exact (get_snd (fun x => forall y, pyval_wf x -> pyval_wf y -> pyval_eqb x y = true -> pyval_eqb y x = true) _ _ _ IH G
             _ (get_snd _ _ _ _ Fx G) (get_snd _ _ _ _ Fy G') H).
Qed.

Lemma pyval_eqb_trans x : forall y z, pyval_wf x -> pyval_wf y -> pyval_wf z ->
  pyval_eqb x y = true -> pyval_eqb y z = true -> pyval_eqb x z = true.
Proof.
  induction x as [|b|i|s|l IH|d IH] using pyval_ind'; intros y z Wx Wy Wz E1 E2;
    destruct y as [|b'|i'|s'|l'|d']; try discriminate E1; destruct z as [|b''|i''|s''|l''|d'']; try discriminate E2.
  1: auto.
  - simpl in *. pv_atoms. apply eqb_reflx.
  - simpl in *. pv_atoms. apply Z.eqb_refl.
  - simpl in *. pv_atoms. destruct b, b''; simpl in *; auto; discriminate.
  - simpl in *. pv_atoms. apply Z.eqb_refl.
  - simpl in *. pv_atoms. apply Z.eqb_refl.
  - simpl in *. pv_atoms. apply Z.eqb_refl.
  - simpl in *. pv_atoms. apply Z.eqb_refl.
  - simpl in *. pv_atoms. apply Z.eqb_refl.
  - simpl in *. pv_atoms. apply str_eqb_refl.
  - rewrite pyval_eqb_list in *. inversion Wx as [| | | |? Fx|]; subst. inversion Wy as [| | | |? Fy|]; subst. inversion Wz as [| | | |? Fz|]; subst. clear Wx Wy Wz.
    revert l' l'' Fy Fz E1 E2. induction IH as [|x l Hx IH IHl]; intros [|y l'] [|z l''] Fy Fz E1 E2; simpl in *; try discriminate; auto.
    inversion Fx; subst. inversion Fy; subst. inversion Fz; subst.
    apply andb_true_iff in E1. destruct E1. apply andb_true_iff in E2. destruct E2. rewrite (Hx y z), (IHl) with (l' := l'); auto.
  - rewrite pyval_eqb_dict in *. inversion Wx as [| | | | |? Ox Fx]; subst. inversion Wy as [| | | | |? Oy Fy]; subst. inversion Wz as [| | | | |? Oz Fz]; subst.
    apply dict_eqb_ext; auto. intros k. pose proof (proj1 (dict_eqb_ext _ _ _ Ox Oy) E1 k) as H1.
    pose proof (proj1 (dict_eqb_ext _ _ _ Oy Oz) E2 k) as H2. unfold get_rel in *.
    destruct (dict_get d k) eqn:G, (dict_get d' k) eqn:G', (dict_get d'' k) eqn:G''; try tauto.
    exact (get_snd (fun x => forall y z, pyval_wf x -> pyval_wf y -> pyval_wf z ->
                      pyval_eqb x y = true -> pyval_eqb y z = true -> pyval_eqb x z = true) _ _ _ IH G
             _ _ (get_snd _ _ _ _ Fx G) (get_snd _ _ _ _ Fy G') (get_snd _ _ _ _ Fz G'') H1 H2).
Qed.

(* ------------------------------------------------------------------ *)
(* Pos *)

Lemma option_str_eqb a b : option_eqb str_eqb a b = true <-> a = b.
Proof. apply option_eqb_eq. apply str_eqb_eq. Qed.

Lemma pos_eqb_same p q : pos_wf p -> pos_wf q -> (pos_eqb p q = true <-> pos_same p q).
Proof.
  intros Wp Wq. unfold pos_eqb, pos_same. rewrite !andb_true_iff, !option_str_eqb.
  rewrite (dict_eqb_equiv str_eqb str_eqb_eq) by auto. unfold dict_equiv. tauto.
Qed.

Lemma item_cmp_ok : cmp_ok (pair_cmp str_cmp str_cmp).
Proof. apply pair_cmp_ok; apply str_cmp_ok. Qed.

Lemma sorted_items_perm d : Permutation d (sorted_items d).
Proof. apply isort_perm. Qed.

Lemma sorted_items_iff a b : dict_ok a -> dict_ok b -> (sorted_items a = sorted_items b <-> forall k, dict_get a k = dict_get b k).
Proof.
  intros Oa Ob. split.
  - intros E k. apply perm_dict_equiv; auto.
    eapply Permutation_trans; [apply sorted_items_perm|]. rewrite E. apply Permutation_sym, sorted_items_perm.
  - intros H. unfold sorted_items. apply isort_perm_eq.
    + exact (leb_of_ok _ item_cmp_ok).
    + intros x y _ _. exact (leb_of_antisym _ item_cmp_ok x y).
    + apply dict_equiv_perm; auto.
Qed.

Lemma tuple_view_iff p q : pos_wf p -> pos_wf q -> (tuple_view p = tuple_view q <-> pos_same p q).
Proof.
  intros Wp Wq. unfold tuple_view, pos_same. rewrite <- (sorted_items_iff _ _ Wp Wq). split.
  - intros E. inversion E; auto.
  - intros (-> & -> & ->). auto.
Qed.

Lemma opt_str_cmp_eq a b : opt_str_cmp a b = Ok Eq <-> a = b.
Proof.
  destruct a as [x|], b as [y|]; simpl; split; intros H; try discriminate; try (inversion H; fail); auto.
  - injection H as H. apply (cmp_eq _ str_cmp_ok) in H. congruence.
  - injection H as ->. rewrite (cmp_refl _ str_cmp_ok). auto.
Qed.

Lemma opt_str_cmp_sym a b : opt_str_cmp b a = match opt_str_cmp a b with Ok c => Ok (CompOpp c) | Err e => Err e end.
Proof.
  destruct a as [x|], b as [y|]; simpl; auto. rewrite (cmp_anti _ str_cmp_ok). auto.
Qed.

Lemma opt_str_cmp_trans a b c : opt_str_cmp a b = Ok Lt -> opt_str_cmp b c = Ok Lt -> opt_str_cmp a c = Ok Lt.
Proof.
  destruct a as [x|], b as [y|], c as [z|]; simpl; try discriminate.
  intros H1 H2. injection H1 as H1. injection H2 as H2. rewrite (cmp_trans _ str_cmp_ok x y z); auto.
Qed.

Lemma lex_items_ok : cmp_ok (lex_cmp (pair_cmp str_cmp str_cmp)).
Proof. apply lex_cmp_ok, item_cmp_ok. Qed.

Lemma pos_cmp_sym p q : pos_cmp q p = match pos_cmp p q with Ok c => Ok (CompOpp c) | Err e => Err e end.
Proof.
  unfold pos_cmp. rewrite (opt_str_cmp_sym (upos p)).
  destruct (opt_str_cmp (upos p) (upos q)) as [[]|]; simpl; auto.
  rewrite (opt_str_cmp_sym (xpos p)).
  destruct (opt_str_cmp (xpos p) (xpos q)) as [[]|]; simpl; auto.
  rewrite (cmp_anti _ lex_items_ok). auto.
Qed.

Lemma pos_cmp_eq p q : pos_wf p -> pos_wf q -> (pos_cmp p q = Ok Eq <-> pos_same p q).
Proof.
  intros Wp Wq. rewrite <- tuple_view_iff by auto. unfold pos_cmp, tuple_view. split.
  - destruct (opt_str_cmp (upos p) (upos q)) as [[]|] eqn:E1; simpl; try discriminate.
    destruct (opt_str_cmp (xpos p) (xpos q)) as [[]|] eqn:E2; simpl; try discriminate.
    intros H. injection H as H. apply (cmp_eq _ lex_items_ok) in H.
    apply opt_str_cmp_eq in E1. apply opt_str_cmp_eq in E2. congruence.
  - intros E. injection E as E1 E2 E3.
    apply opt_str_cmp_eq in E1. apply opt_str_cmp_eq in E2. rewrite E1, E2. simpl.
    rewrite E3. rewrite (cmp_refl _ lex_items_ok). auto.
Qed.

Lemma pos_cmp_trans p q r : pos_cmp p q = Ok Lt -> pos_cmp q r = Ok Lt -> pos_cmp p r = Ok Lt.
Proof.
  unfold pos_cmp.
  destruct (opt_str_cmp (upos p) (upos q)) as [[]|] eqn:A1; simpl; try discriminate;
  destruct (opt_str_cmp (upos q) (upos r)) as [[]|] eqn:B1; simpl; try discriminate; intros H1 H2.
  - apply opt_str_cmp_eq in A1. rewrite A1. rewrite B1. simpl.
    destruct (opt_str_cmp (xpos p) (xpos q)) as [[]|] eqn:A2; simpl in *; try discriminate;
    destruct (opt_str_cmp (xpos q) (xpos r)) as [[]|] eqn:B2; simpl in *; try discriminate.
    + apply opt_str_cmp_eq in A2. rewrite A2, B2. simpl. f_equal. injection H1 as H1. injection H2 as H2.
      eapply (cmp_trans _ lex_items_ok); eauto.
    + apply opt_str_cmp_eq in A2. rewrite A2, B2. auto.
    + apply opt_str_cmp_eq in B2. rewrite <- B2, A2. auto.
    + rewrite (opt_str_cmp_trans _ _ _ A2 B2). auto.
  - apply opt_str_cmp_eq in A1. rewrite A1, B1. auto.
  - apply opt_str_cmp_eq in B1. rewrite <- B1, A1. auto.
  - rewrite (opt_str_cmp_trans _ _ _ A1 B1). auto.
Qed.

Lemma opt_str_cmp_err a b : (exists c, opt_str_cmp a b = Ok c) <-> (a = None <-> b = None).
Proof.
  destruct a as [x|], b as [y|]; simpl; (split; [intros [c H]|intros [H1 H2]]); try discriminate;
    try (specialize (H1 eq_refl); discriminate); try (specialize (H2 eq_refl); discriminate); eauto;
    split; intros; auto; discriminate.
Qed.

Lemma pos_cmp_ok_iff p q : (exists c, pos_cmp p q = Ok c) <->
  (upos p = None <-> upos q = None) /\ (upos p = upos q -> (xpos p = None <-> xpos q = None)).
Proof.
  unfold pos_cmp. rewrite <- !opt_str_cmp_err. rewrite <- (opt_str_cmp_eq (upos p)).
  destruct (opt_str_cmp (upos p) (upos q)) as [[]|e]; simpl.
  - destruct (opt_str_cmp (xpos p) (xpos q)) as [[]|e]; simpl; (split; [intros [c H]|intros [_ H]]); try discriminate; eauto.
  - split; eauto. intros _. split; eauto. discriminate.
  - split; eauto. intros _. split; eauto. discriminate.
  - split; [intros [c H]; discriminate|]. intros [[c H] _]; discriminate.
Qed.

Lemma pos_cmp_outcome p q : (exists c, pos_cmp p q = Ok c) \/ pos_cmp p q = Err EType.
Proof.
  unfold pos_cmp, opt_str_cmp. destruct (upos p), (upos q); simpl; auto.
  - destruct (str_cmp s s0); eauto. destruct (xpos p), (xpos q); simpl; auto.
    + destruct (str_cmp s1 s2); eauto.
    + eauto.
  - destruct (xpos p), (xpos q); simpl; auto.
    + destruct (str_cmp s s0); eauto.
    + eauto.
Qed.

Lemma same_shape_cmp p q : same_shape p q -> exists c, pos_cmp p q = Ok c.
Proof. intros [H1 H2]. apply pos_cmp_ok_iff. auto. Qed.

(* ------------------------------------------------------------------ *)
(* Token equality *)

Lemma option_Z_eqb a b : option_eqb Z.eqb a b = true <-> a = b.
Proof. apply option_eqb_eq. apply Z.eqb_eq. Qed.

Lemma token_eqb_iff a b : token_full_wf a -> token_full_wf b ->
  (token_eqb a b = true <-> same_except_sentence_head a b).
Proof.
  intros (Wa & Pa & Ea) (Wb & Pb & Eb). unfold token_eqb, same_except_sentence_head, extras_eqb.
  rewrite !andb_true_iff, !Z.eqb_eq, !option_str_eqb, !option_Z_eqb, pyval_eqb_dict.
  inversion Ea as [| | | | |? Oa _]; subst. inversion Eb as [| | | | |? Ob _]; subst.
  rewrite (dict_eqb_ext _ _ _ Oa Ob).
  assert (X : option_eqb pos_eqb (tpos a) (tpos b) = true <-> get_rel pos_same (tpos a) (tpos b)).
  { destruct (tpos a) eqn:A, (tpos b) eqn:B; simpl; try (split; intros; auto; discriminate || tauto).
    apply pos_eqb_same; auto. }
  rewrite X. tauto.
Qed.

Lemma pos_same_refl p : pos_same p p.
Proof. repeat split; auto. Qed.

Lemma token_eqb_refl a : token_full_wf a -> token_eqb a a = true.
Proof.
  intros W. apply token_eqb_iff; auto. repeat split; auto.
  - destruct (tpos a); simpl; auto. apply pos_same_refl.
  - intros k. destruct W as (_ & _ & E). inversion E as [| | | | |? O F]; subst.
    destruct (dict_get (textras a) k) eqn:G; simpl; auto. apply pyval_eqb_refl. apply (get_snd _ _ _ _ F G).
Qed.

Lemma token_eqb_sym a b : token_full_wf a -> token_full_wf b -> token_eqb a b = true -> token_eqb b a = true.
Proof.
  intros Wa Wb H. apply token_eqb_iff in H; auto. apply token_eqb_iff; auto.
  destruct H as (H1&H2&H3&H4&H5&H6&H7&H8&H9). repeat split; auto.
  - destruct (tpos a), (tpos b); simpl in *; auto. destruct H3 as (?&?&?). repeat split; auto.
  - destruct Wa as (_&_&Ea), Wb as (_&_&Eb). inversion Ea as [| | | | |? Oa Fa]; subst. inversion Eb as [| | | | |? Ob Fb]; subst.
    intros k. specialize (H9 k). unfold get_rel in *.
    destruct (dict_get (textras a) k) eqn:A, (dict_get (textras b) k) eqn:B; auto.
    apply pyval_eqb_sym; auto; [apply (get_snd _ _ _ _ Fa A)|apply (get_snd _ _ _ _ Fb B)].
Qed.

Lemma token_eqb_trans a b c : token_full_wf a -> token_full_wf b -> token_full_wf c ->
  token_eqb a b = true -> token_eqb b c = true -> token_eqb a c = true.
Proof.
  intros Wa Wb Wc H G. apply token_eqb_iff in H; auto. apply token_eqb_iff in G; auto. apply token_eqb_iff; auto.
  destruct H as (H1&H2&H3&H4&H5&H6&H7&H8&H9). destruct G as (G1&G2&G3&G4&G5&G6&G7&G8&G9).
  repeat split; try congruence.
  - destruct (tpos a), (tpos b), (tpos c); simpl in *; auto; try tauto.
    destruct H3 as (?&?&?), G3 as (?&?&?). repeat split; congruence.
  - destruct Wa as (_&_&Ea), Wb as (_&_&Eb), Wc as (_&_&Ec).
    inversion Ea as [| | | | |? Oa Fa]; subst. inversion Eb as [| | | | |? Ob Fb]; subst. inversion Ec as [| | | | |? Oc Fc]; subst.
    intros k. specialize (H9 k). specialize (G9 k). unfold get_rel in *.
    destruct (dict_get (textras a) k) eqn:A, (dict_get (textras b) k) eqn:B, (dict_get (textras c) k) eqn:C; auto; try tauto.
    eapply pyval_eqb_trans with (y := p0); eauto; [apply (get_snd _ _ _ _ Fa A)|apply (get_snd _ _ _ _ Fb B)|apply (get_snd _ _ _ _ Fc C)].
Qed.

(* ------------------------------------------------------------------ *)
(* C17: printing *)

Lemma py_slice_same {A} (l : list A) a : 0 <= a -> py_slice l a a = [].
Proof. intros. rewrite py_slice_nonneg by lia. rewrite Z.sub_diag. auto. Qed.

Lemma py_slice_past {A} (l : list A) a : zlen l <= a -> py_slice l a (zlen l) = [].
Proof.
  intros H. pose proof (zlen_nonneg l). unfold py_slice, clamp_index.
  destruct (a <? 0) eqn:E; [lia|]. rewrite skipn_all2; [apply firstn_nil|].
  unfold zlen in *. lia.
Qed.

Lemma py_slice_join {A} (l : list A) a b c :
  0 <= a <= b -> b <= c -> py_slice l a b ++ py_slice l b c = py_slice l a c.
Proof. intros. symmetry. apply py_slice_split_nonneg; auto. Qed.

Lemma copied_app a b : copied (a ++ b) = copied a ++ copied b.
Proof. unfold copied. rewrite map_app, concat_app. auto. Qed.

(* spans follow each other from position p *)
Fixpoint laid_out (p : Z) (ts : list token) : Prop :=
  match ts with
  | [] => True
  | t :: ts' => p <= tstart t < tend t /\ laid_out (tend t) ts'
  end.
Fixpoint end_of (p : Z) (ts : list token) : Z :=
  match ts with [] => p | t :: ts' => end_of (tend t) ts' end.

Lemma end_of_app p a b : end_of p (a ++ b) = end_of (end_of p a) b.
Proof. revert p; induction a; simpl; auto. Qed.
Lemma laid_out_app p a b : laid_out p (a ++ b) <-> laid_out p a /\ laid_out (end_of p a) b.
Proof. revert p; induction a as [|t a IH]; intros p; simpl; [tauto|]. rewrite IH. tauto. Qed.
Lemma laid_out_end p ts : laid_out p ts -> p <= end_of p ts.
Proof. revert p; induction ts as [|t ts IH]; intros p; simpl; [lia|]. intros [H1 H2]. apply IH in H2. lia. Qed.

Lemma str_token_copied sp text p t : 0 <= p -> p <= tstart t < tend t ->
  copied (fst (str_token sp text p t)) = py_slice text p (tend t) /\ snd (str_token sp text p t) = tend t.
Proof.
  intros H0 H. unfold str_token. split; auto. cbn [fst]. rewrite !copied_app.
  destruct (tpos t), (tlemma t); unfold copied; simpl; rewrite !app_nil_r; apply py_slice_join; lia.
Qed.

Local Arguments str_token : simpl never.

Lemma str_tokens_copied sp text ts : forall p, 0 <= p -> laid_out p ts ->
  copied (fst (str_tokens sp text p ts)) = py_slice text p (end_of p ts) /\ snd (str_tokens sp text p ts) = end_of p ts.
Proof.
  induction ts as [|t ts IH]; intros p Hp H; cbn [str_tokens laid_out end_of] in *.
  - split; auto. unfold copied; simpl. symmetry. apply py_slice_same. lia.
  - destruct H as [H1 H2]. destruct (str_token_copied sp text p t) as [E1 E2]; auto.
    destruct (str_token sp text p t) as [ps p1]. simpl in E1, E2. subst p1.
    destruct (IH (tend t)) as [E3 E4]; [lia|auto|].
    destruct (str_tokens sp text (tend t) ts) as [ps' p2]. cbn [fst snd] in *. subst p2. split; auto.
    rewrite copied_app, E1, E3. apply py_slice_join; [lia|]. apply laid_out_end; auto.
Qed.

Lemma str_tokens_end sp text ts : forall p, snd (str_tokens sp text p ts) = end_of p ts.
Proof.
  induction ts as [|t ts IH]; intros p; simpl; auto.
  destruct (str_tokens sp text (tend t) ts) as [ps' p2] eqn:E. simpl. rewrite <- IH, E. auto.
Qed.

Lemma str_sents_total sp d ss : forall a p, 0 <= a -> tiles a (zlen (dtokens d)) ss ->
  exists ps, str_sents sp d p ss = Ok ps.
Proof.
  induction ss as [|s ss IH]; intros a p Ha T; simpl; eauto.
  inversion T as [|? ? ? ? E L T']; subst.
  pose proof (tiles_le _ _ _ T').
  destruct (py_index_ok (dtokens d) (sstart s)) as (f & -> & _); [lia|]. cbn [bind].
  destruct (str_tokens _ _ _ _) as [ps q]. destruct (IH (send s) q) as [rest ->]; [lia|auto|]. simpl. eauto.
Qed.

Lemma str_sents_copied sp d ss : forall a p ps, 0 <= a -> 0 <= p -> tiles a (zlen (dtokens d)) ss ->
  laid_out p (skipn (Z.to_nat a) (dtokens d)) ->
  str_sents sp d p ss = Ok ps -> copied ps = py_slice (dtext d) p (end_of p (skipn (Z.to_nat a) (dtokens d))).
Proof.
  induction ss as [|s ss IH]; intros a p ps Ha Hp T L H.
  - inversion T; subst. simpl in H. inversion H; subst. unfold copied; simpl.
    rewrite skipn_all2 by (unfold zlen; lia). simpl. symmetry; apply py_slice_same. lia.
  - inversion T as [|? ? ? ? E Ls T']; subst. cbn [str_sents] in H.
    pose proof (tiles_le _ _ _ T') as Le.
    destruct (py_index_ok (dtokens d) (sstart s)) as (f & Hf & Hn); [lia|]. rewrite Hf in H. cbn [bind] in H.
    rewrite tokens_of_slice in H by lia.
    assert (Sp : skipn (Z.to_nat (sstart s)) (dtokens d) = tokens_of (dtokens d) s ++ skipn (Z.to_nat (send s)) (dtokens d)).
    { unfold tokens_of. rewrite <- (firstn_skipn (Z.to_nat (send s - sstart s)) (skipn (Z.to_nat (sstart s)) (dtokens d))) at 1.
      f_equal. rewrite skipn_skipn'. f_equal. lia. }
    rewrite Sp in L |- *. rewrite end_of_app. apply laid_out_app in L. destruct L as [L1 L2].
    assert (Hd : exists l, tokens_of (dtokens d) s = f :: l).
    { unfold tokens_of. rewrite (skipn_cons _ _ _ Hn). replace (Z.to_nat (send s - sstart s)) with (S (Z.to_nat (send s - sstart s - 1))) by lia. simpl. eauto. }
    destruct Hd as [l Hl]. rewrite Hl in *.
    assert (Lf : laid_out (tstart f) (f :: l)) by (simpl in *; intuition lia).
    assert (Pf : p <= tstart f) by (simpl in L1; lia).
    pose proof (str_tokens_copied sp (dtext d) (f :: l) (tstart f) ltac:(lia) Lf) as [E1 E2].
    destruct (str_tokens sp (dtext d) (tstart f) (f :: l)) as [ps1 q] eqn:Est. cbn [fst snd] in E1, E2. subst q.
    apply bind_ok_iff in H. destruct H as (rest & Hr & H).
    assert (Hps : ps = Copied (py_slice (dtext d) p (tstart f)) :: Inserted (of_string "[") :: ps1 ++ Inserted (of_string "]") :: rest) by congruence.
    subst ps. clear H.
    replace (end_of (tstart f) (f :: l)) with (end_of p (f :: l)) in * by reflexivity.
    pose proof (laid_out_end _ _ L1) as Q1. pose proof (laid_out_end _ _ L2) as Q2. pose proof (laid_out_end _ _ Lf) as Q3.
    apply IH with (a := send s) in Hr; auto; try lia.
    change (copied (Copied (py_slice (dtext d) p (tstart f)) :: Inserted (of_string "[") :: ps1 ++ Inserted (of_string "]") :: rest))
      with (py_slice (dtext d) p (tstart f) ++ copied (ps1 ++ Inserted (of_string "]") :: rest)).
    rewrite copied_app. change (copied (Inserted (of_string "]") :: rest)) with (copied rest).
    rewrite E1, Hr. change (end_of (tstart f) (f :: l)) with (end_of p (f :: l)) in *.
    rewrite (py_slice_join _ (tstart f)) by lia.
    apply py_slice_join; lia.
Qed.

Lemma doc_str_total sp d : doc_inv d -> dtokens d <> [] -> exists ps, doc_str_pieces sp d = Ok ps.
Proof.
  intros I NE. unfold doc_str_pieces.
  assert (0 < zlen (dtokens d)) by (unfold zlen; destruct (dtokens d); [congruence|simpl; lia]).
  destruct (py_index_ok (dtokens d) 0) as (f & -> & _); [lia|]. cbn [bind].
  destruct (str_sents_total sp d (dsents d) 0 (tstart f)) as [b ->]; [lia|apply (inv_tiles _ I)|]. cbn [bind].
  rewrite py_index_neg by lia. destruct (py_index_ok (dtokens d) (-1 + zlen (dtokens d))) as (l & -> & _); [lia|].
  simpl. eauto.
Qed.

Lemma distinct_laid_out l : Forall token_wf l -> in_text_order l ->
  (forall i j a b, i <> j -> nth_error l i = Some a -> nth_error l j = Some b -> ~ same_span a b) ->
  forall p, (forall f, nth_error l 0 = Some f -> p <= tstart f) -> laid_out p l.
Proof.
  induction l as [|t l IH]; intros W O D p Hp; simpl; auto.
  inversion W as [|? ? Wt Wl]; subst. inversion O as [|? ? Ot Ol]; subst. split.
  - specialize (Hp t eq_refl). unfold token_wf in Wt. lia.
  - apply IH; auto.
    + intros i j a b Hij Ha Hb. apply (D (S i) (S j)); auto.
    + intros f Hf. destruct l as [|y l]; [discriminate|]. inversion Hf; subst.
      inversion Ot as [|? ? B _]; subst. destruct B as [B|[B _]]; auto.
      exfalso. apply (D 0%nat 1%nat t f); auto.
Qed.

Lemma end_of_last p l : l <> [] -> exists x, nth_error l (length l - 1) = Some x /\ end_of p l = tend x.
Proof.
  revert p. induction l as [|t l IH]; intros p NE; [congruence|].
  destruct l as [|y l].
  - exists t. auto.
  - destruct (IH (tend t)) as (x & Hx & E); [congruence|]. exists x. split; auto.
    simpl in *. rewrite Nat.sub_0_r in *. auto.
Qed.

Lemma doc_str_copied sp d ps : doc_inv d ->
  (forall i j a b, i <> j -> nth_error (dtokens d) i = Some a -> nth_error (dtokens d) j = Some b -> ~ same_span a b) ->
  doc_str_pieces sp d = Ok ps -> copied ps = dtext d.
Proof.
  intros I D H. unfold doc_str_pieces in H.
  apply bind_ok_iff in H. destruct H as (f & Hf & H).
  apply bind_ok_iff in H. destruct H as (body & Hb & H).
  apply bind_ok_iff in H. destruct H as (l & Hl & H). injection H as <-.
  destruct (dtokens d) as [|f' rest] eqn:Et; [discriminate|]. rewrite <- Et in *.
  assert (f' = f).
  { rewrite Et in Hf. unfold py_index, zlen in Hf. simpl in Hf. inversion Hf; auto. }
  subst f'.
  assert (Wf : token_wf f).
  { pose proof (inv_wf _ I) as W. rewrite Et in W. inversion W; auto. }
  assert (L : laid_out (tstart f) (dtokens d)).
  { apply distinct_laid_out; try apply I; auto. rewrite Et; simpl. intros x Hx; inversion Hx; lia. }
  apply str_sents_copied with (a := 0) in Hb; auto; try lia; try (unfold token_wf in Wf; lia); [|apply (inv_tiles _ I)].
  simpl skipn in Hb.
  assert (El : end_of (tstart f) (dtokens d) = tend l).
  { destruct (end_of_last (tstart f) (dtokens d)) as (x & Hx & E); [congruence|]. rewrite E.
    rewrite py_index_neg in Hl by (unfold zlen; rewrite Et; simpl; lia).
    rewrite py_index_nonneg in Hl by (unfold zlen; rewrite Et; simpl length; lia).
    replace (Z.to_nat (-1 + zlen (dtokens d))) with (length (dtokens d) - 1)%nat in Hl by (unfold zlen; lia).
    rewrite Hx in Hl. simpl in Hl. congruence. }
  change (Copied (py_slice (dtext d) 0 (tstart f)) :: body ++ [Copied (py_from (dtext d) (tend l))])
    with ([Copied (py_slice (dtext d) 0 (tstart f))] ++ body ++ [Copied (py_from (dtext d) (tend l))]).
  rewrite !copied_app. rewrite Hb, El. unfold copied at 1 2; simpl. rewrite !app_nil_r.
  pose proof (laid_out_end _ _ L). rewrite El in *. unfold token_wf in Wf.
  rewrite app_assoc, (py_slice_join _ 0 (tstart f) (tend l)) by lia.
  unfold py_from.
  destruct (Z.le_gt_cases (tend l) (zlen (dtext d))).
  - rewrite py_slice_join by lia. apply py_slice_all.
  - rewrite (py_slice_past (dtext d) (tend l)) by lia.
    rewrite (py_slice_nonneg (dtext d) 0) by lia. unfold zlen in *. simpl.
    rewrite firstn_all2 by lia. rewrite app_nil_r. auto.
Qed.

(* ------------------------------------------------------------------ *)
(* C06 *)

Lemma head_outside_rejected text ts ss s i t h d :
  Forall token_wf ts -> Forall sent_wf ss -> in_text_order ts ->
  In s ss -> nth_error ts i = Some t -> sstart s <= Z.of_nat i < send s ->
  thdoc t = Some h -> thsent t = None -> h <> -1 ->
  ~ (sstart s <= h < send s) -> h <> sstart s - 1 ->
  new_document text ts (Some ss) true <> Ok d.
Proof.
  intros W Ws O Hs Hi Hr Hd Hn N1 N2 N3 H.
  assert (NE : ts <> []) by (intros ->; destruct i; discriminate).
  apply new_document_true_ok in H; auto; try exact Ws. destruct H as [H V].
  pose proof (new_document_inv text ts (Some ss) false d W Ws H) as I.
  apply new_document_false_ok in H; auto. cbv zeta in H. rewrite in_text_order_sort in H by auto.
  simpl given_sents in H. destruct H as (_ & _ & T & _ & ->). cbn [dtokens dsents] in *.
  assert (Hs' : In s (sort_sents ss)) by (eapply Permutation_in; [apply sort_sents_perm|auto]).
  assert (Ws' : forall x, In x (sort_sents ss) -> sent_wf x /\ send x <= zlen (fill_all ts (sort_sents ss)) /\
            Forall (filled (sstart x)) (tokens_of (fill_all ts (sort_sents ss)) x)) by exact (doc_inv_sentences _ I).
  rewrite validate_all_iff in V by exact Ws'. specialize (V s Hs').
  rewrite (fill_all_tokens_of _ _ _ T Hs') in V.
  set (k := (i - Z.to_nat (sstart s))%nat).
  pose proof (tiles_in _ _ _ _ T Hs') as B.
  assert (Hk : nth_error (map shown_head (map (fill (sstart s)) (tokens_of ts s))) k = Some (Some (h - sstart s))).
  { rewrite !nth_error_map. rewrite tokens_of_nth by (unfold k; lia).
    replace (Z.to_nat (sstart s) + k)%nat with i by (unfold k; lia). rewrite Hi. simpl.
    unfold fill, filled_pair. rewrite Hd, Hn. unfold shown_head, set_heads, is_minus1. simpl.
    destruct (Z.eqb_spec h (-1)); [congruence|]. simpl. destruct (Z.eqb_spec h (-1)); [congruence|]. auto. }
  destruct V as [U|(_ & _ & R & _)].
  - unfold unparsed in U. rewrite Forall_forall in U. apply nth_error_In in Hk. apply U in Hk. discriminate.
  - specialize (R _ _ Hk). rewrite !map_length in R.
    pose proof (tokens_of_length ts s) as L. unfold zlen in *. lia.
Qed.
