(* Padding: values. *)
From Coq Require Import ZArith NArith QArith Bool List Permutation Lia.
From Verif Require Import Base BaseFacts Proofs_Datamodel Model_Vocab Model_Features Model_Builder Spec_Builder.
Import ListNotations.

Lemma nested_ind' (P : nested -> Prop) :
  (forall z, P (NInt z)) -> (forall l, Forall P l -> P (NList l)) -> forall x, P x.
Proof.
  intros HI HL. fix IH 1. intros [z|l]; [apply HI|]. apply HL.
  induction l as [|y l IHl]; constructor; auto.
Qed.

(* ---- fuel ---- *)

Lemma depths_le l y : In y l -> (depth y <= depths l)%nat.
Proof.
  unfold depths. induction l as [|x l IH]; simpl; [tauto|]. intros [->|H]; [lia|]. specialize (IH H). lia.
Qed.

Lemma depths_bound l n : Forall (fun y => depth y <= n)%nat l -> (depths l <= n)%nat.
Proof. unfold depths. induction 1; simpl; lia. Qed.

Lemma depths_items l : Exists (fun x => is_list x = true) l -> (depths (concat (map items l)) < depths l)%nat.
Proof.
  intros H.
  enough (Hb : Forall (fun y => depth y <= depths l - 1)%nat (concat (map items l)) /\ (1 <= depths l)%nat).
  { destruct Hb as [Hb ?]. apply depths_bound in Hb. lia. }
  split.
  - apply Forall_forall. intros y Hy. apply in_concat in Hy as [m [Hm Hy]].
    apply in_map_iff in Hm as [x [<- Hx]]. destruct x as [z|m]; [destruct Hy|].
    apply depths_le in Hx. cbn [depth items] in *. fold (depths m) in Hx. apply depths_le in Hy. lia.
  - apply Exists_exists in H as [x [Hx Hl]]. apply depths_le in Hx. destruct x; [discriminate|].
    cbn [depth] in Hx. lia.
Qed.

Lemma all_scalar l : forallb (fun x => negb (is_list x)) l = true <-> Forall (fun x => is_list x = false) l.
Proof.
  rewrite forallb_forall, Forall_forall. split; intros H x Hx; specialize (H x Hx); destruct (is_list x); auto; discriminate.
Qed.
Lemma all_list l : forallb is_list l = true <-> Forall (fun x => is_list x = true) l.
Proof. rewrite forallb_forall, Forall_forall. reflexivity. Qed.
Lemma some_list l : forallb (fun x => negb (is_list x)) l = false -> Exists (fun x => is_list x = true) l.
Proof.
  induction l as [|x l IH]; simpl; [discriminate|]. destruct (is_list x) eqn:E; simpl; intros H.
  - left; exact E.
  - right; auto.
Qed.

Lemma pad_seq_no_fuel fuel : forall l, (depths l <= fuel)%nat -> pad_seq fuel l <> Err EFuel.
Proof.
  induction fuel as [|fuel IH]; intros l Hd; cbn [pad_seq];
    destruct (forallb (fun x => negb (is_list x)) l) eqn:E1; try discriminate;
    destruct (forallb is_list l) eqn:E2; cbn [negb]; try discriminate.
  - apply some_list, depths_items in E1. lia.
  - specialize (IH (concat (map items l))).
    destruct (pad_seq fuel (concat (map items l))) as [[p f]|e]; cbn [bind]; [discriminate|].
    intros H; apply IH; [|congruence]. apply some_list, depths_items in E1. lia.
Qed.

(* ---- shapes ---- *)

Fixpoint shape (dims : list nat) (x : nested) : Prop :=
  match dims, x with
  | [], NInt _ => True
  | d :: ds, NList l => length l = d /\ (fix all (l : list nested) := match l with [] => True | y :: l' => shape ds y /\ all l' end) l
  | _, _ => False
  end.

Lemma shape_cons d ds l : shape (d :: ds) (NList l) <-> length l = d /\ Forall (shape ds) l.
Proof.
  cbn [shape]. enough (H : forall l', (fix all (l : list nested) := match l with [] => True | y :: l' => shape ds y /\ all l' end) l'
                       <-> Forall (shape ds) l') by (rewrite H; reflexivity).
  induction l' as [|y l' IH]; [split; auto|]. rewrite IH. split; [intros [? ?]; constructor; auto|inversion 1; auto].
Qed.

Fixpoint zeros (dims : list nat) : nested :=
  match dims with
  | [] => NInt 0
  | d :: ds => NList (repeat (zeros ds) d)
  end.

Lemma zeros_shape dims : shape dims (zeros dims).
Proof.
  induction dims as [|d ds IH]; [exact I|]. cbn [zeros]. apply shape_cons. split; [apply repeat_length|].
  apply Forall_forall. intros y Hy. apply repeat_spec in Hy. subst; exact IH.
Qed.

Lemma zeros_zero dims : forall p z, at_path p (zeros dims) = Some (NInt z) -> z = 0%Z.
Proof.
  induction dims as [|d ds IH]; intros [|i p] z; cbn [zeros at_path]; intros H; try congruence.
  destruct (nth_error (repeat (zeros ds) d) i) as [y|] eqn:E; [|discriminate].
  apply nth_error_In, repeat_spec in E. subst y. eapply IH; eauto.
Qed.

(* the entries stay, and what is added is built from the padding *)
Inductive grows : nested -> nested -> Prop :=
| g_int z : grows (NInt z) (NInt z)
| g_list l l' k dims : Forall2 grows l l' -> grows (NList l) (NList (l' ++ repeat (zeros dims) k)).

(* dims are the greatest lengths *)
Fixpoint fits (dims : list nat) (l : list nested) : Prop :=
  match dims with
  | [] => True
  | d :: ds => (exists e, In e l /\ is_list e = true /\ length (items e) = d) /\ fits ds (concat (map items l))
  end.

Lemma longest_ge lens n : In n lens -> (n <= longest lens)%nat.
Proof. unfold longest. induction lens as [|m lens IH]; simpl; [tauto|]. intros [->|H]; [lia|]. specialize (IH H); lia. Qed.
Lemma longest_in lens : lens <> [] -> In (longest lens) lens.
Proof.
  unfold longest. induction lens as [|m lens IH]; [congruence|]. intros _. simpl.
  destruct lens as [|n lens]; [left; simpl; lia|].
  destruct (Nat.max_spec m (fold_right Nat.max 0%nat (n :: lens))) as [[_ ->]|[_ ->]]; [right; apply IH; congruence|left; auto].
Qed.

Lemma regroup_concat {A} (lens : list nat) : forall (l : list A), length l = fold_right Nat.add 0%nat lens ->
  concat (regroup lens l) = l /\ map (@length A) (regroup lens l) = lens.
Proof.
  induction lens as [|n lens IH]; intros l H; cbn [regroup concat map fold_right] in *.
  - destruct l; [auto|discriminate].
  - destruct (IH (skipn n l)) as [E1 E2]; [rewrite skipn_length; lia|].
    rewrite E1, E2, firstn_skipn, firstn_length. split; [reflexivity|]. f_equal. lia.
Qed.

Lemma Forall_regroup {A} (P : A -> Prop) lens : forall l, Forall P l -> Forall (Forall P) (regroup lens l).
Proof.
  induction lens as [|n lens IH]; intros l H; cbn [regroup]; constructor.
  - rewrite <- (firstn_skipn n l) in H. apply Forall_app in H. tauto.
  - apply IH. rewrite <- (firstn_skipn n l) in H. apply Forall_app in H. tauto.
Qed.

Lemma Forall2_regroup {A B} (R : A -> B -> Prop) (ls : list (list A)) : forall l', Forall2 R (concat ls) l' ->
  Forall2 (Forall2 R) ls (regroup (map (@length A) ls) l').
Proof.
  induction ls as [|x ls IH]; intros l' H; cbn [regroup map concat] in *; constructor.
  - apply Forall2_app_inv_l in H as [l1 [l2 [H1 [H2 ->]]]].
    rewrite (Forall2_length' _ _ _ H1), firstn_app, firstn_all, Nat.sub_diag. simpl. rewrite app_nil_r. exact H1.
  - apply Forall2_app_inv_l in H as [l1 [l2 [H1 [H2 ->]]]].
    rewrite (Forall2_length' _ _ _ H1), skipn_app, skipn_all, Nat.sub_diag. simpl. auto.
Qed.

Lemma length_concat_sum {A} (ls : list (list A)) : length (concat ls) = fold_right Nat.add 0%nat (map (@length A) ls).
Proof. induction ls as [|x ls IH]; simpl; [auto|]. rewrite app_length, IH. reflexivity. Qed.

Lemma pad_seq_spec fuel : forall l p l', pad_seq fuel l = Ok (p, l') ->
  exists dims, Forall (shape dims) l' /\ p = zeros dims /\ Forall2 grows l l' /\ (l <> [] -> fits dims l) /\
               (l = [] -> dims = []) /\ (forall x, In x l -> is_list x = match dims with [] => false | _ => true end).
Proof.
  induction fuel as [|fuel IH]; intros l p l' H; cbn [pad_seq] in H;
    destruct (forallb (fun x => negb (is_list x)) l) eqn:E1.
  1, 3: injection H as <- <-; apply all_scalar in E1; exists []; repeat split; auto.
  1, 4: eapply Forall_impl; [|exact E1]; intros [z|m]; simpl; [auto|discriminate].
  1, 3: clear - E1; induction E1 as [|x l Hx E IH]; constructor; auto; destruct x; [constructor|discriminate].
  1, 2: intros x Hx; rewrite Forall_forall in E1; auto.
  { destruct (forallb is_list l); discriminate. }
  destruct (forallb is_list l) eqn:E2; cbn [negb] in H; [|discriminate].
  destruct (pad_seq fuel (concat (map items l))) as [[p1 f]|] eqn:E; cbn [bind fst snd] in H; [|discriminate].
  injection H as <- <-. apply IH in E as [dims [Hs [-> [Hg [Hf [Hn Hk]]]]]]. clear IH.
  apply all_list in E2. apply some_list in E1.
  set (lens := map (fun x => length (items x)) l) in *.
  assert (Hl : lens = map (@length nested) (map items l)) by (unfold lens; rewrite map_map; reflexivity).
  assert (Hlen : length f = fold_right Nat.add 0%nat lens).
  { rewrite <- (Forall2_length' _ _ _ Hg), length_concat_sum, Hl. reflexivity. }
  destruct (regroup_concat lens f Hlen) as [Hc Hr].
  exists (longest lens :: dims). repeat split.
  - apply Forall_map, Forall_forall. intros e He. apply shape_cons. split.
    + rewrite app_length, repeat_length.
      assert (length e <= longest lens)%nat; [|lia].
      apply longest_ge. rewrite <- Hr. apply in_map. exact He.
    + apply Forall_app. split.
      * pose proof (Forall_regroup _ lens _ Hs) as Hfr. rewrite Forall_forall in Hfr. auto.
      * apply Forall_forall. intros y Hy. apply repeat_spec in Hy. subst. apply zeros_shape.
  - apply Forall2_map_r. pose proof (Forall2_regroup _ _ _ Hg) as Hgr. rewrite <- Hl in Hgr.
    clear - Hgr E2. apply (proj1 (Forall2_map_l _ _ _ _)) in Hgr.
    revert Hgr. generalize (regroup lens f) as g. generalize (longest lens) as m. clear lens. intros m g Hgr.
    revert E2 g Hgr. induction l as [|x l IH]; intros E2 g Hgr; inversion Hgr; subst; constructor.
    + inversion E2; subst. destruct x as [|mm]; [discriminate|]. constructor. exact H1.
    + inversion E2; subst. apply IH; auto.
  - assert (Hin : In (longest lens) lens).
    { apply longest_in. unfold lens. apply Exists_exists in E1 as [x [Hx _]]. destruct l; [destruct Hx|discriminate]. }
    unfold lens in Hin at 2. apply in_map_iff in Hin as [e [He Hin]]. exists e. repeat split; auto.
    rewrite Forall_forall in E2. auto.
  - destruct (concat (map items l)) eqn:E; [|apply Hf; congruence]. rewrite Hn by reflexivity. exact I.
  - apply Exists_exists in E1 as [x [Hx _]]. intros ->. destruct Hx.
  - intros x Hx. rewrite Forall_forall in E2. auto.
Qed.

(* ---- positions ---- *)

Lemma shape_path dims : forall x p y, shape dims x -> at_path p x = Some y -> shape (skipn (length p) dims) y /\ (length p <= length dims)%nat.
Proof.
  induction dims as [|d ds IH]; intros x [|i p] y Hs H; cbn [at_path] in H.
  - injection H as ->. split; [exact Hs|simpl; lia].
  - destruct x; [discriminate|destruct Hs].
  - injection H as ->. split; [exact Hs|simpl; lia].
  - destruct x as [|l]; [discriminate|]. apply shape_cons in Hs as [_ Hs].
    destruct (nth_error l i) as [z|] eqn:E; [|discriminate]. apply nth_error_In in E.
    rewrite Forall_forall in Hs. destruct (IH z p y (Hs z E) H). simpl. split; [auto|lia].
Qed.

Lemma shape_is_list dims x : shape dims x -> is_list x = match dims with [] => false | _ => true end.
Proof. destruct dims, x; simpl; tauto. Qed.

Lemma grows_ind' (P : nested -> nested -> Prop) :
  (forall z, P (NInt z) (NInt z)) ->
  (forall l l' k dims, Forall2 grows l l' -> Forall2 P l l' -> P (NList l) (NList (l' ++ repeat (zeros dims) k))) ->
  forall x y, grows x y -> P x y.
Proof.
  intros HI HL. fix IH 3. intros x y [z|l l' k dims H]; [apply HI|]. apply HL; [exact H|].
  induction H; constructor; auto.
Qed.

Lemma grows_kept x y : grows x y -> kept_in x y.
Proof.
  revert x y. apply (grows_ind' kept_in).
  - intros z [|i p]; split; intros ? H; try discriminate H; exact H.
  - intros l l' k dims _ H [|i p]; split; cbn [at_path].
    + intros z Hz; discriminate.
    + intros m Hm. injection Hm as <-. eexists; split; [reflexivity|]. rewrite app_length.
      rewrite (Forall2_length' _ _ _ H). lia.
    + intros z Hz. destruct (nth_error l i) as [e|] eqn:E; [|discriminate].
      destruct (Forall2_nth _ _ _ _ _ H E) as [e' [E' He]].
      rewrite nth_error_app1 by (apply nth_error_Some; congruence). rewrite E'. apply (He p). exact Hz.
    + intros m Hm. destruct (nth_error l i) as [e|] eqn:E; [|discriminate].
      destruct (Forall2_nth _ _ _ _ _ H E) as [e' [E' He]].
      rewrite nth_error_app1 by (apply nth_error_Some; congruence). rewrite E'. apply (He p). exact Hm.
Qed.

Lemma grows_added x y : grows x y -> added_padding x y.
Proof.
  revert x y. apply (grows_ind' added_padding).
  - intros z [|i p] z' H1 H2; discriminate.
  - intros l l' k dims _ H [|i p] z; cbn [at_path]; [discriminate|]. intros H1 H2.
    destruct (nth_error (l' ++ repeat (zeros dims) k) i) as [e'|] eqn:E'; [|discriminate].
    destruct (Nat.lt_ge_cases i (length l')) as [Hi|Hi].
    + rewrite nth_error_app1 in E' by exact Hi. destruct (Forall2_nth_r _ _ _ _ _ H E') as [e [E He]].
      rewrite E in H2. eapply He; eauto.
    + rewrite nth_error_app2 in E' by exact Hi. apply nth_error_In, repeat_spec in E'. subst e'.
      eapply zeros_zero; eauto.
Qed.

(* elements at a depth below a sequence *)
Fixpoint level (d : nat) (l : list nested) : list nested :=
  match d with O => l | S d' => level d' (concat (map items l)) end.

Lemma level_path d : forall l e, In e (level d l) -> exists i p x, length p = d /\ nth_error l i = Some x /\ at_path p x = Some e.
Proof.
  induction d as [|d IH]; intros l e H; cbn [level] in H.
  - apply In_nth_error in H as [i Hi]. exists i, [], e. auto.
  - apply IH in H as [i [p [x [Hp [Hx Ha]]]]]. apply nth_error_In in Hx. apply in_concat in Hx as [m [Hm Hx]].
    apply in_map_iff in Hm as [y [<- Hy]]. apply In_nth_error in Hx as [j Hj]. apply In_nth_error in Hy as [k Hk].
    exists k, (j :: p), y. simpl. split; [lia|]. split; [exact Hk|].
    destruct y as [|m]; [destruct j; discriminate|]. cbn [items] in Hj. rewrite Hj. exact Ha.
Qed.

Lemma fits_level dims : forall l, l <> [] -> fits dims l -> forall d n, nth_error dims d = Some n ->
  exists e, In e (level d l) /\ is_list e = true /\ length (items e) = n.
Proof.
  induction dims as [|m ds IH]; intros l Hl Hf [|d] n Hn; cbn [nth_error level] in *; try discriminate; cbn [fits] in Hf; destruct Hf as [He Hf].
  - injection Hn as <-. exact He.
  - apply IH; auto. intros E. destruct ds as [|n' ds]; [destruct d; discriminate|].
    cbn [fits] in Hf. rewrite E in Hf. destruct Hf as [[e [Hx _]] _]. destruct Hx.
Qed.

Lemma nth_error_skipn {A} k : forall (l : list A) x r, skipn k l = x :: r -> nth_error l k = Some x.
Proof.
  induction k as [|k IH]; intros [|y l] x r H; cbn [skipn nth_error] in *; try discriminate; [congruence|eauto].
Qed.

Theorem pad_padded l p l' : pad l = Ok (p, l') -> padded (NList l) (NList l').
Proof.
  intros H. apply pad_seq_spec in H as [dims [Hs [Hp [Hg [Hf [Hn _]]]]]].
  assert (Hlen : length l = length l') by (eapply Forall2_length'; eauto).
  assert (Hsh : shape (length l' :: dims) (NList l')) by (apply shape_cons; auto).
  assert (Hgr : grows (NList l) (NList l')).
  { rewrite <- (app_nil_r l'). apply (g_list l l' 0 []). exact Hg. }
  repeat split.
  - intros q r a b Hqr Ha Hb. destruct (shape_path _ _ _ _ Hsh Ha) as [Sa _]. destruct (shape_path _ _ _ _ Hsh Hb) as [Sb _].
    apply shape_is_list in Sa, Sb. rewrite Hqr in Sa. congruence.
  - intros q r a b Hqr Ha Hb. destruct (shape_path _ _ _ _ Hsh Ha) as [Sa _]. destruct (shape_path _ _ _ _ Hsh Hb) as [Sb _].
    rewrite Hqr in Sa. destruct (skipn (length r) (length l' :: dims)); [destruct Sa|].
    apply shape_cons in Sa as [Sa _]. apply shape_cons in Sb as [Sb _]. congruence.
  - apply (grows_kept _ _ Hgr).
  - apply (grows_kept _ _ Hgr).
  - apply (grows_added _ _ Hgr).
  - intros q m Hm. destruct (shape_path _ _ _ _ Hsh Hm) as [Sm Hq]. destruct q as [|i q].
    + injection Hm as <-. exists [], l. auto.
    + cbn [length skipn] in *. destruct (skipn (length q) dims) as [|n r] eqn:E; [destruct Sm|].
      apply shape_cons in Sm as [Sm _]. apply nth_error_skipn in E.
      assert (Hl : l <> []). { intros ->. rewrite Hn in E by reflexivity. destruct (length q); discriminate. }
      destruct (fits_level _ _ Hl (Hf Hl) _ _ E) as [e [He [Hel Hee]]].
      apply level_path in He as [j [r' [x [Hr' [Hx Ha]]]]].
      destruct e as [|m']; [discriminate|]. exists (j :: r'), m'. cbn [length at_path]. rewrite Hx.
      repeat split; [lia|exact Ha|]. cbn [items] in Hee. lia.
Qed.

(* ---- homogeneity ---- *)

Definition homog_seq (l : list nested) : Prop :=
  forall d a b, In a (level d l) -> In b (level d l) -> is_list a = is_list b.

Lemma path_level p : forall l i x e, nth_error l i = Some x -> at_path p x = Some e -> In e (level (length p) l).
Proof.
  induction p as [|j p IH]; intros l i x e Hi Ha; cbn [at_path length level] in *.
  - injection Ha as ->. eapply nth_error_In; eauto.
  - destruct x as [|m]; [discriminate|]. destruct (nth_error m j) as [y|] eqn:E; [|discriminate].
    apply nth_error_In in Hi. assert (Hy : In y (concat (map items l))).
    { apply in_concat. exists m. split; [apply in_map_iff; exists (NList m); auto|eapply nth_error_In; eauto]. }
    apply In_nth_error in Hy as [k Hk]. eapply IH; eauto.
Qed.

Lemma homog_seq_iff l : homogeneous (NList l) <-> homog_seq l.
Proof.
  split.
  - intros H d a b Ha Hb. apply level_path in Ha as [i [p [x [Hp [Hx Ha]]]]]. apply level_path in Hb as [j [q [y [Hq [Hy Hb]]]]].
    apply (H (i :: p) (j :: q) a b); cbn [length at_path]; [lia|rewrite Hx; exact Ha|rewrite Hy; exact Hb].
  - intros H [|i p] [|j q] a b Hl Ha Hb; try discriminate Hl.
    + injection Ha as <-. injection Hb as <-. reflexivity.
    + cbn [at_path length] in *. injection Hl as Hl.
      destruct (nth_error l i) as [x|] eqn:Ei; [|discriminate]. destruct (nth_error l j) as [y|] eqn:Ej; [|discriminate].
      apply (H (length p)); [exact (path_level _ _ _ _ _ Ei Ha)|rewrite Hl; exact (path_level _ _ _ _ _ Ej Hb)].
Qed.

Lemma pad_seq_ok_iff fuel : forall l, (depths l <= fuel)%nat ->
  (homog_seq l -> exists pl, pad_seq fuel l = Ok pl) /\ (~ homog_seq l -> pad_seq fuel l = Err EValue).
Proof.
  assert (Hsc : forall l, forallb (fun x => negb (is_list x)) l = true -> homog_seq l).
  { intros l E1. apply all_scalar in E1. rewrite Forall_forall in E1. intros d a b Ha Hb.
    destruct d as [|d]; cbn [level] in *; [rewrite !E1; auto|].
    enough (E : concat (map items l) = []).
    { rewrite E in Ha. clear -Ha. exfalso. induction d as [|d IH]; cbn [level] in Ha; auto. }
    clear -E1. induction l as [|[z|m] l IH]; cbn [map items concat]; auto.
    - apply IH. intros; apply E1; right; auto.
    - discriminate (E1 (NList m)); left; auto. }
  induction fuel as [|fuel IH]; intros l Hd; cbn [pad_seq];
    destruct (forallb (fun x => negb (is_list x)) l) eqn:E1.
  1, 3: split; [eauto|intros H; exfalso; apply H; auto].
  { apply some_list, depths_items in E1. lia. }
  destruct (forallb is_list l) eqn:E2; cbn [negb].
  - pose proof (depths_items l (some_list l E1)) as Hd'. destruct (IH (concat (map items l)) ltac:(lia)) as [IH1 IH2].
    apply all_list in E2. rewrite Forall_forall in E2.
    assert (Hiff : homog_seq l <-> homog_seq (concat (map items l))).
    { split; intros H.
      - intros d. apply (H (S d)).
      - intros [|d]; [|apply (H d)]. cbn [level]. intros a b Ha Hb. rewrite !E2; auto. }
    split; intros H.
    + destruct IH1 as [[p f] E]; [tauto|]. rewrite E. cbn [bind]. eauto.
    + rewrite IH2 by tauto. reflexivity.
  - split; [|reflexivity]. intros H. exfalso. apply some_list, Exists_exists in E1 as [x [Hx Lx]].
    assert (forallb is_list l = true); [|congruence].
    apply forallb_forall. intros y Hy. rewrite <- Lx. apply (H 0%nat); auto.
Qed.

Theorem pad_ok l : homogeneous (NList l) -> exists p l', pad l = Ok (p, l').
Proof.
  intros H. apply homog_seq_iff in H. destruct (pad_seq_ok_iff (depths l) l (le_n _)) as [H1 _].
  destruct (H1 H) as [[p l'] E]. eauto.
Qed.

Lemma pad_err l : ~ homogeneous (NList l) -> pad l = Err EValue.
Proof.
  intros H. rewrite homog_seq_iff in H. destruct (pad_seq_ok_iff (depths l) l (le_n _)) as [_ H2]. auto.
Qed.
Lemma pad_raises_iff l : pad l = Err EValue <-> exists p q a b, length p = length q /\
  at_path p (NList l) = Some (NInt a) /\ at_path q (NList l) = Some (NList b).
Proof.
  split.
  - intros H.
    assert (Hdec : forall fuel m, pad_seq fuel m = Err EValue -> exists d a b, In (NInt a) (level d m) /\ In (NList b) (level d m)).
    { clear. induction fuel as [|fuel IH]; intros m; cbn [pad_seq];
        destruct (forallb (fun x => negb (is_list x)) m) eqn:E1; try discriminate;
        destruct (forallb is_list m) eqn:E2; cbn [negb]; try discriminate.
      2: { intros H. destruct (pad_seq fuel (concat (map items m))) as [[? ?]|e] eqn:E; cbn [bind] in H; [discriminate|].
           injection H as ->. apply IH in E as [d H]. exists (S d). exact H. }
      all: intros _; exists 0%nat; apply some_list, Exists_exists in E1 as [x [Hx Lx]];
        destruct x as [|b]; [discriminate|];
        assert (Hn : exists y, In y m /\ is_list y = false);
        [clear -E2; induction m as [|y m IH]; [discriminate|]; cbn [forallb] in E2;
         destruct (is_list y) eqn:Ey; [destruct (IH E2) as [w [? ?]]; exists w; split; [right|]; auto|exists y; split; [left|]; auto]|];
        destruct Hn as [y [Hy Ly]]; destruct y as [a|]; [|discriminate]; exists a, b; auto. }
    apply Hdec in H as [d [a [b [Ha Hb]]]].
    apply level_path in Ha as [i [p [x [Hp [Hx Ha]]]]]. apply level_path in Hb as [j [q [y [Hq [Hy Hb]]]]].
    exists (i :: p), (j :: q), a, b. cbn [length at_path]. rewrite Hx, Hy. repeat split; auto; lia.
  - intros [p [q [a [b [Hl [Ha Hb]]]]]]. apply pad_err. intros H. specialize (H _ _ _ _ Hl Ha Hb). discriminate.
Qed.
