(* The merge of dictionaries on the heap and the check of a grid *)
From Coq Require Import String ZArith NArith Bool Lia Permutation List.
From Verif Require Import Base BaseFacts Proofs_Datamodel Proofs_Builder3 Model_Grid Spec_Grid Proofs_Grid Proofs_Grid2 Proofs_Grid3 Proofs_Grid4.
Import ListNotations.
Open Scope nat_scope.

Section Grid.
Context {L : Type}.
Implicit Types (h : jheap L) (v : jval L) (j g b r base : json L) (d e : list (str * json L)) (o : dict (jval L)).

Lemma merge_heap b g h a ga fp fpg fuel : json_ok g ->
  owns h (VRef a) b fp -> owns h (VRef ga) g fpg -> NoDup (fp ++ fpg) -> length fpg <= fuel ->
  (unknown_key b g /\ merge fuel a ga h = Err EValue) \/
  (~ unknown_key b g /\ exists h' r, merge fuel a ga h = Ok h' /\ stands h' (VRef a) r /\ merged b g r /\
     forall c, ~ In c (fp ++ tl fpg) -> nth_error h' c = nth_error h c).
Proof.
  intros OK O OG ND LE. pose proof (merge_owns fuel g OK b h a ga fp fpg O OG ND LE) as M. destruct (mergej g b) as [r|] eqn:E.
  - right. split; [intros U; apply (mergej_none _ OK) in U; congruence|]. destruct M as (h' & fp' & EM & O' & _ & _ & _ & F & _).
    exists h', r. split; auto. split; [eapply (proj1 (owns_stands h')); eauto|]. split; auto. apply mergej_merged; auto.
  - left. split; auto. apply (mergej_none _ OK). auto.
Qed.

(* ---- the check ---- *)

Lemma path_eqb_spec p q : path_eqb p q = true <-> p = q.
Proof.
  destruct p as [p|], q as [q|]; cbn [path_eqb]; split; intros H; try discriminate; auto.
  - f_equal. revert q H. induction p as [|x p IH]; intros [|y q] H; try discriminate; auto. cbn [list_eqb] in H.
    apply andb_true_iff in H. destruct H as [A B]. destruct (str_eqb_spec x y); [subst; f_equal; auto|discriminate].
  - injection H as <-. induction p as [|x p IH]; auto. cbn [list_eqb]. rewrite IH. destruct (str_eqb_spec x x); auto; contradiction.
Qed.

Lemma existsb_path p s : existsb (path_eqb p) s = true <-> In p s.
Proof.
  rewrite existsb_exists. split.
  - intros (q & I & E). apply path_eqb_spec in E. subst. auto.
  - intros I. exists p. split; auto. apply path_eqb_spec. auto.
Qed.

Lemma set_add_in p s q : In q (set_add p s) <-> q = p \/ In q s.
Proof.
  unfold set_add. destruct (existsb (path_eqb p) s) eqn:E.
  - apply existsb_path in E. split; auto. intros [->|]; auto.
  - rewrite in_app_iff. cbn. firstorder.
Qed.

Lemma set_add_len p s : (In p s /\ set_add p s = s) \/ (~ In p s /\ set_add p s = s ++ [p]).
Proof.
  unfold set_add. destruct (existsb (path_eqb p) s) eqn:E.
  - left. split; auto. apply existsb_path. auto.
  - right. split; auto. intros I. apply existsb_path in I. congruence.
Qed.

Lemma first_path_key d : first_path (JDict d) (key_path (JDict d)).
Proof.
  assert (G : forall j, match j with JDict _ => first_path j (key_path j) | JLeaf _ => True end).
  { induction j as [x|d' IH] using json_ind2; auto. destruct d' as [|[k v] d']; [constructor|]. inversion IH as [|? ? Hv _]; subst.
    cbn [snd] in Hv. destruct v as [x|w]; [constructor|]. change (key_path (JDict ((k, JDict w) :: d'))) with (option_map (cons k) (key_path (JDict w))).
    destruct (key_path (JDict w)) as [p|]; cbn [option_map]; constructor; auto. }
  exact (G (JDict d)).
Qed.

Lemma first_path_is j p : first_path j p -> p = key_path j /\ exists d, j = JDict d.
Proof.
  intros H. split; [|inversion H; eauto]. induction H as [|k x d|k v d H IH|k v d p H IH]; auto.
  - change (key_path (JDict ((k, JDict v) :: d))) with (option_map (cons k) (key_path (JDict v))). rewrite <- IH. auto.
  - change (key_path (JDict ((k, JDict v) :: d))) with (option_map (cons k) (key_path (JDict v))). rewrite <- IH. auto.
Qed.

Definition paths (js : list (json L)) (s : list (option (list str))) : list (option (list str)) :=
  fold_left (fun s j => set_add (key_path j) s) js s.

Lemma inner js : Forall (fun j => exists d, j = JDict d) js -> forall s,
  foldM (fun s j => do p <- alt_path j; Ok (set_add p s)) s js = Ok (paths js s).
Proof.
  induction 1 as [|j js (d & ->) F IH]; intros s; cbn [foldM]; auto. cbn [alt_path bind]. rewrite IH. auto.
Qed.

Lemma paths_in js : forall s q, In q (paths js s) <-> In q s \/ exists j, In j js /\ q = key_path j.
Proof.
  induction js as [|j js IH]; intros s q; unfold paths; cbn [fold_left].
  - firstorder.
  - fold (paths js (set_add (key_path j) s)). rewrite IH, set_add_in. cbn [In]. split.
    + intros [[->|H]|(j' & I & E)]; [right; eauto|auto|right; eauto].
    + intros [H|(j' & [<-|I] & E)]; auto. right. eauto.
Qed.

Lemma paths_one_stays js p : Forall (fun j => key_path j = p) js -> paths js [p] = [p].
Proof.
  induction 1 as [|j js E F IH]; auto. unfold paths in *. cbn [fold_left]. rewrite E.
  destruct (set_add_len p [p]) as [[_ ->]|[N _]]; auto. exfalso. apply N. left. auto.
Qed.

Lemma paths_one js : length (paths js []) = 1 <-> js <> [] /\ exists p, Forall (fun j => key_path j = p) js.
Proof.
  split.
  - intros H. destruct (paths js []) as [|p [|q s]] eqn:E; try discriminate. split; [intros ->; discriminate|].
    exists p. apply Forall_forall. intros j I. assert (X : In (key_path j) (paths js [])) by (apply paths_in; right; eauto).
    rewrite E in X. destruct X as [X|[]]. auto.
  - intros [NE (p & F)]. destruct js as [|j js]; [contradiction|]. inversion F; subst. unfold paths. cbn [fold_left].
    change (set_add (key_path j) []) with [key_path j]. fold (paths js [key_path j]). rewrite paths_one_stays; auto.
Qed.

Definition dicts (g : grid L) : Prop := Forall (fun kv => Forall (fun j => exists d, j = JDict d) (snd kv)) g.
Definition common (kv : str * list (json L)) (p : option (list str)) : Prop := snd kv <> [] /\ Forall (fun j => first_path j p) (snd kv).

Lemma outer (g : grid L) : dicts g -> forall big,
  (exists ps, Forall2 common g ps /\
     foldM (fun big kv =>
              do new <- foldM (fun s j => do p <- alt_path j; Ok (set_add p s)) [] (snd kv);
              do _ <- raise_if (negb (length new =? 1)%nat) EValue;
              Ok (fold_left (fun s p => set_add p s) new big)) big g = Ok (fold_left (fun s p => set_add p s) ps big)) \/
  ((forall ps, ~ Forall2 common g ps) /\
     foldM (fun big kv =>
              do new <- foldM (fun s j => do p <- alt_path j; Ok (set_add p s)) [] (snd kv);
              do _ <- raise_if (negb (length new =? 1)%nat) EValue;
              Ok (fold_left (fun s p => set_add p s) new big)) big g = Err EValue).
Proof.
  induction 1 as [|[k js] g D F IH]; intros big.
  - left. exists []. split; constructor.
  - cbn [foldM snd] in *. rewrite (inner js D). cbn [bind].
    destruct (Nat.eqb_spec (length (paths js [])) 1) as [E|NE].
    + cbn [negb raise_if bind]. pose proof E as E0. apply paths_one in E. destruct E as (NE & p & FP).
      assert (EP : paths js [] = [p]).
      { destruct js as [|j js]; [contradiction|]. inversion FP; subst. unfold paths. cbn [fold_left]. apply (paths_one_stays js (key_path j)). auto. }
      assert (C : common (k, js) p).
      { split; auto. cbn [snd]. rewrite Forall_forall in *. intros j I. destruct (D j I) as (d & ->). rewrite <- (FP _ I). apply first_path_key. }
      rewrite EP. cbn [fold_left]. destruct (IH (set_add p big)) as [(ps & A & B)|(A & B)].
      * left. exists (p :: ps). split; [constructor; auto|]. exact B.
      * right. split; [intros ps H; inversion H; subst; eapply A; eauto|]. exact B.
    + right. split; [|reflexivity]. intros ps H. inversion H as [|? p ? ps' [C1 C2] H']; subst. apply NE, paths_one. split; auto. exists p.
      cbn [snd] in C2. eapply Forall_impl; [|exact C2]. cbn. intros j FP. symmetry. apply first_path_is. auto.
Qed.

Lemma set_adds ps : forall s, NoDup s -> length (fold_left (fun s p => set_add p s) ps s) <= length s + length ps /\
  (length (fold_left (fun s p => set_add p s) ps s) = length s + length ps <-> NoDup (s ++ ps)).
Proof.
  induction ps as [|p ps IH]; intros s N; cbn [fold_left length].
  - rewrite app_nil_r. split; [lia|]. split; auto.
  - destruct (set_add_len p s) as [[I ->]|[NI ->]].
    + destruct (IH s N) as [A B]. split; [lia|]. split; [lia|]. intros X. exfalso. apply NoDup_app_iff in X. destruct X as (_ & _ & X).
      apply (X p I). left. auto.
    + assert (N' : NoDup (s ++ [p])).
      { apply NoDup_app_iff. split; auto. split; [repeat constructor; intros []|]. intros q I [<-|[]]. auto. }
      destruct (IH _ N') as [A B]. rewrite app_length in *. cbn [length] in *. rewrite <- app_assoc in B. cbn [app] in B. split; [lia|].
      rewrite <- B. lia.
Qed.

Lemma check_iff (g : grid L) : dicts g ->
  (check_grid g = Ok tt <-> exists ps, NoDup ps /\ Forall2 common g ps) /\ (check_grid g = Ok tt \/ check_grid g = Err EValue).
Proof.
  intros D. unfold check_grid. destruct (outer g D []) as [(ps & A & ->)|(A & ->)]; cbn [bind].
  - destruct (set_adds ps [] ltac:(constructor)) as [_ B]. cbn [length app] in B. rewrite <- (Forall2_length' _ _ _ A) in B. cbn [plus] in B.
    set (n := length (fold_left _ ps [])) in *. destruct (Nat.eqb_spec n (length g)) as [E|NE].
    + cbn. split; auto. split; auto. intros _. exists ps. split; auto. apply B. auto.
    + cbn. split; auto. split; [discriminate|]. intros (qs & N & C). exfalso. apply NE, B. replace ps with qs; auto.
      clear - A C. revert qs C. induction A as [|kv p g ps [C1 C2] A IH]; intros qs C; inversion C as [|? q ? qs' [D1 D2] C']; subst; auto. f_equal; auto.
      destruct (snd kv) as [|j js]; [contradiction|]. inversion C2 as [|? ? X _]; inversion D2 as [|? ? Y _]; subst.
      destruct (first_path_is _ _ X) as [-> _]. destruct (first_path_is _ _ Y) as [-> _]. auto.
  - split; auto. split; [discriminate|]. intros (ps & _ & C). exfalso. eapply A; eauto.
Qed.

Lemma single_path j p x : single j -> at_path p j = Some (JLeaf x) -> first_path j (Some p).
Proof.
  intros S. revert p. induction S as [k y|k v S IH]; intros p H.
  - destruct p as [|k' p]; [discriminate|]. cbn [at_path] in H. cbn [dict_get] in H. destruct (str_eqb_spec k' k) as [->|]; [|discriminate].
    destruct p; [|discriminate]. constructor.
  - destruct p as [|k' p]; [discriminate|]. cbn [at_path] in H. cbn [dict_get] in H. destruct (str_eqb_spec k' k) as [->|]; [|discriminate].
    constructor. auto.
Qed.

Lemma overlap_refused (g : grid L) : Forall (fun kv => Forall single (snd kv)) g -> overlapping g -> check_grid g = Err EValue.
Proof.
  intros S (i & i' & k & k' & alts & alts' & a & a' & p & x & y & NE & G & G' & I & I' & P & P').
  assert (D : dicts g).
  { unfold dicts. eapply Forall_impl; [|exact S]. intros kv F. eapply Forall_impl; [|exact F]. intros j SJ. inversion SJ; eauto. }
  destruct (check_iff g D) as [IF [OK|E]]; auto. exfalso. apply IF in OK. destruct OK as (ps & N & C).
  rewrite Forall_forall in S. pose proof (S _ (nth_error_In _ _ G)) as S1. pose proof (S _ (nth_error_In _ _ G')) as S2. cbn [snd] in *.
  rewrite Forall_forall in S1, S2.
  destruct (Forall2_nth _ _ _ i _ C G) as (q & Q & _ & F). destruct (Forall2_nth _ _ _ i' _ C G') as (q' & Q' & _ & F'). cbn [snd] in *.
  rewrite Forall_forall in F, F'. destruct (first_path_is _ _ (F _ I)) as [EQ _]. destruct (first_path_is _ _ (F' _ I')) as [EQ' _].
  destruct (first_path_is _ _ (single_path _ _ _ (S1 _ I) P)) as [EA _]. destruct (first_path_is _ _ (single_path _ _ _ (S2 _ I') P')) as [EA' _].
  apply NE. rewrite NoDup_nth_error in N. apply N; [apply nth_error_Some; congruence|]. congruence.
Qed.

(* ---- for concrete cases ---- *)

Lemma fits_leaf (x y : L) : fits (JLeaf x) (JLeaf y).
Proof. intros [|k p]; cbn; eauto. Qed.

Lemma fits_intro e d : Forall (fun kv => exists b, dict_get e (fst kv) = Some b /\ fits b (snd kv)) d -> fits (JDict e) (JDict d).
Proof.
  intros F [|k p]; cbn [at_path]; eauto. destruct (dict_get d k) as [v|] eqn:E; [|exact Logic.I].
  apply dict_get_In in E. rewrite Forall_forall in F. destruct (F _ E) as (b & Eb & Fb). cbn [fst snd] in *. rewrite Eb. apply Fb.
Qed.

Lemma stands_fun h j : forall v j', stands h v j -> stands h v j' -> j = j'.
Proof.
  induction j as [x|d IH] using json_ind2; intros v j' S1 S2.
  - cbn in S1. subst v. destruct j' as [y|d']; [cbn in S2; injection S2 as ->; auto|]. destruct S2 as (a & o & E & _). discriminate.
  - destruct S1 as (a & o & -> & EA & S1). destruct j' as [y|d']; [cbn in S2; discriminate|].
    destruct S2 as (a' & o' & E & EA' & S2). injection E as <-. rewrite EA in EA'. injection EA' as <-. f_equal. clear EA.
    revert o d' S1 S2. induction IH as [|[k j] d Hj IH IHd]; intros o d' S1 S2.
    + subst o. destruct d' as [|[k' j'] d']; auto. destruct S2 as (w & o' & E & _). discriminate.
    + destruct S1 as (w & o1 & -> & S1 & S1'). destruct d' as [|[k' j'] d']; [discriminate|].
      destruct S2 as (w' & o2 & E & S2 & S2'). injection E as <- <- <-. f_equal; [|eapply IHd; eauto]. f_equal. eapply Hj; eauto.
Qed.

Lemma load_own j h : exists fp, owns (snd (load j h)) (fst (load j h)) j fp /\ NoDup fp /\ Forall (fun a => length h <= a) fp /\
  forall a, a < length h -> nth_error (snd (load j h)) a = nth_error h a.
Proof.
  destruct (load_owns j h) as (fp & ext & O & E & N & B). exists fp. rewrite E. split; auto. split; auto. split.
  - eapply Forall_impl; [|exact B]. cbn. lia.
  - intros a LT. apply nth_error_app1. auto.
Qed.
End Grid.
