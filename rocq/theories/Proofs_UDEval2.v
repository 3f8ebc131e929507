(* The alignment of words: longest common subsequences, multiword spans, termination. *)
From Coq Require Import String ZArith NArith QArith Bool Sorted Lia List.
From Verif Require Import Base BaseFacts Model_Datamodel Model_Conllu Spec_Datamodel Spec_Conllu Model_UDEval Spec_UDEval Proofs_UDEval.
Import ListNotations.
Open Scope Z_scope.

(* ---- the length of a longest common subsequence ---- *)

Fixpoint llen (xs : list str) : list str -> Z :=
  fix inner (ys : list str) : Z :=
    match xs, ys with
    | x :: xs', y :: ys' => Z.max (Z.max (if str_eqb x y then 1 + llen xs' ys' else 0) (llen xs' ys)) (inner ys')
    | _, _ => 0
    end.

Lemma llen_nil_r xs : llen xs [] = 0.
Proof. destruct xs; reflexivity. Qed.
Lemma llen_nil_l ys : llen [] ys = 0.
Proof. destruct ys; reflexivity. Qed.
Lemma llen_cons x xs y ys :
  llen (x :: xs) (y :: ys) = Z.max (Z.max (if str_eqb x y then 1 + llen xs ys else 0) (llen xs (y :: ys))) (llen (x :: xs) ys).
Proof. reflexivity. Qed.

Lemma llen_nonneg xs ys : 0 <= llen xs ys.
Proof.
  revert ys. induction xs as [|x xs IH]; intro ys; [rewrite llen_nil_l; lia|].
  induction ys as [|y ys IHy]; [rewrite llen_nil_r; lia|]. rewrite llen_cons. lia.
Qed.

Lemma llen_upper zs xs ys : subseq zs xs -> subseq zs ys -> zlen zs <= llen xs ys.
Proof.
  revert zs ys. induction xs as [|x xs IH]; intros zs ys Hx.
  - apply subseq_nil_r in Hx. subst. intros _. rewrite llen_nil_l. unfold zlen; cbn; lia.
  - revert zs Hx. induction ys as [|y ys IHy]; intros zs Hx Hy.
    + apply subseq_nil_r in Hy. subst. rewrite llen_nil_r. unfold zlen; cbn; lia.
    + rewrite llen_cons. inversion Hx as [|z k k' Hk|z k k' Hk]; subst.
      * unfold zlen; cbn [length]. pose proof (llen_nonneg (x :: xs) ys). lia.
      * inversion Hy as [|z' m m' Hm|z' m m' Hm]; subst.
        -- rewrite str_eqb_refl. specialize (IH _ _ Hk Hm). unfold zlen in *. cbn [length]. lia.
        -- specialize (IHy _ Hx Hm). lia.
      * specialize (IH _ _ Hk Hy). lia.
Qed.

(* adding one element adds at most one *)
Lemma llen_step_r xs y ys : llen xs (y :: ys) <= 1 + llen xs ys.
Proof.
  revert y ys. induction xs as [|x xs IH]; intros y ys.
  - rewrite llen_nil_l. pose proof (llen_nonneg [] ys). lia.
  - rewrite llen_cons. pose proof (IH y ys).
    assert (llen xs ys <= llen (x :: xs) ys).
    { destruct ys as [|y' ys]; [rewrite !llen_nil_r; lia|]. rewrite (llen_cons x). lia. }
    pose proof (llen_nonneg (x :: xs) ys). destruct (str_eqb x y); lia.
Qed.

Lemma llen_step_l x xs ys : llen (x :: xs) ys <= 1 + llen xs ys.
Proof.
  induction ys as [|y ys IH].
  - rewrite !llen_nil_r. lia.
  - rewrite llen_cons.
    assert (llen xs ys <= llen xs (y :: ys)).
    { destruct xs as [|x' xs]; [rewrite !llen_nil_l; lia|]. rewrite (llen_cons x'). lia. }
    pose proof (llen_nonneg xs (y :: ys)). destruct (str_eqb x y); lia.
Qed.

Lemma llen_match x xs ys : llen (x :: xs) (x :: ys) = 1 + llen xs ys.
Proof.
  rewrite llen_cons, str_eqb_refl. pose proof (llen_step_r xs x ys). pose proof (llen_step_l x xs ys). lia.
Qed.

Section Align.

Variable lower : str -> str.
Let key (w : word) := lower (form w).
Let L (g s : list word) := llen (map key g) (map key s).

Lemma same_form_eqb w v : same_form lower w v = str_eqb (key w) (key v).
Proof. reflexivity. Qed.

Lemma nth_S_tl {A} (l : list A) n d : nth (S n) l d = nth n (tl l) d.
Proof. destruct l; cbn; [now destruct n|reflexivity]. Qed.
Lemma nth_0_hd {A} (l : list A) d : nth 0 l d = hd d l.
Proof. destruct l; reflexivity. Qed.

(* the table row of the gold words g *)
Definition row_ok (g s : list word) (row : list Z) : Prop := forall k, nth k row 0 = L g (skipn k s).
Definition rows_ok (g s : list word) (rows : list (list Z)) : Prop := forall j, row_ok (skipn j g) s (nth j rows []).

Lemma row_ok_tl g v s row : row_ok g (v :: s) row -> row_ok g s (tl row).
Proof. intros H k. rewrite <- nth_S_tl. apply (H (S k)). Qed.

Lemma lcs_row_ok w g : forall s below, row_ok g s below -> row_ok (w :: g) s (lcs_row lower w s below).
Proof.
  induction s as [|v s IH]; intros below H k.
  - cbn [lcs_row]. unfold L. destruct k; cbn [skipn nth map]; now rewrite llen_nil_r.
  - pose proof (IH _ (row_ok_tl _ _ _ _ H)) as R. cbn [lcs_row]. destruct k as [|k].
    + cbn [nth skipn]. unfold L. cbn [map]. rewrite llen_cons, same_form_eqb.
      rewrite <- !nth_0_hd. rewrite (R 0%nat), (H 0%nat), <- nth_S_tl, (H 1%nat). reflexivity.
    + apply R.
Qed.

Lemma row_ok_nil s : row_ok [] s [].
Proof. intro k. unfold L. cbn [map]. rewrite llen_nil_l. now destruct k. Qed.

Lemma compute_lcs_ok s : forall g, rows_ok g s (compute_lcs lower g s).
Proof.
  induction g as [|w g IH]; intro j.
  - cbn [compute_lcs]. destruct j; apply row_ok_nil.
  - cbn [compute_lcs]. destruct j as [|j].
    + cbn [nth skipn]. apply lcs_row_ok. rewrite <- nth_0_hd. apply (IH 0%nat).
    + apply IH.
Qed.

Lemma rows_ok_tl w g s rows : rows_ok (w :: g) s rows -> rows_ok g s (tl rows).
Proof. intros H j. rewrite <- nth_S_tl. apply (H (S j)). Qed.

Lemma rows_ok_map_tl g v s rows : rows_ok g (v :: s) rows -> rows_ok g s (map (@tl Z) rows).
Proof.
  intros H j. replace (nth j (map (@tl Z) rows) []) with (tl (nth j rows [])).
  - eapply row_ok_tl, H.
  - change (@nil Z) with (tl (@nil Z)) at 2. now rewrite map_nth.
Qed.

Lemma lcs_walk_ok : forall fuel g s rows, (length g + length s <= fuel)%nat -> rows_ok g s rows ->
  exists ps, lcs_walk lower fuel g s rows = Ok ps /\
    subseq (map fst ps) g /\ subseq (map snd ps) s /\
    Forall (fun p => key (fst p) = key (snd p)) ps /\ zlen ps = L g s.
Proof.
  induction fuel as [|fuel IH]; intros g s rows F H.
  - destruct g, s; cbn in F; try lia. exists []. cbn. repeat split; constructor.
  - destruct g as [|w g]; [exists []; cbn [lcs_walk]; repeat split; try constructor; unfold L; cbn [map]; now rewrite llen_nil_l|].
    destruct s as [|v s]; [exists []; cbn [lcs_walk]; repeat split; try constructor; unfold L; cbn [map]; now rewrite llen_nil_r|].
    cbn [lcs_walk]. rewrite same_form_eqb. cbn [length] in F. destruct (str_eqb (key w) (key v)) eqn:E.
    + destruct (IH g s (map (@tl Z) (tl rows)) ltac:(lia)) as (ps & E1 & S1 & S2 & K & N).
      { eapply rows_ok_map_tl, rows_ok_tl, H. }
      rewrite E1. exists ((w, v) :: ps). cbn [bind map fst snd].
      apply str_eqb_eq in E.
      split; [reflexivity|]. split; [constructor; auto|]. split; [constructor; auto|].
      split; [constructor; auto|]. unfold L in *. cbn [map]. rewrite E, llen_match. unfold zlen in *. cbn [length]. lia.
    + assert (A : hd 0 (hd [] rows) = L (w :: g) (v :: s)).
      { rewrite <- !nth_0_hd. apply (H 0%nat 0%nat). }
      assert (B : hd 0 (hd [] (tl rows)) = L g (v :: s)).
      { rewrite <- !nth_0_hd, <- nth_S_tl. apply (H 1%nat 0%nat). }
      rewrite A, B. unfold L in *. cbn [map] in *. rewrite llen_cons, E in *.
      pose proof (llen_nonneg (map key g) (key v :: map key s)).
      match goal with |- context [?a =? ?b] => destruct (Z.eqb_spec a b) as [Q|Q] end.
      * destruct (IH g (v :: s) (tl rows)) as (ps & E1 & S1 & S2 & K & N); [cbn [length]; lia|eapply rows_ok_tl, H|].
        rewrite E1. exists ps. split; [reflexivity|]. split; [constructor; auto|]. split; [auto|]. split; [auto|].
        cbn [map] in N. lia.
      * destruct (IH (w :: g) s (map (@tl Z) rows)) as (ps & E1 & S1 & S2 & K & N); [cbn [length]; lia|eapply rows_ok_map_tl, H|].
        rewrite E1. exists ps. split; [reflexivity|]. split; [auto|]. split; [constructor; auto|]. split; [auto|].
        cbn [map] in N. lia.
Qed.

Lemma lcs_walk_longest g s :
  exists ps, lcs_walk lower (length g + length s) g s (compute_lcs lower g s) = Ok ps /\
    subseq (map fst ps) g /\ subseq (map snd ps) s /\
    Forall (fun p => key (fst p) = key (snd p)) ps /\
    longest_common (map (fun p => key (fst p)) ps) (map key g) (map key s).
Proof.
  destruct (lcs_walk_ok _ g s _ (le_n _) (compute_lcs_ok s g)) as (ps & E & S1 & S2 & K & N).
  exists ps. split; [exact E|]. split; [exact S1|]. split; [exact S2|]. split; [exact K|].
  split; [|split].
  - rewrite <- map_map. now apply subseq_map.
  - replace (map (fun p => key (fst p)) ps) with (map key (map snd ps)); [now apply subseq_map|].
    rewrite map_map. apply map_ext_in. intros p I0. symmetry. rewrite Forall_forall in K. auto.
  - intros ys H1 H2. rewrite map_length. pose proof (llen_upper _ _ _ H1 H2) as U.
    unfold L in N. unfold zlen in *. lia.
Qed.

(* ---- the multiword span ---- *)

Lemma beyond_end_spec ws e : beyond_end ws e = true <-> (forall w, hd_error ws = Some w -> outside e w).
Proof.
  destruct ws as [|w ws]; cbn [beyond_end hd_error].
  - split; [discriminate|reflexivity].
  - unfold outside. split.
    + intros H x [= <-]. destruct (w_multi w); lia.
    + intro H. specialize (H w eq_refl). destruct (w_multi w); lia.
Qed.

Lemma extend_end_le w e : e <= extend_end w e.
Proof. unfold extend_end. destruct (w_multi w), (Z.ltb_spec e (sp_end (w_span w))); cbn; lia. Qed.
Lemma extend_end_multi w e : w_multi w = true -> sp_end (w_span w) <= extend_end w e.
Proof. unfold extend_end. intros ->. destruct (Z.ltb_spec e (sp_end (w_span w))); cbn; lia. Qed.
Lemma extend_end_cases w e : extend_end w e = e \/ w_multi w = true /\ extend_end w e = sp_end (w_span w).
Proof. unfold extend_end. destruct (w_multi w), (Z.ltb_spec e (sp_end (w_span w))); cbn; auto. Qed.

Record span_result (g s : list word) (e : Z) (gs ss gr sr : list word) (e' : Z) : Prop := {
  sr_gold : g = gs ++ gr;
  sr_system : s = ss ++ sr;
  sr_le : e <= e';
  sr_end : e' = e \/ exists w, In w (gs ++ ss) /\ w_multi w = true /\ sp_end (w_span w) = e';
  sr_max : forall w, In w (gs ++ ss) -> w_multi w = true -> sp_end (w_span w) <= e';
  sr_g : forall w, hd_error gr = Some w -> outside e' w;
  sr_s : forall w, hd_error sr = Some w -> outside e' w
}.

Lemma span_result_gold w g s e gs ss gr sr e' :
  span_result g s (extend_end w e) gs ss gr sr e' -> span_result (w :: g) s e (w :: gs) ss gr sr e'.
Proof.
  intros []. constructor; auto.
  - now rewrite sr_gold0.
  - pose proof (extend_end_le w e). lia.
  - destruct sr_end0 as [->|(x & I0 & M & E)].
    + destruct (extend_end_cases w e) as [->|[M E]]; auto. right. exists w. cbn. auto.
    + right. exists x. cbn. auto.
  - intros x [->|I0] M; auto. pose proof (extend_end_multi x e M). lia.
Qed.

Lemma span_result_system v g s e gs ss gr sr e' :
  span_result g s (extend_end v e) gs ss gr sr e' -> span_result g (v :: s) e gs (v :: ss) gr sr e'.
Proof.
  intros []. constructor; auto.
  - now rewrite sr_system0.
  - pose proof (extend_end_le v e). lia.
  - destruct sr_end0 as [->|(x & I0 & M & E)].
    + destruct (extend_end_cases v e) as [->|[M E]]; auto. right. exists v. split; auto. apply in_or_app. cbn; auto.
    + right. exists x. split; auto. apply in_app_or in I0. apply in_or_app. cbn. tauto.
  - intros x I0 M. apply in_app_or in I0. destruct I0 as [I0|[->|I0]].
    + apply sr_max0; auto. apply in_or_app; auto.
    + pose proof (extend_end_multi x e M). lia.
    + apply sr_max0; auto. apply in_or_app; auto.
Qed.

Lemma span_loop_ok : forall fuel g s e, (length g + length s <= fuel)%nat ->
  exists gs ss gr sr e', span_loop fuel g s e = Ok (gs, ss, gr, sr) /\ span_result g s e gs ss gr sr e'.
Proof.
  induction fuel as [|fuel IH]; intros g s e F.
  - destruct g, s; cbn in F; try lia. exists [], [], [], [], e. split; [reflexivity|].
    constructor; cbn; auto; try lia; try discriminate; contradiction.
  - cbn [span_loop]. destruct (beyond_end g e && beyond_end s e) eqn:B.
    + apply andb_prop in B as [B1 B2]. exists [], [], g, s, e. split; [reflexivity|].
      constructor; cbn; auto; try lia; try contradiction; now apply beyond_end_spec.
    + assert (G : forall w g', g = w :: g' ->
        exists gs ss gr sr e', (do r <- span_loop fuel g' s (extend_end w e);
            let '(gs, ss, gr, sr) := r in Ok (w :: gs, ss, gr, sr)) = Ok (gs, ss, gr, sr) /\ span_result g s e gs ss gr sr e').
      { intros w g' ->. destruct (IH g' s (extend_end w e)) as (gs & ss & gr & sr & e' & E & R); [cbn in F; lia|].
        exists (w :: gs), ss, gr, sr, e'. rewrite E. split; [reflexivity|]. now apply span_result_gold. }
      assert (S0 : forall v s', s = v :: s' ->
        exists gs ss gr sr e', (do r <- span_loop fuel g s' (extend_end v e);
            let '(gs, ss, gr, sr) := r in Ok (gs, v :: ss, gr, sr)) = Ok (gs, ss, gr, sr) /\ span_result g s e gs ss gr sr e').
      { intros v s' ->. destruct (IH g s' (extend_end v e)) as (gs & ss & gr & sr & e' & E & R); [cbn in F; lia|].
        exists gs, (v :: ss), gr, sr, e'. rewrite E. split; [reflexivity|]. now apply span_result_system. }
      destruct g as [|w g], s as [|v s]; [discriminate| | |]; eauto.
      destruct (_ <=? _); eauto.
Qed.

(* the multiword word the span starts from is in it *)
Lemma span_result_gold_in w g s e gs ss gr sr e' :
  span_result (w :: g) s e gs ss gr sr e' -> w_multi w = true -> sp_start (w_span w) < e -> exists gs', gs = w :: gs'.
Proof.
  intros [] M L0. destruct gs as [|x gs].
  - exfalso. cbn in sr_gold0. subst gr. specialize (sr_g0 w eq_refl). unfold outside in sr_g0. rewrite M in sr_g0. lia.
  - cbn in sr_gold0. injection sr_gold0 as <- _. eauto.
Qed.
Lemma span_result_system_in v g s e gs ss gr sr e' :
  span_result g (v :: s) e gs ss gr sr e' -> w_multi v = true -> sp_start (w_span v) < e -> exists ss', ss = v :: ss'.
Proof.
  intros [] M L0. destruct ss as [|x ss].
  - exfalso. cbn in sr_system0. subst sr. specialize (sr_s0 v eq_refl). unfold outside in sr_s0. rewrite M in sr_s0. lia.
  - cbn in sr_system0. injection sr_system0 as <- _. eauto.
Qed.

(* ---- the whole alignment ---- *)

Definition block (gs ss : list word) : result (list (word * word)) :=
  match gs, ss with
  | _ :: _, _ :: _ => lcs_walk lower (length gs + length ss) gs ss (compute_lcs lower gs ss)
  | _, _ => Ok []
  end.

Lemma block_ok gs ss :
  exists ps, block gs ss = Ok ps /\
    subseq (map fst ps) gs /\ subseq (map snd ps) ss /\
    Forall (fun p => key (fst p) = key (snd p)) ps /\
    longest_common (map (fun p => key (fst p)) ps) (map key gs) (map key ss).
Proof.
  destruct gs as [|w gs].
  { exists []. cbn. repeat split; try constructor. intros ys H _. apply subseq_nil_r in H. subst; auto. }
  destruct ss as [|v ss].
  { exists []. cbn. repeat split; try constructor. intros ys _ H. apply subseq_nil_r in H. subst; auto. }
  apply lcs_walk_longest.
Qed.

Lemma al_skip_system1 w v g s (b : bool) gs ss gr sr e' ps :
  b = negb (w_multi v) && (sp_start (w_span v) <? sp_start (w_span w)) ->
  span_result (w :: g) (if b then s else v :: s) (sp_end (w_span w)) gs ss gr sr e' ->
  aligned lower (gs ++ gr) (ss ++ sr) ps -> aligned lower (w :: g) (v :: s) ps.
Proof.
  intros B R H. rewrite <- (sr_gold _ _ _ _ _ _ _ _ R), <- (sr_system _ _ _ _ _ _ _ _ R) in H.
  destruct b; auto. symmetry in B. apply andb_prop in B as [B1 B2].
  apply negb_true_iff in B1. apply Z.ltb_lt in B2. apply al_skip_system; auto. intro E. rewrite E in B2. lia.
Qed.

Lemma al_skip_gold1 w v g s (b : bool) gs ss gr sr e' ps :
  b = negb (w_multi w) && (sp_start (w_span w) <? sp_start (w_span v)) ->
  span_result (if b then g else w :: g) (v :: s) (sp_end (w_span v)) gs ss gr sr e' ->
  aligned lower (gs ++ gr) (ss ++ sr) ps -> aligned lower (w :: g) (v :: s) ps.
Proof.
  intros B R H. rewrite <- (sr_gold _ _ _ _ _ _ _ _ R), <- (sr_system _ _ _ _ _ _ _ _ R) in H.
  destruct b; auto. symmetry in B. apply andb_prop in B as [B1 B2].
  apply negb_true_iff in B1. apply Z.ltb_lt in B2. apply al_skip_gold; auto; try lia. intro E. rewrite E in B2. lia.
Qed.

Lemma al_block gs ss gr sr g s e e' here ps :
  span_result g s e gs ss gr sr e' ->
  (exists w, In w (gs ++ ss) /\ w_multi w = true /\ sp_end (w_span w) = e) ->
  block gs ss = Ok here -> aligned lower gr sr ps -> aligned lower (gs ++ gr) (ss ++ sr) (here ++ ps).
Proof.
  intros [] W B H. destruct (block_ok gs ss) as (ps' & B' & S1 & S2 & K & LC).
  rewrite B in B'. injection B' as <-.
  apply (al_multiword lower gs ss gr sr here ps e'); auto.
  destruct sr_end0 as [->|]; auto.
Qed.

Lemma nonempty_app l1 l2 : Forall nonempty_span (l1 ++ l2) -> Forall nonempty_span l2.
Proof. intro H. apply Forall_app in H. tauto. Qed.

Lemma align_words_ok : forall fuel g s, (length g + length s <= fuel)%nat ->
  Forall nonempty_span g -> Forall nonempty_span s ->
  exists ps, align_words lower fuel g s = Ok ps /\ aligned lower g s ps.
Proof.
  induction fuel as [|fuel IH]; intros g s F Ng Ns.
  - destruct g, s; cbn in F; try lia. exists []. split; [reflexivity|constructor].
  - destruct g as [|w g]; [exists []; split; [reflexivity|constructor]|].
    destruct s as [|v s]; [exists []; split; [reflexivity|constructor]|].
    cbn [length] in F. pose proof Ng as Ng0. pose proof Ns as Ns0.
    inversion Ng as [|? ? Nw Ng']; subst. inversion Ns as [|? ? Nv Ns']; subst.
    cbn [align_words]. destruct (w_multi w || w_multi v) eqn:M.
    + (* a multiword span *)
      assert (Done : forall g1 s1 gs ss gr sr e e' (P : list (word * word) -> Prop),
                 span_result g1 s1 e gs ss gr sr e' ->
                 (length g1 + length s1 <= S (length g) + S (length s))%nat ->
                 Forall nonempty_span g1 -> Forall nonempty_span s1 ->
                 (exists x, In x (gs ++ ss) /\ w_multi x = true /\ sp_end (w_span x) = e) ->
                 (forall ps, aligned lower (gs ++ gr) (ss ++ sr) ps -> P ps) ->
                 exists ps, (do here <- block gs ss; do there <- align_words lower fuel gr sr; Ok (here ++ there)) = Ok ps /\ P ps).
      { intros g1 s1 gs ss gr sr e e' P R F1 N1 N2 W HP.
        destruct (block_ok gs ss) as (here & B & _).
        pose proof (sr_gold _ _ _ _ _ _ _ _ R) as E1. pose proof (sr_system _ _ _ _ _ _ _ _ R) as E2. subst g1 s1.
        rewrite !app_length in F1.
        assert (1 <= length gs + length ss)%nat.
        { destruct W as (x & I0 & _). apply in_split in I0 as (l1 & l2 & E0).
          pose proof (f_equal (@length _) E0) as E1. rewrite !app_length in E1. cbn [length] in E1. lia. }
        destruct (IH gr sr ltac:(lia) (nonempty_app _ _ N1) (nonempty_app _ _ N2)) as (ps & E & A).
        rewrite B, E. cbn [bind]. eexists. split; [reflexivity|]. apply HP. eapply al_block; eauto. }
      unfold find_multiword_span. destruct (w_multi w) eqn:Mw.
      * remember (negb (w_multi v) && (sp_start (w_span v) <? sp_start (w_span w))) as b eqn:B.
        destruct (span_loop_ok (length (w :: g) + length (v :: s)) (w :: g) (if b then s else v :: s) (sp_end (w_span w)))
          as (gs & ss & gr & sr & e' & E & R).
        { destruct b; cbn [length]; lia. }
        rewrite E. cbn [bind]. cbv beta iota.
        apply (Done _ _ _ _ _ _ _ _ (aligned lower (w :: g) (v :: s)) R); auto.
        -- destruct b; cbn [length]; lia.
        -- destruct b; auto.
        -- destruct (span_result_gold_in _ _ _ _ _ _ _ _ _ R Mw Nw) as (gs' & ->).
           exists w. cbn. auto.
        -- intros ps A. eapply al_skip_system1; eauto.
      * cbn [orb negb andb] in *.
        remember (sp_start (w_span w) <? sp_start (w_span v)) as b eqn:B.
        destruct (span_loop_ok (length (w :: g) + length (v :: s)) (if b then g else w :: g) (v :: s) (sp_end (w_span v)))
          as (gs & ss & gr & sr & e' & E & R).
        { destruct b; cbn [length]; lia. }
        rewrite E. cbn [bind]. cbv beta iota.
        apply (Done _ _ _ _ _ _ _ _ (aligned lower (w :: g) (v :: s)) R); auto.
        -- destruct b; cbn [length]; lia.
        -- destruct b; auto.
        -- destruct (span_result_system_in _ _ _ _ _ _ _ _ _ R M Nv) as (ss' & ->).
           exists v. split; auto. apply in_or_app. cbn. auto.
        -- intros ps A. apply (al_skip_gold1 w v g s b gs ss gr sr e' ps); auto. rewrite Mw. exact B.
    + apply orb_false_elim in M as [Mw Mv].
      destruct ((sp_start (w_span w) =? sp_start (w_span v)) && (sp_end (w_span w) =? sp_end (w_span v))) eqn:E.
      * apply andb_prop in E as [E1 E2]. apply Z.eqb_eq in E1, E2.
        destruct (IH g s ltac:(lia) Ng' Ns') as (ps & E & A). rewrite E. cbn [bind].
        eexists. split; [reflexivity|]. apply al_pair; auto. now apply span_ext.
      * assert (D : w_span w <> w_span v).
        { intro D. rewrite D, !Z.eqb_refl in E. discriminate. }
        destruct (Z.leb_spec (sp_start (w_span w)) (sp_start (w_span v))) as [L0|L0].
        -- destruct (IH g (v :: s) ltac:(cbn [length]; lia) Ng' Ns) as (ps & E' & A). exists ps. split; auto. now apply al_skip_gold.
        -- destruct (IH (w :: g) s ltac:(cbn [length]; lia) Ng Ns') as (ps & E' & A). exists ps. split; auto. now apply al_skip_system.
Qed.

Lemma align_ok g s : Forall nonempty_span g -> Forall nonempty_span s ->
  exists ps, align lower g s = Ok ps /\ aligned lower g s ps.
Proof. intros. apply align_words_ok; auto. Qed.

(* ---- consequences ---- *)

Lemma aligned_matching g s ps : aligned lower g s ps ->
  subseq (map fst ps) g /\ subseq (map snd ps) s /\ Forall (pairable lower) ps.
Proof.
  induction 1 as [s|g|w v g s ps Mw Mv Sp A (I1 & I2 & I3)|w v g s ps Mw Sp L0 A (I1 & I2 & I3)|w v g s ps Mw Sp L0 A (I1 & I2 & I3)
                 |gs ss g s here ps e W1 W2 W3 W4 S1 S2 K LC A (I1 & I2 & I3)].
  - repeat split; constructor.
  - repeat split; constructor.
  - cbn. repeat split; try (constructor; auto). left. auto.
  - cbn. repeat split; auto. constructor; auto.
  - cbn. repeat split; auto. constructor; auto.
  - rewrite !map_app. repeat split; try (apply subseq_app; auto).
    apply Forall_app. split; auto. eapply Forall_impl; [|exact K]. intros p Hp. right. exact Hp.
Qed.

(* without multiword words the alignment pairs exactly the words with a common span *)
Lemma aligned_plain g s ps : aligned lower g s ps ->
  Forall (fun w => w_multi w = false) (g ++ s) ->
  increasing_starts (map w_span g) -> increasing_starts (map w_span s) ->
  forall w v, In (w, v) ps <-> In w g /\ In v s /\ w_span w = w_span v.
Proof.
  intros A. induction A as [s|g|w v g s ps Mw Mv Sp A IH|w v g s ps Mw Sp L0 A IH|w v g s ps Mw Sp L0 A IH
                 |gs ss g s here ps e W1 W2 W3 W4 S1 S2 K LC A IH]; intros P Ig Is x y; cbn [map] in *.
  - cbn; tauto.
  - cbn; tauto.
  - destruct (increasing_cons _ _ Ig) as [Ig' Lg]. destruct (increasing_cons _ _ Is) as [Is' Ls].
    assert (P' : Forall (fun w => w_multi w = false) (g ++ s)).
    { apply Forall_app in P as [P1 P2]. inversion P1; inversion P2; subst. apply Forall_app; auto. }
    specialize (IH P' Ig' Is'). cbn [In]. rewrite IH. split.
    + intros [[= <- <-]|(H1 & H2 & H3)]; auto.
    + intros ([->|H1] & [->|H2] & H3); auto; exfalso.
      * apply (in_map w_span) in H2. specialize (Ls _ H2). rewrite <- H3, <- Sp in Ls. lia.
      * apply (in_map w_span) in H1. specialize (Lg _ H1). rewrite H3, Sp in Lg. lia.
  - destruct (increasing_cons _ _ Ig) as [Ig' Lg]. destruct (increasing_cons _ _ Is) as [Is' Ls].
    assert (P' : Forall (fun w => w_multi w = false) (g ++ v :: s)).
    { cbn [app] in P. now inversion P. }
    specialize (IH P' Ig' Is). rewrite IH. split.
    + intros (H1 & H2 & H3). cbn [In]. auto.
    + cbn [In]. intros ([->|H1] & H2 & H3); auto. exfalso. destruct H2 as [->|H2]; [congruence|].
      apply (in_map w_span) in H2. specialize (Ls _ H2). rewrite <- H3 in Ls. lia.
  - destruct (increasing_cons _ _ Ig) as [Ig' Lg]. destruct (increasing_cons _ _ Is) as [Is' Ls].
    assert (P' : Forall (fun w => w_multi w = false) ((w :: g) ++ s)).
    { apply Forall_app in P as [P1 P2]. inversion P2; subst. apply Forall_app; auto. }
    specialize (IH P' Ig Is'). rewrite IH. split.
    + intros (H1 & H2 & H3). cbn [In]. auto.
    + cbn [In]. intros (H1 & [->|H2] & H3); auto. exfalso. destruct H1 as [->|H1]; [congruence|].
      apply (in_map w_span) in H1. specialize (Lg _ H1). rewrite H3 in Lg. lia.
  - exfalso. destruct W1 as (z & I0 & M & _). rewrite Forall_forall in P.
    rewrite (P z) in M; [discriminate|]. apply in_app_or in I0. apply in_or_app. destruct I0 as [I0|I0].
    + left. apply in_or_app; auto.
    + right. apply in_or_app; auto.
Qed.

End Align.
