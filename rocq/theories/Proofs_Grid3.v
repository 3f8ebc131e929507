(* Merging objects *)
From Coq Require Import String ZArith NArith Bool Lia Permutation List.
From Verif Require Import Base BaseFacts Proofs_Builder3 Model_Grid Spec_Grid Proofs_Grid Proofs_Grid2.
Import ListNotations.
Open Scope nat_scope.

Section Merge.
Context {L : Type}.
Implicit Types (h : jheap L) (v : jval L) (j g b r : json L) (d e : list (str * json L)) (o : dict (jval L)).

Lemma fits_sub e d k g' : fits (JDict e) (JDict d) -> dict_get d k = Some g' -> exists b', dict_get e k = Some b' /\ fits b' g'.
Proof.
  intros F E. destruct (dict_get e k) as [b'|] eqn:EB.
  - exists b'. split; auto. intros p. specialize (F (k :: p)). cbn [at_path] in F. rewrite E, EB in F. exact F.
  - specialize (F [k]). cbn [at_path] in F. rewrite E, EB in F. destruct g'; destruct F as (? & F); discriminate.
Qed.

Lemma fits_kind b g : fits b g -> match b, g with JLeaf _, JLeaf _ => True | JDict _, JDict _ => True | _, _ => False end.
Proof. intros F. specialize (F []). cbn [at_path] in F. destruct g, b; auto; destruct F; discriminate. Qed.

Lemma fits_tail e d k g' r : ~ In k (map fst d) -> fits (JDict e) (JDict ((k, g') :: d)) -> fits (JDict (dict_set e k r)) (JDict d).
Proof.
  intros N F [|k' p]; [cbn; eauto|]. specialize (F (k' :: p)). cbn [at_path] in *. rewrite dict_get_cons in F.
  destruct (dict_get d k') as [v|] eqn:E; [|exact I]. destruct (str_eqb_spec k' k) as [->|NE]; [apply get_some_key in E; contradiction|].
  rewrite dict_get_set_other by auto. exact F.
Qed.

Definition body (fuel a g : nat) (h : jheap L) (key : str) : result (jheap L) :=
  do hd <- of_option EKey (nth_error h a);
  do gd <- of_option EKey (nth_error h g);
  do new <- of_option EKey (dict_get gd key);
  match dict_get hd key with
  | None => Err EValue
  | Some old =>
      match old, new with
      | VRef a', VRef g' => merge fuel a' g' h
      | _, _ => Ok (put h a (dict_set hd key new))
      end
  end.

(* what a merge does to the heap *)
Definition merging (fuel : nat) : Prop := forall g, json_ok g -> forall b h a ga fp fpg,
  owns h (VRef a) b fp -> owns h (VRef ga) g fpg -> NoDup (fp ++ fpg) -> length fpg <= fuel ->
  match mergej g b with
  | None => merge fuel a ga h = Err EValue
  | Some r => exists h' fp', merge fuel a ga h = Ok h' /\ owns h' (VRef a) r fp' /\ NoDup fp' /\ incl fp' (fp ++ tl fpg) /\
      length h' = length h /\ (forall c, ~ In c (fp ++ tl fpg) -> nth_error h' c = nth_error h c) /\
      (fits b g -> incl fp' fp /\ forall c, ~ In c fp -> nth_error h' c = nth_error h c)
  end.

Lemma nodup_get (V : Type) (o1 o2 : dict V) k (w : V) : NoDup (map fst (o1 ++ (k, w) :: o2)) -> dict_get (o1 ++ (k, w) :: o2) k = Some w.
Proof. intros N. apply In_dict_get; auto. apply in_app_iff. right. left. auto. Qed.


Lemma step fuel a ga og oe e k w g' d2 h fpe fpg' : merging fuel ->
  nth_error h ga = Some og -> dict_get og k = Some w -> nth_error h a = Some oe -> owns_list h oe e fpe -> owns h w g' fpg' ->
  NoDup (a :: ga :: fpe ++ fpg') -> length fpg' <= fuel -> json_ok g' ->
  match dict_get e k with
  | None => body fuel a ga h k = Err EValue
  | Some b' =>
      match mergej g' b' with
      | None => body fuel a ga h k = Err EValue
      | Some r => exists h1 oe1 fp1, body fuel a ga h k = Ok h1 /\ nth_error h1 a = Some oe1 /\ owns_list h1 oe1 (dict_set e k r) fp1 /\
          incl fp1 (fpe ++ fpg') /\ NoDup fp1 /\ length h1 = length h /\
          (forall c, ~ In c (a :: fpe ++ fpg') -> nth_error h1 c = nth_error h c) /\
          (fits (JDict e) (JDict ((k, g') :: d2)) -> incl fp1 fpe /\ forall c, ~ In c (a :: fpe) -> nth_error h1 c = nth_error h c)
      end
  end.
Proof.
  intros IH EG EW EA OE OW ND LE OK. unfold body. rewrite EA, EG. cbn [of_option bind]. rewrite EW. cbn [of_option bind].
  destruct (dict_get e k) as [b'|] eqn:EB; [|rewrite (owns_get_none _ _ _ _ _ OE EB); reflexivity].
  destruct (owns_split _ _ _ _ _ _ OE EB) as (v & fpk & rest & EV & OV & PM & R). rewrite EV.
  inversion ND as [|? ? NA ND1]; subst. inversion ND1 as [|? ? NG ND2]; subst. cbn [In] in NA.
  apply NoDup_app_iff in ND2. destruct ND2 as (N1 & N2 & N3).
  assert (N4 : NoDup (fpk ++ rest)) by (eapply Permutation_NoDup; eauto).
  apply NoDup_app_iff in N4. destruct N4 as (N5 & N6 & N7).
  assert (IK : incl fpk fpe) by (intros c I; apply (Permutation_in _ (Permutation_sym PM)), in_app_iff; auto).
  assert (IR : incl rest fpe) by (intros c I; apply (Permutation_in _ (Permutation_sym PM)), in_app_iff; auto).
  destruct v as [x|a'] eqn:Ev; [|destruct w as [y|g1] eqn:Ew]; subst.
  - (* the old value is no dictionary *)
    assert (M : mergej g' b' = Some g') by (inversion OV; subst; destruct g'; reflexivity). rewrite M.
    set (h1 := put h a (dict_set oe k w)). destruct (R h1 w g' fpg') as (fp1 & O1 & P1).
    { intros c I. apply put_other. intros ->. apply NA. right. apply in_app_iff. left. apply IR. auto. }
    { eapply frame; eauto. intros c I. apply put_other. intros ->. apply NA. right. apply in_app_iff. auto. }
    exists h1, (dict_set oe k w), fp1. split; [reflexivity|]. split; [eapply put_same; eauto|]. split; auto.
    assert (I1 : forall c, In c fp1 <-> In c fpg' \/ In c rest).
    { intros c. split; intros I; [apply in_app_iff, (Permutation_in _ P1); auto|apply (Permutation_in _ (Permutation_sym P1)), in_app_iff; auto]. }
    split; [intros c I; apply I1 in I; apply in_app_iff; destruct I; auto|]. split.
    { eapply Permutation_NoDup; [symmetry; exact P1|]. apply NoDup_app_iff. split; auto. split; auto. intros c I J. apply (N3 c); auto. }
    split; [apply put_length|]. split; [intros c I; apply put_other; intros ->; apply I; left; auto|].
    intros F. split; [|intros c I; apply put_other; intros ->; apply I; left; auto].
    destruct (fits_sub _ _ k g' F) as (b1 & E1 & F1); [rewrite dict_get_cons; destruct (str_eqb_spec k k); congruence|].
    rewrite EB in E1. injection E1 as <-. apply fits_kind in F1. inversion OV; subst. destruct g'; [|contradiction]. inversion OW; subst.
    intros c I. apply I1 in I. destruct I as [[]|I]; auto.
  - assert (M : mergej g' b' = Some g') by (inversion OW; subst; reflexivity). rewrite M.
    set (h1 := put h a (dict_set oe k (VLeaf y))). destruct (R h1 (VLeaf y) g' fpg') as (fp1 & O1 & P1).
    { intros c I. apply put_other. intros ->. apply NA. right. apply in_app_iff. left. apply IR. auto. }
    { eapply frame; eauto. intros c I. apply put_other. intros ->. apply NA. right. apply in_app_iff. auto. }
    exists h1, (dict_set oe k (VLeaf y)), fp1. split; [reflexivity|]. split; [eapply put_same; eauto|]. split; auto.
    assert (I1 : forall c, In c fp1 <-> In c fpg' \/ In c rest).
    { intros c. split; intros I; [apply in_app_iff, (Permutation_in _ P1); auto|apply (Permutation_in _ (Permutation_sym P1)), in_app_iff; auto]. }
    split; [intros c I; apply I1 in I; apply in_app_iff; destruct I; auto|]. split.
    { eapply Permutation_NoDup; [symmetry; exact P1|]. apply NoDup_app_iff. split; auto. split; auto. intros c I J. apply (N3 c); auto. }
    split; [apply put_length|]. split; [intros c I; apply put_other; intros ->; apply I; left; auto|].
    intros F. split; [|intros c I; apply put_other; intros ->; apply I; left; auto].
    inversion OW; subst. intros c I. apply I1 in I. destruct I as [[]|I]; auto.
  - specialize (IH g' OK b' h a' g1 fpk fpg' OV OW).
    assert (NN : NoDup (fpk ++ fpg')) by (apply NoDup_app_iff; split; auto; split; auto; intros c I J; apply (N3 c); auto).
    specialize (IH NN LE). destruct (mergej g' b') as [r|]; [|exact IH].
    destruct IH as (h1 & fpk1 & E1 & O1 & ND3 & IN1 & LH & FR & FT). rewrite E1.
    assert (TL : incl (tl fpg') fpg') by (destruct fpg'; cbn; [intros c []|intros c I; right; auto]).
    assert (OUT : forall c, ~ In c (fpe ++ fpg') -> nth_error h1 c = nth_error h c).
    { intros c I. apply FR. intros J. apply I. apply in_app_iff in J. apply in_app_iff. destruct J as [J|J]; auto. }
    destruct (R h1 (VRef a') r fpk1) as (fp1 & O2 & P1); auto.
    { intros c I. apply FR. intros J. apply in_app_iff in J. destruct J as [J|J]; [exact (N7 c J I)|]. apply (N3 c); auto. }
    rewrite (dict_set_id _ oe k (VRef a') EV) in O2.
    assert (I1 : forall c, In c fp1 <-> In c fpk1 \/ In c rest).
    { intros c. split; intros I; [apply in_app_iff, (Permutation_in _ P1); auto|apply (Permutation_in _ (Permutation_sym P1)), in_app_iff; auto]. }
    exists h1, oe, fp1. split; [reflexivity|]. split; [rewrite OUT; auto|]. split; auto. split.
    { intros c I. apply I1 in I. apply in_app_iff. destruct I as [I|I]; auto. apply IN1, in_app_iff in I. destruct I; auto. }
    split.
    { eapply Permutation_NoDup; [symmetry; exact P1|]. apply NoDup_app_iff. split; auto. split; auto. intros c I J.
      apply IN1, in_app_iff in I. destruct I as [I|I]; [exact (N7 c I J)|]. apply (N3 c); auto. }
    split; auto. split; [intros c I; apply OUT; intros J; apply I; right; auto|].
    intros F. destruct (fits_sub _ _ k g' F) as (b1 & E2 & F1); [rewrite dict_get_cons; destruct (str_eqb_spec k k); congruence|].
    rewrite EB in E2. injection E2 as <-. destruct (FT F1) as [FI FF]. split.
    + intros c I. apply I1 in I. destruct I as [I|I]; auto.
    + intros c I. apply FF. intros J. apply I. right. auto.
Qed.

Lemma loop fuel ga og : merging fuel -> NoDup (map fst og) -> forall d2 o2 o1 e oe h a fpe fp2,
  og = o1 ++ o2 -> nth_error h ga = Some og -> nth_error h a = Some oe -> owns_list h oe e fpe -> owns_list h o2 d2 fp2 ->
  NoDup (a :: ga :: fpe ++ fp2) -> length fp2 <= fuel -> (forall k (x : json L), In (k, x) d2 -> json_ok x) ->
  match go d2 e with
  | None => foldM (body fuel a ga) h (map fst o2) = Err EValue
  | Some e' => exists h' oe' fpe', foldM (body fuel a ga) h (map fst o2) = Ok h' /\ nth_error h' a = Some oe' /\ owns_list h' oe' e' fpe' /\
      NoDup fpe' /\ incl fpe' (fpe ++ fp2) /\ length h' = length h /\
      (forall c, ~ In c (a :: fpe ++ fp2) -> nth_error h' c = nth_error h c) /\
      (fits (JDict e) (JDict d2) -> incl fpe' fpe /\ forall c, ~ In c (a :: fpe) -> nth_error h' c = nth_error h c)
  end.
Proof.
  intros IH NK. induction d2 as [|[k g'] d2 IHd]; intros o2 o1 e oe h a fpe fp2 EO EG EA OE OW ND LE OK.
  - inversion OW; subst. cbn [go map foldM]. exists h, oe, fpe. rewrite app_nil_r in *.
    inversion ND as [|? ? NA ND1]; subst. inversion ND1 as [|? ? NG ND2]; subst. repeat (split; auto); apply incl_refl.
  - inversion OW as [|? w ? o2' ? fpg' fp2' OW1 OW2]; subst. cbn [go map fst foldM]. rewrite app_length in LE.
    inversion ND as [|? ? NA ND1]; subst. inversion ND1 as [|? ? NG ND2]; subst. cbn [In] in NA.
    rewrite app_assoc in ND2. apply NoDup_app_iff in ND2. destruct ND2 as (N1 & N2 & N3).
    assert (EW : dict_get (o1 ++ (k, w) :: o2') k = Some w) by (apply nodup_get; auto).
    assert (ST := step fuel a ga _ oe e k w g' d2 h fpe fpg' IH EG EW EA OE OW1).
    assert (NS : NoDup (a :: ga :: fpe ++ fpg')).
    { constructor; [|constructor; auto].
      - cbn [In]. intros [->|I]; [apply NA; left; auto|]. apply NA. right. rewrite app_assoc. apply in_app_iff. auto.
      - intros I. apply NG. rewrite app_assoc. apply in_app_iff. auto. }
    specialize (ST NS ltac:(lia) (OK k g' (or_introl eq_refl))).
    destruct (dict_get e k) as [b'|] eqn:EB; [|rewrite ST; reflexivity].
    destruct (mergej g' b') as [r|]; [|rewrite ST; reflexivity].
    destruct ST as (h1 & oe1 & fp1 & E1 & EA1 & OE1 & IN1 & ND3 & LH & FR & FT). rewrite E1. cbn [bind].
    assert (OUT : forall c, In c fp2' -> nth_error h1 c = nth_error h c).
    { intros c I. apply FR. intros [->|J]; [apply NA; right; rewrite app_assoc; apply in_app_iff; auto|]. exact (N3 c J I). }
    assert (GA : nth_error h1 ga = Some (o1 ++ (k, w) :: o2')).
    { rewrite FR; auto. intros [->|J]; [apply NA; left; auto|]. apply NG. rewrite app_assoc. apply in_app_iff. auto. }
    specialize (IHd o2' (o1 ++ [(k, w)]) (dict_set e k r) oe1 h1 a fp1 fp2').
    rewrite <- app_assoc in IHd. specialize (IHd eq_refl GA EA1 OE1 (frame_list _ _ _ _ _ OW2 OUT)).
    assert (NN : NoDup (a :: ga :: fp1 ++ fp2')).
    { constructor; [|constructor].
      - cbn [In]. intros [->|I]; [apply NA; left; auto|]. apply in_app_iff in I. apply NA. right. rewrite app_assoc. apply in_app_iff.
        destruct I as [I|I]; auto.
      - intros I. apply in_app_iff in I. apply NG. rewrite app_assoc. apply in_app_iff. destruct I as [I|I]; auto.
      - apply NoDup_app_iff. split; auto. split; auto. intros c I J. apply (N3 c); auto. }
    specialize (IHd NN ltac:(lia) (fun k' (x : json L) I => OK k' x (or_intror I))).
    destruct (go d2 (dict_set e k r)) as [e'|]; [|exact IHd].
    destruct IHd as (h' & oe' & fpe' & E2 & EA2 & OE2 & ND4 & IN2 & LH2 & FR2 & FT2).
    exists h', oe', fpe'. split; auto. split; auto. split; auto. split; auto. split.
    { intros c I. apply IN2, in_app_iff in I. rewrite app_assoc. apply in_app_iff. destruct I as [I|I]; auto. }
    split; [congruence|]. split.
    { intros c I. rewrite FR2, FR; auto.
      - intros [->|J]; apply I; [left; auto|]. right. rewrite app_assoc. apply in_app_iff. auto.
      - intros [->|J]; apply I; [left; auto|]. right. rewrite app_assoc. apply in_app_iff. apply in_app_iff in J. destruct J as [J|J]; auto. }
    intros F. destruct (FT F) as [FI FF].
    assert (NKd : ~ In k (map fst d2)).
    { rewrite <- (owns_list_keys _ _ _ _ OW2). rewrite map_app in NK. cbn [map fst] in NK. apply NoDup_remove_2 in NK.
      intros I. apply NK, in_app_iff. auto. }
    destruct (FT2 (fits_tail _ _ _ _ r NKd F)) as [FI2 FF2]. split.
    + intros c I. apply FI, FI2. auto.
    + intros c I. rewrite FF2, FF; auto. intros [->|J]; apply I; [left; auto|right; auto].
Qed.

Lemma merge_owns fuel : merging fuel.
Proof.
  induction fuel as [|fuel IH]; intros g OK b h a ga fp fpg OA OG ND LE.
  - inversion OG; subst. cbn in LE. lia.
  - inversion OA as [|? oe e fpe EA OE]; subst. inversion OG as [|? og d fpg' EG OW]; subst.
    rewrite mergej_dict. cbn [tl length] in *. cbn [merge]. rewrite EG. cbn [of_option bind].
    pose proof OK as OK'. apply json_ok_dict in OK'. destruct OK' as [NK AK].
    assert (NKo : NoDup (map fst og)) by (rewrite (owns_list_keys _ _ _ _ OW); auto).
    assert (ND1 : NoDup (a :: ga :: fpe ++ fpg')).
    { apply NoDup_app_iff in ND. destruct ND as (N1 & N2 & N3). inversion N1 as [|? ? NA N1']; subst. inversion N2 as [|? ? NG N2']; subst.
      constructor; [|constructor].
      - cbn [In]. intros [->|I]; [exact (N3 a (or_introl eq_refl) (or_introl eq_refl))|]. apply in_app_iff in I. destruct I as [I|I]; auto.
        exact (N3 a (or_introl eq_refl) (or_intror I)).
      - intros I. apply in_app_iff in I. destruct I as [I|I]; auto. exact (N3 ga (or_intror I) (or_introl eq_refl)).
      - apply NoDup_app_iff. split; auto. split; auto. intros c I J. exact (N3 c (or_intror I) (or_intror J)). }
    pose proof (loop fuel ga og IH NKo d og [] e oe h a fpe fpg' eq_refl EG EA OE OW ND1 ltac:(lia) AK) as LP.
    change (dict_keys og) with (map fst og).
    change (match option_map JDict (go d e) with
            | None => foldM (body fuel a ga) h (map fst og) = Err EValue
            | Some r => exists h' fp', foldM (body fuel a ga) h (map fst og) = Ok h' /\ owns h' (VRef a) r fp' /\ NoDup fp' /\
                incl fp' ((a :: fpe) ++ fpg') /\ length h' = length h /\
                (forall c, ~ In c ((a :: fpe) ++ fpg') -> nth_error h' c = nth_error h c) /\
                (fits (JDict e) (JDict d) -> incl fp' (a :: fpe) /\ forall c, ~ In c (a :: fpe) -> nth_error h' c = nth_error h c)
            end).
    destruct (go d e) as [e'|]; cbn [option_map]; [|exact LP].
    destruct LP as (h' & oe' & fpe' & E1 & EA1 & OE1 & ND2 & IN & LH & FR & FT).
    exists h', (a :: fpe'). split; auto. split; [econstructor; eauto|].
    inversion ND1 as [|? ? NA _]; subst. cbn [In] in NA. split.
    { constructor; auto; intros I; apply NA; right; auto. }
    split; [intros c [->|I]; [left; auto|right; auto]|]. split; auto. split; [exact FR|].
    intros F. destruct (FT F) as [FI FF]. split; auto. intros c [->|I]; [left; auto|right; auto].
Qed.
End Merge.
