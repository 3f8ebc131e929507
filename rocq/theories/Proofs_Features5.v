(* Symbol vocabularies, character lemmas, lemma dictionaries and embeddings. *)
From Coq Require Import ZArith NArith Bool Lia Permutation List.
From Verif Require Import Base BaseFacts Model_Datamodel Model_Vocab Model_Features Spec_Datamodel Spec_Vocab Spec_Lemma Spec_Features
  Proofs_Datamodel Proofs_Datamodel3 Proofs_Datamodel4 Proofs_Vocab Proofs_Lemma Proofs_Lemma2 Proofs_Features.
Import ListNotations.
Open Scope Z_scope.

(* ------------------------------------------------------------------ *)
(* numbering *)

Lemma number_from_eq first l : NoDup l ->
  number_from first l = combine l (map (fun i => first + Z.of_nat i) (seq 0 (length l))).
Proof.
  intros D. unfold number_from, enumerate, zrange, zlen. rewrite Nat2Z.id.
  assert (H : forall l a d, NoDup l -> (forall x, In x l -> ~ In x (dict_keys d)) ->
    fold_left (fun d io => dict_set d (snd io) (first + fst io)) (combine (map Z.of_nat (seq a (length l))) l) d
    = d ++ combine l (map (fun i => first + Z.of_nat i) (seq a (length l)))).
  { clear l D. induction l as [|x l IH]; intros a d D F; simpl; [rewrite app_nil_r; auto|].
    inversion D; subst. rewrite dict_set_fresh by (apply F; left; auto). rewrite IH; auto.
    - rewrite <- app_assoc. auto.
    - intros y Hy. unfold dict_keys. rewrite map_app, in_app_iff. simpl. intros [X|[X|[]]].
      + apply (F y); auto. right; auto.
      + subst. auto. }
  apply (H l 0%nat [] D). intros x _ [].
Qed.

Lemma combine_fst {A B} (l : list A) : forall (m : list B), length l = length m -> map fst (combine l m) = l.
Proof. induction l as [|x l IH]; intros [|y m] H; simpl in *; try discriminate; auto. f_equal. auto. Qed.

Lemma number_keys first l : NoDup l -> dict_keys (number_from first l) = l.
Proof.
  intros D. rewrite number_from_eq by auto. unfold dict_keys. apply combine_fst. rewrite map_length, seq_length. auto.
Qed.

Lemma number_len first l : NoDup l -> zlen (number_from first l) = zlen l.
Proof. intros D. unfold zlen. rewrite <- (dict_keys_length (number_from first l)), number_keys by auto. auto. Qed.

Lemma number_get first l : NoDup l -> forall s i,
  dict_get (number_from first l) s = Some i <-> first <= i /\ nth_error l (Z.to_nat (i - first)) = Some s.
Proof.
  intros D s i. rewrite number_from_eq by auto.
  assert (O : dict_ok (combine l (map (fun i => first + Z.of_nat i) (seq 0 (length l))))).
  { unfold dict_ok, dict_keys. rewrite combine_fst; auto. rewrite map_length, seq_length. auto. }
  assert (H : forall l a, In (s, i) (combine l (map (fun i => first + Z.of_nat i) (seq a (length l)))) <->
              first + Z.of_nat a <= i /\ nth_error l (Z.to_nat (i - first) - a) = Some s).
  { clear l D O. induction l as [|x l IH]; intros a; simpl.
    - split; [tauto|]. intros [_ X]. destruct (Z.to_nat (i - first) - a)%nat; discriminate.
    - rewrite IH. split.
      + intros [X|[X Y]].
        * inversion X; subst. split; [lia|]. replace (Z.to_nat _ - a)%nat with 0%nat by lia. auto.
        * split; [lia|]. replace (Z.to_nat (i - first) - a)%nat with (S (Z.to_nat (i - first) - S a)) by lia. auto.
      + intros [X Y]. destruct (Z.eq_dec i (first + Z.of_nat a)) as [->|N].
        * left. replace (Z.to_nat _ - a)%nat with 0%nat in Y by lia. simpl in Y. congruence.
        * right. split; [lia|]. replace (Z.to_nat (i - first) - a)%nat with (S (Z.to_nat (i - first) - S a)) in Y by lia. auto. }
  specialize (H l 0%nat). rewrite Nat.sub_0_r in H. simpl in H. rewrite Z.add_0_r in H. rewrite <- H.
  split; [apply dict_get_In|apply In_dict_get; auto].
Qed.

(* what the properties need to know about a numbered vocabulary *)
Record numbered_from (first : Z) (v : dict Z) : Prop := {
  nb_ok : dict_ok v;
  nb_range : forall s i, dict_get v s = Some i -> first <= i < zlen v + first;
  nb_inj : forall s t i, dict_get v s = Some i -> dict_get v t = Some i -> s = t;
  nb_surj : forall i, first <= i < zlen v + first -> exists s, dict_get v s = Some i }.

Lemma number_numbered first l : NoDup l -> numbered_from first (number_from first l).
Proof.
  intros D. split.
  - unfold dict_ok. rewrite number_keys; auto.
  - intros s i H. apply number_get in H; auto. destruct H as [H1 H2]. rewrite number_len by auto.
    assert (Z.to_nat (i - first) < length l)%nat by (apply nth_error_Some; congruence). unfold zlen. lia.
  - intros s t i Hs Ht. apply number_get in Hs; auto. apply number_get in Ht; auto. destruct Hs, Ht. congruence.
  - intros i H. rewrite number_len in H by auto. destruct (nth_error l (Z.to_nat (i - first))) as [s|] eqn:E.
    + exists s. apply number_get; auto. split; [lia|auto].
    + apply nth_error_None in E. unfold zlen in H. lia.
Qed.

Lemma number_mem first l s : NoDup l -> (dict_get (number_from first l) s <> None <-> In s l).
Proof.
  intros D. split.
  - intros H. destruct (in_dec (list_eq_dec N.eq_dec) s l) as [X|X]; auto. exfalso. apply H, dict_get_None.
    rewrite number_keys; auto.
  - intros H X. apply dict_get_None in X. rewrite number_keys in X; auto.
Qed.

(* ------------------------------------------------------------------ *)
(* symbols *)

Lemma str_equiv : equivalence str_eqb.
Proof.
  split; [intros a; apply str_eqb_eq; auto|]. split; intros a b; [rewrite !str_eqb_eq; auto|].
  intros c. rewrite !str_eqb_eq. congruence.
Qed.

Lemma distinct_nodup l : all_distinct str_eqb l -> NoDup l.
Proof.
  induction 1 as [|x l F D IH]; constructor; auto. intros H. rewrite Forall_forall in F. apply F in H.
  assert (X : str_eqb x x = true) by (apply str_eqb_eq; auto). congruence.
Qed.

Lemma symbols_nodup th occ : NoDup (symbols th occ).
Proof.
  unfold symbols, sorted_strs. eapply Permutation_NoDup; [apply isort_perm|].
  apply distinct_nodup, all_distinct_map_filter, count_list_distinct, str_equiv.
Qed.

Lemma symbols_In th occ s : In s (symbols th occ) <-> seen_often th occ s = true.
Proof.
  unfold symbols, sorted_strs, seen_often. rewrite andb_true_iff, Z.ltb_lt, Z.leb_le.
  assert (P := isort_perm str_le (map fst (filter (fun kn => th <=? snd kn) (count_list str_eqb occ)))). split.
  - intros H. apply (Permutation_in _ (Permutation_sym P)) in H. apply in_map_iff in H. destruct H as ([k n] & <- & H).
    apply filter_In in H. destruct H as [H1 H2]. apply count_list_In in H1; [|apply str_equiv]. destruct H1 as (_ & -> & H3).
    simpl in *. apply Z.leb_le in H2. auto.
  - intros [H1 H2]. apply (Permutation_in _ P). apply in_map_iff.
    assert (Hin : In s occ).
    { apply occurrences_pos in H1. destruct H1 as (x & Hx & E). apply str_eqb_eq in E. subst. auto. }
    apply (In_count_list _ str_equiv) in Hin. destruct Hin as (k & E & Hk). apply str_eqb_eq in E. subst k.
    exists (s, occurrences str_eqb s occ). split; auto. apply filter_In. split; auto. apply Z.leb_le. auto.
Qed.

Definition vocabulary (first th : Z) (occ : list str) (v : dict Z) : Prop := v = number_from first (symbols th occ).

Lemma vocab_numbered first th occ : numbered_from first (number_from first (symbols th occ)).
Proof. apply number_numbered, symbols_nodup. Qed.

Lemma vocab_known first th occ s : dict_get (number_from first (symbols th occ)) s <> None <-> seen_often th occ s = true.
Proof. rewrite number_mem by apply symbols_nodup. apply symbols_In. Qed.

(* ids of symbols *)
Lemma sym_get_spec first v s : numbered_from first v -> 2 <= first ->
  (dict_get v s <> None -> first <= sym_get v s < zlen v + first) /\ (dict_get v s = None -> sym_get v s = OOV) /\
  0 <= sym_get v s < zlen v + first.
Proof.
  intros N F. assert (L := zlen_nonneg v). unfold sym_get, OOV. destruct (dict_get v s) as [i|] eqn:E.
  - apply (nb_range _ _ N) in E. split; [auto|]. split; [congruence|lia].
  - split; [congruence|]. split; [auto|lia].
Qed.

Lemma sym_get_inj first v s t : numbered_from first v -> dict_get v s <> None -> dict_get v t <> None -> sym_get v s = sym_get v t -> s = t.
Proof.
  intros N Hs Ht. unfold sym_get. destruct (dict_get v s) as [i|] eqn:Es; [|congruence].
  destruct (dict_get v t) as [j|] eqn:Et; [|congruence]. intros ->. eapply nb_inj; eauto.
Qed.

(* ------------------------------------------------------------------ *)
(* {index: symbol} *)

Lemma invert_get v : (forall s t i, dict_get v s = Some i -> dict_get v t = Some i -> s = t) -> dict_ok v ->
  forall i s, gget Z.eqb (invert v) i = Some s <-> dict_get v s = Some i.
Proof.
  intros J O. unfold invert.
  assert (Z_eqv : equivalence Z.eqb).
  { split; [apply Z.eqb_refl|]. split; intros a b; rewrite ?Z.eqb_eq; auto. intros c; rewrite !Z.eqb_eq; congruence. }
  assert (H : forall (d : dict Z) r i s, NoDup (map snd d) ->
    gget Z.eqb (fold_left (fun r kv => gset Z.eqb r (snd kv) (fst kv)) d r) i = Some s <->
    In (s, i) d \/ (~ In i (map snd d) /\ gget Z.eqb r i = Some s)).
  { induction d as [|[k n] d IH]; intros r i s D; simpl; [tauto|]. inversion D; subst. rewrite IH by auto.
    destruct (Z.eq_dec i n) as [->|Ne].
    - rewrite (gget_gset_same _ Z_eqv) by apply Z.eqb_refl. split.
      + intros [X|[_ X]]; [tauto|]. injection X as ->. auto.
      + intros [[X|X]|[X _]]; [|tauto|tauto]. injection X as ->. right. auto.
    - rewrite (gget_gset_other _ Z_eqv) by (apply Z.eqb_neq; auto). split.
      + intros [X|[X Y]]; [tauto|]. right. split; auto. intros [Z|Z]; auto.
      + intros [[X|X]|[X Y]]; [congruence|tauto|]. right. split; auto. }
  intros i s. rewrite H.
  - simpl. split; [intros [X|[_ X]]; [|discriminate]; apply In_dict_get; auto|]. intros X. left. apply dict_get_In. auto.
  - clear H. assert (J' : forall a b, In a v -> In b v -> snd a = snd b -> a = b).
    { intros [s1 i1] [s2 i2] H1 H2 E. simpl in E. subst. f_equal. eapply J; apply In_dict_get; eauto. }
    unfold dict_ok, dict_keys in O. clear J. induction v as [|[k n] v IH]; simpl in *; constructor.
    + intros X. apply in_map_iff in X. destruct X as ([k' n'] & E & X). simpl in E. subst.
      inversion O; subst. apply H1. assert (Q := J' (k', n) (k, n) (or_intror X) (or_introl eq_refl) eq_refl). injection Q as ->.
      apply (in_map fst) in X. exact X.
    + inversion O; subst. apply IH; auto.
Qed.

(* ------------------------------------------------------------------ *)
(* character labels of lemmas *)

Lemma py_upto_nonneg {A} (l : list A) n : 0 <= n <= zlen l -> py_upto l n = firstn (Z.to_nat n) l.
Proof.
  intros H. rewrite <- (firstn_skipn (Z.to_nat n) l) at 1.
  replace n with (zlen (firstn (Z.to_nat n) l)) at 3; [apply py_upto_app|].
  unfold zlen in *. rewrite firstn_length. lia.
Qed.

Definition cut (max_len : Z) (ids : list Z) : list Z :=
  if max_len <? zlen ids then py_upto ids max_len else ids ++ repeat PADDING (Z.to_nat (max_len - zlen ids)).

Lemma cut_length m ids : 0 <= m -> zlen (cut m ids) = m.
Proof.
  intros H. unfold cut. destruct (m <? zlen ids) eqn:E.
  - apply Z.ltb_lt in E. rewrite py_upto_nonneg by lia. unfold zlen in *. rewrite firstn_length. lia.
  - apply Z.ltb_ge in E. rewrite zlen_app. unfold zlen at 2. rewrite repeat_length. lia.
Qed.

Lemma cut_In m ids i : 0 <= m -> In i (cut m ids) -> In i ids \/ i = PADDING.
Proof.
  intros H. unfold cut. destruct (m <? zlen ids) eqn:E.
  - apply Z.ltb_lt in E. rewrite py_upto_nonneg by lia. intros X. left. rewrite <- (firstn_skipn (Z.to_nat m) ids).
    apply in_app_iff. auto.
  - rewrite in_app_iff. intros [X|X]; auto. apply repeat_spec in X. auto.
Qed.

Section Read.
Variables (v : dict Z) (N : numbered_from 4 v).

Lemma read_total : forall ids lemma, Forall (fun i => 0 <= i < zlen v + 4) ids -> exists l, read_chars (invert v) ids lemma = Ok l.
Proof.
  induction ids as [|i ids IH]; intros lemma F; cbn [read_chars]; eauto. inversion F; subst.
  destruct (i =? END) eqn:E; eauto. destruct ((i =? START) || (i =? OOV) || (i =? PADDING)) eqn:E2; auto.
  apply Z.eqb_neq in E. apply orb_false_iff in E2. destruct E2 as [E2 E3]. apply orb_false_iff in E2. destruct E2 as [E2 E4].
  apply Z.eqb_neq in E2. apply Z.eqb_neq in E3. apply Z.eqb_neq in E4. unfold END, START, OOV, PADDING in *.
  destruct (nb_surj _ _ N i) as (s & Hs); [lia|]. apply (invert_get v (nb_inj _ _ N) (nb_ok _ _ N)) in Hs. rewrite Hs. simpl. auto.
Qed.

Lemma read_symbols syms : forall rest lemma,
  read_chars (invert v) (map (sym_get v) syms ++ rest) lemma = read_chars (invert v) rest (lemma ++ concat (filter (dict_mem v) syms)).
Proof.
  induction syms as [|s syms IH]; intros rest lemma; cbn [map app filter concat read_chars]; [rewrite app_nil_r; auto|].
  remember (sym_get v s) as j eqn:Ej. unfold sym_get in Ej. assert (M : dict_mem v s = match dict_get v s with Some _ => true | None => false end).
  { destruct (dict_get v s) eqn:E.
    - apply dict_mem_In. apply dict_get_In in E. apply (in_map fst) in E. auto.
    - apply not_true_iff_false. rewrite dict_mem_In. apply dict_get_None. auto. }
  rewrite M. destruct (dict_get v s) as [i|] eqn:E; subst j.
  - assert (R := nb_range _ _ N _ _ E). 
    replace (i =? END) with false by (symmetry; apply Z.eqb_neq; unfold END; lia).
    replace (i =? START) with false by (symmetry; apply Z.eqb_neq; unfold START; lia).
    replace (i =? OOV) with false by (symmetry; apply Z.eqb_neq; unfold OOV; lia).
    replace (i =? PADDING) with false by (symmetry; apply Z.eqb_neq; unfold PADDING; lia). cbn [orb].
    apply (invert_get v (nb_inj _ _ N) (nb_ok _ _ N)) in E. rewrite E. cbn [of_option bind]. rewrite IH. cbn [concat].
    rewrite app_assoc. auto.
  - change (OOV =? END) with false. change ((OOV =? START) || (OOV =? OOV) || (OOV =? PADDING)) with true. cbv iota. rewrite IH. auto.
Qed.

Lemma read_padding n lemma : read_chars (invert v) (repeat PADDING n) lemma = Ok lemma.
Proof. induction n; simpl; auto. Qed.

Lemma read_cut syms m : 0 <= m ->
  read_chars (invert v) (cut m (START :: map (sym_get v) syms ++ [END])) [] =
  Ok (concat (filter (dict_mem v) (firstn (Z.to_nat (m - 1)) syms))).
Proof.
  intros H. unfold cut.
  assert (L : zlen (START :: map (sym_get v) syms ++ [END]) = zlen syms + 2).
  { rewrite zlen_cons, zlen_app, zlen_map. unfold zlen at 2. simpl. lia. }
  rewrite L. destruct (m <? zlen syms + 2) eqn:E.
  - apply Z.ltb_lt in E. rewrite py_upto_nonneg by lia. destruct (Z.eq_dec m 0) as [->|Hm].
    + reflexivity.
    + replace (Z.to_nat m) with (S (Z.to_nat (m - 1))) by lia. cbn [firstn read_chars].
      change (START =? END) with false. change ((START =? START) || (START =? OOV) || (START =? PADDING)) with true. cbv iota.
      rewrite firstn_app, map_length, firstn_map. 
      replace (Z.to_nat (m - 1) - length syms)%nat with 0%nat by (unfold zlen in E; lia). cbn [firstn].
      rewrite read_symbols. reflexivity.
  - apply Z.ltb_ge in E. cbn [app read_chars].
    change (START =? END) with false. change ((START =? START) || (START =? OOV) || (START =? PADDING)) with true. cbv iota.
    rewrite <- app_assoc, read_symbols. rewrite firstn_all2 by (unfold zlen in E; lia). reflexivity.
Qed.
End Read.

Lemma filter_ext_bool {A} (f g : A -> bool) l : (forall x, f x = g x) -> filter f l = filter g l.
Proof. intros H. apply filter_ext. auto. Qed.

Lemma dict_mem_get {V} (v : dict V) s : dict_mem v s = true <-> dict_get v s <> None.
Proof.
  rewrite dict_mem_In. destruct (in_dec (list_eq_dec N.eq_dec) s (dict_keys v)) as [X|X].
  - split; auto. intros _ Y. apply dict_get_None in Y. auto.
  - split; [tauto|]. intros Y. exfalso. apply Y, dict_get_None, X.
Qed.

Section LemmaChars.
Variables (segment : str -> result (list str)) (th : Z) (ds : list document) (v : dict Z) (segs : list (list str)).
Hypothesis Hsegs : mapM (fun x => segment_lemma segment (tlemma (dt_tok x))) (dataset_tokens ds) = Ok segs.
Hypothesis Hv : build_lemma_chars segment th ds = Ok v.

Lemma chars_vocab : v = number_from 4 (symbols th (concat segs)).
Proof. unfold build_lemma_chars in Hv. rewrite Hsegs in Hv. cbn [bind] in Hv. congruence. Qed.

Lemma chars_label lemma syms m : segment_lemma segment lemma = Ok syms -> 0 <= m ->
  exists ids, lemma_char_ids segment v m lemma = Ok ids /\ zlen ids = m /\ Forall (fun i => 0 <= i < zlen v + 4) ids /\
    read_chars (invert v) ids [] = Ok (concat (filter (seen_often th (concat segs)) (firstn (Z.to_nat (m - 1)) syms))).
Proof.
  intros E Hm. assert (Nv : numbered_from 4 v) by (rewrite chars_vocab; apply vocab_numbered).
  exists (cut m (START :: map (sym_get v) syms ++ [END])). unfold lemma_char_ids. rewrite E. cbn [bind].
  split; [reflexivity|]. split; [apply cut_length; auto|]. split.
  - apply Forall_forall. intros i Hi. assert (L := zlen_nonneg v). apply cut_In in Hi; auto. unfold PADDING, START, END in *.
    destruct Hi as [[<-|Hi]|Hi]; try lia. apply in_app_iff in Hi. destruct Hi as [Hi|[<-|[]]]; try lia.
    apply in_map_iff in Hi. destruct Hi as (s & <- & _). apply (sym_get_spec 4 v s Nv). lia.
  - rewrite read_cut by auto. f_equal. f_equal. apply filter_ext_bool. intros s. apply Bool.eq_iff_eq_true.
    rewrite dict_mem_get. rewrite chars_vocab. apply vocab_known.
Qed.
End LemmaChars.

Lemma read_lemma (v : dict Z) x ids l : token_wf (dt_tok x) -> read_chars (invert v) ids [] = Ok l ->
  exists t, interpret_chars (invert v) x ids = Ok (mkDT (dt_doc x) t) /\ same_but_lemma (dt_tok x) t /\ tlemma t = Some l.
Proof.
  intros W E. unfold interpret_chars. rewrite E. cbn [bind].
  destruct (dt_with_morphology_ok x (tpos (dt_tok x)) (Some l) W) as (t & -> & ->).
  eexists. split; [reflexivity|]. unfold same_but_lemma; simpl. tauto.
Qed.

Lemma build_chars_segs segment th ds v : build_lemma_chars segment th ds = Ok v ->
  exists segs, mapM (fun x => segment_lemma segment (tlemma (dt_tok x))) (dataset_tokens ds) = Ok segs.
Proof. unfold build_lemma_chars. intros H. apply bind_ok_iff in H. destruct H as (segs & H & _). eauto. Qed.

(* the label of a lemma *)
Lemma char_labels segment th ds segs v lemma syms m x :
  mapM (fun x => segment_lemma segment (tlemma (dt_tok x))) (dataset_tokens ds) = Ok segs ->
  build_lemma_chars segment th ds = Ok v -> segment_lemma segment lemma = Ok syms -> 0 <= m -> token_wf (dt_tok x) ->
  exists ids t, lemma_char_ids segment v m lemma = Ok ids /\ zlen ids = m /\ Forall (fun i => 0 <= i < zlen v + 4) ids /\
    interpret_chars (invert v) x ids = Ok (mkDT (dt_doc x) t) /\ same_but_lemma (dt_tok x) t /\
    tlemma t = Some (concat (filter (seen_often th (concat segs)) (firstn (Z.to_nat (m - 1)) syms))).
Proof.
  intros Hs Hv E Hm W. destruct (chars_label segment th ds v segs Hs Hv lemma syms m E Hm) as (ids & E1 & L & R & E2).
  destruct (read_lemma v x ids _ W E2) as (t & E3 & S & T). exists ids, t. auto 10.
Qed.

Lemma char_predictions segment th ds v x ids : build_lemma_chars segment th ds = Ok v -> token_wf (dt_tok x) ->
  Forall (fun i => 0 <= i < zlen v + 4) ids ->
  exists t l, interpret_chars (invert v) x ids = Ok (mkDT (dt_doc x) t) /\ same_but_lemma (dt_tok x) t /\ tlemma t = Some l.
Proof.
  intros Hv W R. destruct (build_chars_segs _ _ _ _ Hv) as (segs & Hs).
  assert (Nv : numbered_from 4 v) by (rewrite (chars_vocab _ _ _ _ _ Hs Hv); apply vocab_numbered).
  destruct (read_total v Nv ids [] R) as (l & E). destruct (read_lemma v x ids l W E) as (t & ?). exists t, l. auto.
Qed.

Lemma char_segment_concat s : concat (char_segment s) = s /\ length (char_segment s) = length s.
Proof. unfold char_segment. split; [|apply map_length]. induction s; simpl; f_equal; auto. Qed.

Lemma bpe_concat encode s : concat (encode s) = bpe_mark :: s -> Forall (fun w => w <> []) (encode s) ->
  exists l, bpe_segment encode s = Ok l /\ concat l = s.
Proof.
  unfold bpe_segment. destruct (encode s) as [|w ws]; [discriminate|]. intros H F. inversion F as [|? ? Hw _]; subst.
  destruct w as [|c w]; [congruence|]. cbn [concat app] in H. injection H as -> H. eexists. split; [reflexivity|].
  unfold startswith. cbn [prefixb]. rewrite N.eqb_refl. cbn [andb]. destruct (1 <? zlen (bpe_mark :: w)) eqn:E.
  - replace 1 with (zlen [bpe_mark]) by reflexivity. change (bpe_mark :: w) with ([bpe_mark] ++ w). rewrite py_from_app. exact H.
  - apply Z.ltb_ge in E. rewrite zlen_cons in E. assert (L := zlen_nonneg w). rewrite (zlen_zero w) in H by lia. exact H.
Qed.

(* ------------------------------------------------------------------ *)
(* subwords and trainable embeddings *)

Lemma subword_spec segment th ds segs v text ids :
  mapM (fun x => segment (dt_text x)) (dataset_tokens ds) = Ok segs -> build_subwords segment th ds = Ok v ->
  subword_ids segment v text = Ok ids ->
  exists syms mid, segment text = Ok syms /\ ids = START :: mid ++ [END] /\ Forall (fun i => 0 <= i < zlen v + 4) ids /\
    Forall2 (fun s i => if seen_often th (concat segs) s then 4 <= i else i = OOV) syms mid /\
    forall s t i, seen_often th (concat segs) s = true -> seen_often th (concat segs) t = true ->
      In (s, i) (combine syms mid) -> In (t, i) (combine syms mid) -> s = t.
Proof.
  intros Hs Hv H. unfold build_subwords in Hv. rewrite Hs in Hv. cbn [bind] in Hv.
  assert (V : v = number_from 4 (symbols th (concat segs))) by congruence. clear Hv.
  assert (Nv : numbered_from 4 v) by (rewrite V; apply vocab_numbered).
  assert (K : forall s, dict_get v s <> None <-> seen_often th (concat segs) s = true) by (intros s; rewrite V; apply vocab_known).
  unfold subword_ids in H. apply bind_ok_iff in H. destruct H as (syms & E & H). injection H as <-.
  exists syms, (map (sym_get v) syms). split; auto. split; auto.
  assert (Sg := fun s => sym_get_spec 4 v s Nv ltac:(lia)). assert (L := zlen_nonneg v).
  split; [|split].
  - constructor; [unfold START; lia|]. apply Forall_app. split; [|repeat constructor; unfold END; lia].
    apply Forall_map, Forall_forall. intros s _. apply Sg.
  - clear E. induction syms as [|s syms IH]; constructor; auto. destruct (Sg s) as (S1 & S2 & _).
    destruct (seen_often th (concat segs) s) eqn:O.
    + apply K in O. apply S1 in O. lia.
    + apply S2. destruct (dict_get v s) eqn:G; auto. exfalso. assert (seen_often th (concat segs) s = true); [|congruence].
      apply K. congruence.
  - intros s t i Os Ot Is It. apply K in Os. apply K in Ot.
    assert (C : forall s, In (s, i) (combine syms (map (sym_get v) syms)) -> i = sym_get v s).
    { clear. induction syms as [|a syms IH]; simpl; [tauto|]. intros s [X|X]; [congruence|auto]. }
    apply (sym_get_inj 4 v s t Nv Os Ot). rewrite <- (C s Is). apply C, It.
Qed.

Lemma subword_total segment th ds v text syms : build_subwords segment th ds = Ok v -> segment text = Ok syms ->
  exists ids, subword_ids segment v text = Ok ids.
Proof. intros _ E. unfold subword_ids. rewrite E. simpl. eauto. Qed.

Lemma trainable_spec (lower : str -> str) th ds (lc : bool) (text : str) : let v := build_trainable th ds in let w := if lc then lower text else text in
  0 <= word_id lower v lc text < zlen v + 2 /\
  (seen_often th (text_chars ds) w = true -> 2 <= word_id lower v lc text) /\
  (seen_often th (text_chars ds) w = false -> word_id lower v lc text = OOV).
Proof.
  cbv zeta. unfold build_trainable, word_id. fold (text_chars ds). set (w := if lc then lower text else text).
  set (v := number_from 2 (symbols th (text_chars ds))).
  assert (Nv : numbered_from 2 v) by apply vocab_numbered. destruct (sym_get_spec 2 v w Nv) as (S1 & S2 & S3); [lia|].
  split; auto. split; intros O.
  - apply S1. apply vocab_known. auto.
  - apply S2. destruct (dict_get v w) eqn:G; auto. exfalso. assert (seen_often th (text_chars ds) w = true); [|congruence].
    apply (vocab_known 2). fold v. congruence.
Qed.

Lemma trainable_single th ds w : seen_often th (text_chars ds) w = true -> length w = 1%nat.
Proof.
  unfold seen_often. rewrite andb_true_iff, Z.ltb_lt. intros [H _]. apply occurrences_pos in H. destruct H as (x & Hx & E).
  apply str_eqb_eq in E. subst x. unfold text_chars in Hx. apply in_concat in Hx. destruct Hx as (l & Hl & Hw).
  apply in_map_iff in Hl. destruct Hl as (t & <- & _). unfold char_segment in Hw. apply in_map_iff in Hw. destruct Hw as (c & <- & _). auto.
Qed.

Lemma trainable_words_unknown (lower : str -> str) th ds (lc : bool) (text : str) : length (if lc then lower text else text) <> 1%nat ->
  word_id lower (build_trainable th ds) lc text = OOV.
Proof.
  intros H. apply trainable_spec. destruct (seen_often _ _ _) eqn:E; auto. apply trainable_single in E. exfalso. apply H. exact E.
Qed.

(* ------------------------------------------------------------------ *)
(* lemma dictionary *)

Lemma lemma_equiv : equivalence lemma_eqb.
Proof.
  unfold lemma_eqb. split; [intros a; apply option_str_eqb; auto|]. split; intros a b; [rewrite !option_str_eqb; auto|].
  intros c. rewrite !option_str_eqb. congruence.
Qed.

Lemma lemma_vocab ds l2i i2l : build_lemmas ds = Ok (l2i, i2l) ->
  l2i = obj2id lemma_eqb i2l /\ all_distinct lemma_eqb i2l /\
  forall l, In l i2l <-> In l (map (fun x => tlemma (dt_tok x)) (dataset_tokens ds)).
Proof.
  unfold build_lemmas. intros H. apply bind_ok_iff in H. destruct H as (i & E & H). injection H as <- <-.
  apply id2obj_spec in E; [|apply lemma_equiv|apply count_list_distinct, lemma_equiv]. destruct E as (D & _ & I).
  split; auto. split; auto. intros l. rewrite I. unfold count_labels. split.
  - intros [(n & Hn & _)|(b & n & a & Hx & _)].
    + apply count_list_In in Hn; [|apply lemma_equiv]. apply Hn.
    + assert (Hn : In (l, n) (count_list lemma_eqb (map (fun x => tlemma (dt_tok x)) (dataset_tokens ds)))).
      { rewrite Hx. apply in_app_iff. right. left. auto. }
      apply count_list_In in Hn; [|apply lemma_equiv]. apply Hn.
  - intros Hin. left. apply (In_count_list _ lemma_equiv) in Hin. destruct Hin as (k & E & Hk). apply option_str_eqb in E. subst k.
    eexists. split; [exact Hk|]. lia.
Qed.

Lemma lemma_known ds l2i i2l x : build_lemmas ds = Ok (l2i, i2l) -> In x (dataset_tokens ds) -> token_wf (dt_tok x) ->
  let i := lemma_label l2i (tlemma (dt_tok x)) in
  0 <= i < zlen i2l /\ exists t, interpret_lemma i2l x i = Ok (mkDT (dt_doc x) t) /\ same_but_lemma (dt_tok x) t /\ tlemma t = tlemma (dt_tok x).
Proof.
  intros B Hx W. destruct (lemma_vocab _ _ _ B) as (-> & D & I). cbv zeta.
  assert (Hin : In (tlemma (dt_tok x)) i2l) by (apply I, (in_map (fun x => tlemma (dt_tok x))), Hx).
  destruct (In_nth_error _ _ Hin) as (i & Hi).
  assert (E : lemma_label (obj2id lemma_eqb i2l) (tlemma (dt_tok x)) = Z.of_nat i).
  { unfold lemma_label, gget_default.
    assert (G : gget lemma_eqb (obj2id lemma_eqb i2l) (tlemma (dt_tok x)) = Some (Z.of_nat i)).
    { apply obj2id_spec; auto using lemma_equiv. split; [lia|]. eexists. rewrite Nat2Z.id. split; [exact Hi|]. apply option_str_eqb. auto. }
    rewrite G. auto. }
  rewrite E. assert (i < length i2l)%nat by (apply nth_error_Some; congruence). split; [unfold zlen; lia|].
  unfold interpret_lemma. rewrite py_index_nonneg, Nat2Z.id, Hi by lia. cbn [of_option bind].
  destruct (dt_with_morphology_ok x (tpos (dt_tok x)) (tlemma (dt_tok x)) W) as (t & -> & ->).
  eexists. split; [reflexivity|]. unfold same_but_lemma; simpl. tauto.
Qed.

(* a lemma that was not seen gets the label of the second lemma of the vocabulary *)
Lemma lemma_unseen ds l2i i2l lemma : build_lemmas ds = Ok (l2i, i2l) ->
  ~ In lemma (map (fun x => tlemma (dt_tok x)) (dataset_tokens ds)) ->
  lemma_label l2i lemma = 1 /\
  forall l, nth_error i2l 1 = Some l -> l <> lemma.
Proof.
  intros B H. destruct (lemma_vocab _ _ _ B) as (-> & D & I). split.
  - unfold lemma_label, gget_default. assert (G : gget lemma_eqb (obj2id lemma_eqb i2l) lemma = None).
    { apply obj2id_None; auto using lemma_equiv. intros k Hk. destruct (lemma_eqb lemma k) eqn:E; auto.
      apply option_str_eqb in E. subst. apply I in Hk. contradiction. }
    rewrite G. auto.
  - intros l Hl ->. apply nth_error_In in Hl. apply I in Hl. contradiction.
Qed.

(* characters *)
Lemma char_round_trip th ds segs v l m x : let segment := fun s => Ok (char_segment s) in
  mapM (fun x => segment_lemma segment (tlemma (dt_tok x))) (dataset_tokens ds) = Ok segs ->
  build_lemma_chars segment th ds = Ok v -> (forall c, In c l -> seen_often th (concat segs) [c] = true) ->
  zlen l + 1 <= m -> token_wf (dt_tok x) ->
  exists ids t, lemma_char_ids segment v m (Some l) = Ok ids /\ interpret_chars (invert v) x ids = Ok (mkDT (dt_doc x) t) /\
    tlemma t = Some l.
Proof.
  intros segment Hs Hv K L W. assert (Ln := zlen_nonneg l).
  destruct (char_labels segment th ds segs v (Some l) (char_segment l) m x Hs Hv eq_refl) as (ids & t & E1 & _ & _ & E2 & _ & T); [lia|auto|].
  exists ids, t. split; auto. split; auto. rewrite T. f_equal. destruct (char_segment_concat l) as (C & Lc).
  rewrite firstn_all2 by (rewrite Lc; unfold zlen in L; lia).
  rewrite <- C at 2. f_equal. clear -K. unfold char_segment. induction l as [|c l IH]; simpl; auto.
  rewrite K by (left; auto). f_equal. apply IH. intros; apply K; right; auto.
Qed.
