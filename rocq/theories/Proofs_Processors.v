(* Proofs about documents rebuilt with changed annotations, the stub tagger and the stub parser. *)
From Coq Require Import String Ascii ZArith NArith Bool Lia Permutation List.
From Verif Require Import Base BaseFacts Model_Datamodel Spec_Datamodel Proofs_Datamodel Proofs_Syntax Proofs_Datamodel2
  Proofs_Datamodel3 Proofs_Datamodel4 Model_Conllu Proofs_Conllu6 Model_Vocab Spec_Vocab Proofs_Vocab Spec_Features Proofs_Features
  Model_Processors Spec_Processors.
Import ListNotations.
Open Scope Z_scope.

Lemma Forall2_by_nth {A B} (R : A -> B -> Prop) (l : list A) : forall l', length l = length l' ->
  (forall i x y, nth_error l i = Some x -> nth_error l' i = Some y -> R x y) -> Forall2 R l l'.
Proof.
  induction l as [|a l IH]; destruct l' as [|b l']; intros L H; try discriminate; constructor.
  - apply (H 0%nat); auto.
  - apply IH; [simpl in L; lia|]. intros i x y Hx Hy. apply (H (S i)); auto.
Qed.

Lemma built_inv d : built d -> doc_inv d.
Proof. intros (text & ts & o & v & W & Wo & H). eapply new_document_inv; eauto. Qed.

(* ------------------------------------------------------------------ *)
(* the same places *)

Definition same_place (a b : token) : Prop :=
  tstart a = tstart b /\ tend a = tend b /\ tsub a = tsub b /\ trepl a = trepl b.

Lemma place_wf a b : same_place a b -> token_wf a -> token_wf b.
Proof. unfold same_place, token_wf. intros (E1&E2&E3&E4). rewrite <- E1, <- E2, <- E3, <- E4. auto. Qed.

Lemma place_in_text_order ts ts' : Forall2 same_place ts ts' -> in_text_order ts -> in_text_order ts'.
Proof.
  unfold in_text_order. intros F H. revert ts' F.
  induction H as [|x l Hx H IH]; intros ts' F; inversion F as [|? y ? l' Hxy F']; subst; constructor; auto.
  rewrite Forall_forall in *. intros z Hz.
  apply In_nth_error in Hz. destruct Hz as [i Hz].
  destruct (Forall2_nth_r _ _ _ _ _ F' Hz) as (w & Hw & E).
  specialize (Hx w (nth_error_In _ _ Hw)). unfold same_place, before, same_span in *.
  destruct Hxy as (E1&E2&E3&_). destruct E as (F1&F2&F3&_). rewrite <- E1, <- E2, <- E3, <- F1, <- F2, <- F3. auto.
Qed.

Lemma place_numbered ts ts' : Forall2 same_place ts ts' -> numbered ts -> numbered ts'.
Proof.
  unfold numbered. intros F H i a b Ha Hb Hm.
  destruct (Forall2_nth_r _ _ _ _ _ F Ha) as (a0 & Ha0 & Ea).
  destruct (Forall2_nth_r _ _ _ _ _ F Hb) as (b0 & Hb0 & Eb).
  unfold same_place, multiword, same_span in *.
  destruct Ea as (E1&E2&E6&E7). destruct Eb as (F1&F2&F6&F7).
  specialize (H i a0 b0 Ha0 Hb0). rewrite <- E1, <- E2, <- E6, <- E7, <- F1, <- F2, <- F6.
  apply H. congruence.
Qed.

Lemma place_coincides ts ts' : Forall2 same_place ts ts' ->
  existsb (fun p : token * token => negb (coincides (fst p) (snd p))) (combine ts ts') = false.
Proof.
  induction 1 as [|a b l l' (E1 & E2 & _) F IH]; simpl; auto. rewrite IH. unfold coincides. rewrite E1, E2, !Z.eqb_refl. auto.
Qed.

(* ------------------------------------------------------------------ *)
(* new annotations for the tokens of a document, sentence by sentence *)

Lemma no_tokens_no_sents d : doc_inv d -> dtokens d = [] -> dsents d = [].
Proof.
  intros I E. pose proof (inv_tiles _ I) as T. rewrite E in T. destruct (dsents d) as [|s ss]; auto.
  inversion T as [|? ? ? ? E' L H]; subst. apply tiles_le in H. unfold zlen in H. simpl in H. lia.
Qed.

Lemma reannotate d tss : doc_inv d ->
  Forall2 (fun s l => Forall2 same_place (tokens_of (dtokens d) s) l /\ Forall (heads_agree (sstart s)) l) (dsents d) tss ->
  exists d', from_document d (concat tss) = Ok d' /\ doc_inv d' /\ built d' /\
    dtext d' = dtext d /\ dsents d' = dsents d /\
    Forall2 (fun s l => tokens_of (dtokens d') s = map (fill (sstart s)) l) (dsents d) tss /\
    Forall2 same_place (dtokens d) (dtokens d').
Proof.
  intros I F. set (ts := concat tss).
  assert (P : Forall2 same_place (dtokens d) ts).
  { rewrite <- (concat_tokens_of d I). apply Forall2_concat. apply Forall2_map_l. eapply Forall2_impl; [|exact F]. simpl. tauto. }
  assert (W : Forall token_wf ts).
  { pose proof (inv_wf _ I) as W. clear -P W. induction P; inversion W; subst; constructor; eauto using place_wf. }
  assert (O := place_in_text_order _ _ P (inv_order _ I)).
  assert (N := place_numbered _ _ P (inv_numbered _ I)).
  assert (L := Forall2_length' _ _ _ P).
  assert (T : tiles 0 (zlen ts) (dsents d)) by (unfold zlen; rewrite <- L; apply (inv_tiles _ I)).
  assert (TO : Forall2 (fun s l => tokens_of ts s = l) (dsents d) tss).
  { change ts with ([] ++ concat tss). eapply tiles_tokens_of_concat with (a := 0) (b := zlen ts); auto; try lia.
    assert (IN : forall s, In s (dsents d) -> 0 <= sstart s < send s /\ send s <= zlen (dtokens d))
      by (intros s Hs; pose proof (tiles_in _ _ _ _ (inv_tiles _ I) Hs); lia).
    clear -F IN. revert F IN. generalize (dsents d) as ss. intros ss F. induction F as [|s l ss tss [Fl _] F IH]; intros IN; constructor.
    - apply Forall2_length' in Fl. rewrite <- (tokens_of_length (dtokens d) s); try apply IN; simpl; auto. unfold zlen. lia.
    - apply IH. intros s' Hs. apply IN. right; auto. }
  assert (ND : exists d', new_document (dtext d) ts (Some (dsents d)) false = Ok d' /\
    dtext d' = dtext d /\ dsents d' = dsents d /\ dtokens d' = fill_all ts (dsents d)).
  { destruct ts as [|t0 ts0] eqn:Ets.
    - rewrite new_document_empty. eexists. split; [reflexivity|].
      assert (E : dtokens d = []) by (destruct (dtokens d); [auto|discriminate]).
      rewrite (no_tokens_no_sents _ I E). simpl. auto.
    - rewrite <- Ets in *. exists (mkDoc (dtext d) (fill_all ts (dsents d)) (dsents d)). split; [|simpl; auto].
      apply new_document_false_ok; auto.
      + simpl. eapply tiles_wf; [|apply (inv_tiles _ I)]. lia.
      + congruence.
      + cbv zeta. rewrite in_text_order_sort by auto. simpl given_sents. rewrite (tiles_sorted _ _ _ (inv_tiles _ I)).
        repeat split; auto. intros s Hs. apply In_nth_error in Hs. destruct Hs as [i Hi].
        destruct (Forall2_nth _ _ _ _ _ TO Hi) as (l & Hl & E).
        destruct (Forall2_nth _ _ _ _ _ F Hi) as (l' & Hl' & _ & A). rewrite E. congruence. }
  destruct ND as (d' & ND & E1 & E2 & E3). exists d'.
  assert (B : built d').
  { exists (dtext d), ts, (Some (dsents d)), false. split; auto. split; auto. simpl. eapply tiles_wf; [|apply (inv_tiles _ I)]. lia. }
  split; [|split; [apply built_inv; auto|split; [auto|split; [auto|split; [auto|split]]]]].
  - unfold from_document. rewrite in_text_order_sort by auto. rewrite place_coincides by auto. auto.
  - rewrite E3. apply Forall2_by_nth.
    + apply (Forall2_length' _ _ _ F).
    + intros i s l Hs Hl. rewrite fill_all_tokens_of by (auto; eapply nth_error_In; eauto).
      f_equal. destruct (Forall2_nth _ _ _ _ _ TO Hs) as (l' & Hl' & E). congruence.
  - rewrite E3. pose proof (fill_all_same _ _ T) as S. clear -P S. revert S. generalize (fill_all ts (dsents d)) as fs.
    induction P as [|a b l l' H P IH]; intros fs S; inversion S; subst; constructor; auto.
    unfold same_place, same_but_heads in *. intuition congruence.
Qed.

(* every function of the sentences of a document *)
Lemma over_sentences d (f : navsentence -> result (list token)) (R : sentence -> list token -> Prop) :
  doc_inv d ->
  (forall s v vs, In s (dsents d) -> ns_nav_tokens v = Ok vs -> map nv_token vs = tokens_of (dtokens d) s ->
     Forall (view_of (dtext d)) vs -> exists l, f v = Ok l /\ R s l) ->
  exists ss tss, doc_nav_sentences d = Ok ss /\ mapM f ss = Ok tss /\ Forall2 R (dsents d) tss.
Proof.
  intros I H. destruct (nav_sentences_ok d I) as (ss & E & F). exists ss. rewrite E.
  assert (X : exists tss, Forall2 (fun v l => f v = Ok l) ss tss /\ Forall2 R (dsents d) tss).
  { clear E. revert F H. generalize (dsents d) as sl. intros sl F. induction F as [|s v sl ss (vs & V1 & V2 & V3) F IH]; intros H.
    - exists []. split; constructor.
    - destruct (H s v vs) as (l & Hl & Rl); simpl; auto.
      destruct IH as (tss & T1 & T2). { intros s' v' vs' Hs'. apply H. right; auto. }
      exists (l :: tss). split; constructor; auto. }
  destruct X as (tss & T1 & T2). exists tss. split; auto. split; auto. apply mapM_ok. auto.
Qed.

Lemma tokens_of_wf d s : doc_inv d -> Forall token_wf (tokens_of (dtokens d) s).
Proof. intros I. apply Forall_firstn, Forall_skipn, I. Qed.

Lemma doc_nav_tokens_ok d : exists vs, doc_nav_tokens d = Ok vs /\ map nv_token vs = dtokens d /\
  Forall (fun v => nv_text v = dtext d) vs.
Proof.
  unfold doc_nav_tokens, zrange, zlen. rewrite Nat2Z.id.
  assert (M : forall n, (n <= length (dtokens d))%nat -> exists vs, mapM (doc_get_token d) (map Z.of_nat (seq 0 n)) = Ok vs /\
    map nv_token vs = firstn n (dtokens d) /\ Forall (fun v => nv_text v = dtext d) vs).
  { induction n as [|n IH]; intros Hn; [exists []; repeat split; constructor|].
    destruct IH as (vs & E & M & F); [lia|]. rewrite seq_S, map_app, mapM_app, E. cbn [bind].
    destruct (get_token_ok (dtext d) (dtokens d) true (Z.of_nat n)) as (t & Ht & G); [unfold zlen; lia|].
    cbn [map mapM Nat.add]. unfold doc_get_token. rewrite G. cbn [bind]. eexists. split; [reflexivity|].
    rewrite Nat2Z.id in Ht. split.
    - rewrite map_app, M. cbn [map nv_token]. clear -Ht. revert n Ht. generalize (dtokens d) as l.
      induction l as [|x l IHl]; intros [|n] H; simpl in *; try discriminate; [inversion H; auto|].
      f_equal. auto.
    - apply Forall_app. split; auto. }
  destruct (M (length (dtokens d)) ltac:(lia)) as (vs & E & M' & F). exists vs. rewrite firstn_all in M'. auto.
Qed.

(* ------------------------------------------------------------------ *)
(* the stub parser *)

Definition set_syntax (t : token) (deprel : option str) (hd hs : option Z) : token :=
  mkToken (tstart t) (tend t) (tpos t) (tlemma t) deprel (tsub t) (trepl t) hd hs (textras t).

Lemma enumerate_nth' {A} (l : list A) i : nth_error (enumerate l) i = option_map (fun x => (Z.of_nat i, x)) (nth_error l i).
Proof.
  unfold enumerate, zrange, zlen. rewrite Nat2Z.id.
  assert (X : forall (l : list A) k i, nth_error (combine (map Z.of_nat (seq k (length l))) l) i
    = option_map (fun x => (Z.of_nat (k + i), x)) (nth_error l i)).
  { clear. induction l as [|x l IH]; intros k i; destruct i; simpl; auto.
    - rewrite Nat.add_0_r. auto.
    - rewrite IH. rewrite Nat.add_succ_r. auto. }
  apply (X l 0%nat).
Qed.

Lemma enumerate_len' {A} (l : list A) : length (enumerate l) = length l.
Proof. unfold enumerate. rewrite combine_length, zrange_length. unfold zlen. rewrite Nat2Z.id. lia. Qed.

Definition chained_token (deprel : option str) (it : Z * token) : token :=
  set_syntax (snd it) deprel None (Some (fst it - 1)).

Lemma stub_parse_sentence_ok deprel v vs : ns_nav_tokens v = Ok vs -> Forall token_wf (map nv_token vs) ->
  stub_parse_sentence deprel v = Ok (map (chained_token deprel) (enumerate (map nv_token vs))).
Proof.
  intros E W. unfold stub_parse_sentence. rewrite E. cbn [bind]. apply mapM_ok.
  apply Forall2_by_nth; [rewrite map_length, !enumerate_len', map_length; auto|].
  intros i [j x] y Hx Hy. rewrite enumerate_nth' in Hx. rewrite nth_error_map, enumerate_nth', nth_error_map in Hy.
  destruct (nth_error vs i) as [v0|] eqn:En; [|discriminate]. cbn in Hx, Hy.
  injection Hx as <- <-. injection Hy as <-.
  rewrite Forall_map in W. rewrite Forall_forall in W. specialize (W v0 (nth_error_In _ _ En)).
  apply with_syntax_ok. auto.
Qed.

Lemma stub_parse_ok deprel d : doc_inv d ->
  exists d', stub_parse deprel d = Ok d' /\ built d' /\ doc_inv d' /\ dtext d' = dtext d /\ dsents d' = dsents d /\
    Forall2 same_place (dtokens d) (dtokens d') /\
    forall s, In s (dsents d) -> tokens_of (dtokens d') s =
      map (fun it => fill (sstart s) (chained_token deprel it)) (enumerate (tokens_of (dtokens d) s)).
Proof.
  intros I. unfold stub_parse.
  destruct (over_sentences d (stub_parse_sentence deprel)
    (fun s l => l = map (chained_token deprel) (enumerate (tokens_of (dtokens d) s))) I) as (ss & tss & E1 & E2 & F).
  { intros s v vs Hs V1 V2 V3. eexists. split; [|reflexivity]. rewrite <- V2. apply stub_parse_sentence_ok; auto.
    rewrite V2. apply tokens_of_wf; auto. }
  rewrite E1. cbn [bind]. rewrite E2. cbn [bind].
  destruct (reannotate d tss I) as (d' & Fd & I' & B & T1 & T2 & F2 & P).
  { eapply Forall2_impl; [|exact F]. simpl. intros s l ->. split.
    - apply Forall2_by_nth; [rewrite map_length, enumerate_len'; auto|]. intros i x y Hx Hy.
      rewrite nth_error_map, enumerate_nth', Hx in Hy. injection Hy as <-. repeat split.
    - apply Forall_forall. intros t Ht. apply in_map_iff in Ht. destruct Ht as ([j u] & <- & _).
      intros dd h Hd. discriminate Hd. }
  exists d'. repeat (split; [auto|]). intros s Hs. apply In_nth_error in Hs. destruct Hs as [i Hi].
  destruct (Forall2_nth _ _ _ _ _ F Hi) as (l & Hl & El). destruct (Forall2_nth _ _ _ _ _ F2 Hi) as (l' & Hl' & El').
  rewrite El'. assert (l' = l) by congruence. subst l'. rewrite El, map_map. auto.
Qed.

Lemma chain_heads deprel st (ts : list token) i t : 0 <= st ->
  nth_error (map (fun it => fill st (chained_token deprel it)) (enumerate ts)) i = Some t ->
  exists u, nth_error ts i = Some u /\ same_word u t /\ same_morphology u t /\ tdeprel t = deprel /\
    thsent t = Some (Z.of_nat i - 1) /\ thdoc t = Some (if (i =? 0)%nat then -1 else st + (Z.of_nat i - 1)).
Proof.
  intros Hst. rewrite nth_error_map, enumerate_nth'. destruct (nth_error ts i) as [u|] eqn:E; [|discriminate].
  cbn [option_map]. intros H. injection H as <-. exists u. split; auto.
  unfold fill, filled_pair, chained_token, set_heads, set_syntax, same_word, same_morphology. cbn.
  rewrite orb_false_r. destruct (Z.eqb_spec (Z.of_nat i - 1) (-1)) as [Z0|Z0]; cbn.
  - replace i with 0%nat by lia. cbn. repeat split.
  - destruct (Nat.eqb_spec i 0); [lia|]. repeat split. f_equal. lia.
Qed.

Lemma chain_tree (hs : list (option Z)) : hs <> [] ->
  (forall i h, nth_error hs i = Some h -> h = Some (Z.of_nat i - 1)) -> dependency_tree hs.
Proof.
  intros NE H.
  assert (N : forall i, (i < length hs)%nat -> nth_error hs i = Some (Some (Z.of_nat i - 1))).
  { intros i Hi. destruct (nth_error hs i) as [h|] eqn:E; [|apply nth_error_None in E; lia]. f_equal. apply H; auto. }
  split; [|split; [|split]].
  - intros i E. apply H in E. discriminate.
  - exists 0%nat. destruct hs as [|h hs]; [congruence|]. split; [apply N; simpl; lia|].
    intros r' E. apply H in E. injection E as E. lia.
  - intros i h E. assert (L : (i < length hs)%nat) by (apply nth_error_Some; congruence).
    apply H in E. injection E as ->. lia.
  - induction i as [|i IH]; intros Hi.
    + apply rr_root. apply N; auto.
    + apply rr_step with i; [|apply IH; lia]. rewrite N by auto. do 2 f_equal. lia.
Qed.

Lemma Forall2_sentences (d d' : document) (R : token -> token -> Prop) : doc_inv d -> doc_inv d' -> dsents d' = dsents d ->
  (forall s i t, In s (dsents d) -> nth_error (tokens_of (dtokens d') s) i = Some t ->
     exists u, nth_error (tokens_of (dtokens d) s) i = Some u /\ R u t) ->
  length (dtokens d) = length (dtokens d') ->
  Forall2 R (dtokens d) (dtokens d').
Proof.
  intros I I' E H L. rewrite <- (concat_tokens_of d I), <- (concat_tokens_of d' I'), E. apply Forall2_concat.
  apply Forall2_map_l, Forall2_map_r.
  assert (LL : forall s, In s (dsents d) -> length (tokens_of (dtokens d) s) = length (tokens_of (dtokens d') s)).
  { intros s Hs. pose proof (tiles_in _ _ _ _ (inv_tiles _ I) Hs) as T.
    pose proof (tokens_of_length (dtokens d) s ltac:(lia) ltac:(lia)) as L1.
    pose proof (tokens_of_length (dtokens d') s ltac:(lia)) as L2. unfold zlen in *. rewrite L in T. specialize (L2 ltac:(lia)). lia. }
  clear L E I I'. revert H LL. generalize (dsents d) as ss. induction ss as [|s ss IH]; intros H LL; constructor.
  - apply Forall2_by_nth; [apply LL; left; auto|]. intros i x y Hx Hy.
    destruct (H s i y) as (u & Hu & Ru); simpl; auto. congruence.
  - apply IH; intros; [apply (H s0)|apply LL]; simpl; auto.
Qed.

Theorem stub_parser deprel d : built d ->
  exists d', stub_parse deprel d = Ok d' /\ built d' /\ same_layout d d' /\
    Forall2 same_morphology (dtokens d) (dtokens d') /\
    (forall t, In t (dtokens d') -> tdeprel t = deprel) /\
    (forall s i t, In s (dsents d') -> nth_error (tokens_of (dtokens d') s) i = Some t ->
       thsent t = Some (Z.of_nat i - 1) /\ thdoc t = Some (if (i =? 0)%nat then -1 else sstart s + (Z.of_nat i - 1))) /\
    new_document (dtext d') (dtokens d') (Some (dsents d')) true = Ok d'.
Proof.
  intros B. pose proof (built_inv _ B) as I.
  destruct (stub_parse_ok deprel d I) as (d' & E & B' & I' & T & S & P & H). exists d'.
  assert (C : forall s i t, In s (dsents d) -> nth_error (tokens_of (dtokens d') s) i = Some t ->
    exists u, nth_error (tokens_of (dtokens d) s) i = Some u /\ same_word u t /\ same_morphology u t /\ tdeprel t = deprel /\
    thsent t = Some (Z.of_nat i - 1) /\ thdoc t = Some (if (i =? 0)%nat then -1 else sstart s + (Z.of_nat i - 1))).
  { intros s i t Hs. rewrite H by auto. apply chain_heads. apply (tiles_in _ _ _ _ (inv_tiles _ I) Hs). }
  assert (L := Forall2_length' _ _ _ P).
  split; auto. split; auto. split; [|split; [|split; [|split]]].
  - split; [auto|]. split; [auto|]. apply Forall2_sentences; auto. intros s i t Hs Ht.
    destruct (C s i t Hs Ht) as (u & Hu & W & _). eauto.
  - apply Forall2_sentences; auto. intros s i t Hs Ht. destruct (C s i t Hs Ht) as (u & Hu & _ & M & _). eauto.
  - intros t Ht. destruct (in_dtokens_sent _ _ I' Ht) as (s & Hs & Hts). rewrite S in Hs.
    apply In_nth_error in Hts. destruct Hts as [i Hi]. destruct (C s i t Hs Hi) as (u & _ & _ & _ & D & _). auto.
  - intros s i t Hs Ht. rewrite S in Hs. destruct (C s i t Hs Ht) as (u & _ & _ & _ & _ & D). auto.
  - assert (SW : sents_wf (Some (dsents d'))) by (simpl; eapply tiles_wf; [|apply (inv_tiles _ I')]; lia).
    apply accepts_exactly_trees; auto; [apply I'|]. split.
    + apply rebuild_iff; auto. intros t Ht. destruct (in_dtokens_sent _ _ I' Ht) as (s & Hs & Hts). rewrite S in Hs.
      apply In_nth_error in Hts. destruct Hts as [i Hi]. destruct (C s i t Hs Hi) as (u & _ & _ & _ & _ & D1 & D2).
      pose proof (tiles_in _ _ _ _ (inv_tiles _ I) Hs) as Tl. unfold minus1_agree. rewrite D1, D2.
      destruct (Nat.eqb_spec i 0); [subst; tauto|]. split; intros X; injection X as X; lia.
    + intros s Hs. rewrite S in Hs. right. pose proof (tiles_in _ _ _ _ (inv_tiles _ I) Hs) as Tl. apply chain_tree.
      * intros X. apply (f_equal (@length _)) in X. rewrite map_length in X. cbn in X.
        rewrite H in X by auto. rewrite map_length, enumerate_len' in X.
        pose proof (tokens_of_length (dtokens d) s ltac:(lia) ltac:(lia)). unfold zlen in *. lia.
      * intros i h Hh. rewrite nth_error_map in Hh. destruct (nth_error (tokens_of (dtokens d') s) i) as [t|] eqn:Et; [|discriminate].
        injection Hh as <-. destruct (C s i t Hs Et) as (u & _ & _ & _ & _ & D1 & D2). unfold shown_head. rewrite D2, D1.
        destruct (Nat.eqb_spec i 0); [subst; auto|].
        destruct (Z.eqb_spec (sstart s + (Z.of_nat i - 1)) (-1)); [lia|auto].
Qed.

(* ------------------------------------------------------------------ *)
(* the stub tagger *)

(* a function applied to every token *)
Lemma retoken d (f : token -> token) : doc_inv d ->
  (forall t, same_place t (f t)) ->
  (forall s t, In s (dsents d) -> In t (tokens_of (dtokens d) s) -> heads_agree (sstart s) (f t)) ->
  exists d', from_document d (map f (dtokens d)) = Ok d' /\ built d' /\ doc_inv d' /\ dtext d' = dtext d /\ dsents d' = dsents d /\
    Forall2 same_place (dtokens d) (dtokens d') /\
    (forall s, In s (dsents d) -> tokens_of (dtokens d') s = map (fun t => fill (sstart s) (f t)) (tokens_of (dtokens d) s)).
Proof.
  intros I SP HA.
  destruct (reannotate d (map (fun s => map f (tokens_of (dtokens d) s)) (dsents d)) I) as (d' & Fd & I' & B & T1 & T2 & F2 & P).
  { apply Forall2_map_r. assert (X : forall ss, (forall s, In s ss -> In s (dsents d)) ->
      Forall2 (fun s x => Forall2 same_place (tokens_of (dtokens d) s) (map f (tokens_of (dtokens d) x)) /\
        Forall (heads_agree (sstart s)) (map f (tokens_of (dtokens d) x))) ss ss).
    { induction ss as [|s ss IH]; intros H; constructor.
      - split.
        + apply Forall2_map_r. induction (tokens_of (dtokens d) s); constructor; auto.
        + apply Forall_map, Forall_forall. intros t Ht. apply HA; auto. apply H; left; auto.
      - apply IH. intros; apply H; right; auto. }
    apply X; auto. }
  exists d'. split.
  { rewrite <- Fd. f_equal. rewrite <- (concat_tokens_of d I) at 1. rewrite concat_map, map_map. auto. }
  repeat (split; [auto|]). intros s Hs. apply In_nth_error in Hs. destruct Hs as [i Hi].
  destruct (Forall2_nth _ _ _ _ _ F2 Hi) as (l & Hl & El). rewrite El.
  rewrite nth_error_map, Hi in Hl. injection Hl as <-. apply map_map.
Qed.

Lemma retoken_all d d' (f : token -> token) (R : token -> token -> Prop) : doc_inv d -> doc_inv d' -> dsents d' = dsents d ->
  length (dtokens d) = length (dtokens d') ->
  (forall s, In s (dsents d) -> tokens_of (dtokens d') s = map (fun t => fill (sstart s) (f t)) (tokens_of (dtokens d) s)) ->
  (forall s t, In s (dsents d) -> In t (tokens_of (dtokens d) s) -> R t (fill (sstart s) (f t))) ->
  Forall2 R (dtokens d) (dtokens d').
Proof.
  intros I I' E L H HR. apply Forall2_sentences; auto. intros s i t Hs Ht. rewrite H in Ht by auto.
  rewrite nth_error_map in Ht. destruct (nth_error (tokens_of (dtokens d) s) i) as [u|] eqn:Eu; [|discriminate].
  injection Ht as <-. exists u. split; auto. apply HR; auto. eapply nth_error_In; eauto.
Qed.

Definition set_morphology (t : token) (p : option pos) (lemma : option str) : token :=
  mkToken (tstart t) (tend t) p lemma (tdeprel t) (tsub t) (trepl t) (thdoc t) (thsent t) (textras t).

Lemma fill_of_filled st t : filled st t ->
  (thdoc (fill st t) = thdoc t /\ thsent (fill st t) = thsent t) \/
  ((thdoc t = Some (-1) \/ thsent t = Some (-1)) /\ thdoc (fill st t) = Some (-1) /\ thsent (fill st t) = Some (-1)).
Proof.
  intros [(E1 & E2)|(d & h & E1 & E2 & E)]; unfold fill, filled_pair; rewrite E1, E2; cbn; auto.
  destruct (Z.eqb_spec h (-1)); destruct (Z.eqb_spec d (-1)); subst; cbn; auto.
Qed.

Lemma stub_tag_from p d : doc_inv d ->
  stub_tag p d = from_document d (map (fun t => set_morphology t p (Some (text_of (dtext d) t))) (dtokens d)).
Proof.
  intros I. unfold stub_tag. destruct (doc_nav_tokens_ok d) as (vs & E & M & F). rewrite E. cbn [bind].
  match goal with |- bind ?x _ = _ => replace x with (Ok (map (fun t => set_morphology t p (Some (text_of (dtext d) t))) (dtokens d))); [reflexivity|] end.
  symmetry. rewrite <- M, map_map. apply mapM_ok. pose proof (inv_wf _ I) as W. rewrite <- M in W. apply Forall_map in W.
  clear E M. induction vs as [|v vs IH]; [constructor|]. inversion F; subst. inversion W; subst. constructor; auto.
  rewrite with_morphology_ok by auto. unfold set_morphology. congruence.
Qed.

Theorem stub_tagger p d : built d ->
  exists d', stub_tag p d = Ok d' /\ built d' /\ same_layout d d' /\
    Forall (fun t => tpos t = p) (dtokens d') /\
    Forall2 (fun t t' => tlemma t' = Some (text_of (dtext d) t) /\ tdeprel t' = tdeprel t /\
      (same_syntax t t' \/ (thdoc t = Some (-1) \/ thsent t = Some (-1)) /\ thdoc t' = Some (-1) /\ thsent t' = Some (-1)))
      (dtokens d) (dtokens d') /\
    ((forall t, In t (dtokens d) -> minus1_agree t) -> Forall2 same_syntax (dtokens d) (dtokens d')).
Proof.
  intros B. pose proof (built_inv _ B) as I. rewrite stub_tag_from by auto.
  set (f := fun t => set_morphology t p (Some (text_of (dtext d) t))).
  destruct (retoken d f I) as (d' & E & B' & I' & T & S & P & H).
  { intros t. repeat split. }
  { intros s t Hs Ht. pose proof (doc_inv_sent_agree _ I _ Hs) as A. rewrite Forall_forall in A. apply (A t Ht). }
  assert (L := Forall2_length' _ _ _ P).
  assert (FF : forall s t, In s (dsents d) -> In t (tokens_of (dtokens d) s) -> filled (sstart s) (f t)).
  { intros s t Hs Ht. pose proof (inv_filled _ I _ Hs) as A. rewrite Forall_forall in A. apply (A t Ht). }
  exists d'. split; auto. split; auto. split; [|split; [|split]].
  - split; auto. split; auto. apply (retoken_all d d' f); auto. intros s t _ _. repeat split.
  - apply Forall_forall. intros t Ht.
    assert (X : Forall2 (fun _ t' => tpos t' = p) (dtokens d) (dtokens d')) by (apply (retoken_all d d' f); auto).
    clear -X Ht. induction X; destruct Ht; subst; auto.
  - apply (retoken_all d d' f); auto. intros s t Hs Ht. split; [auto|]. split; [auto|].
    destruct (fill_of_filled _ _ (FF s t Hs Ht)) as [[E1 E2]|[E1 E2]]; [left|right].
    + unfold same_syntax. rewrite E1, E2. repeat split.
    + split; auto.
  - intros A. apply (retoken_all d d' f); auto. intros s t Hs Ht.
    assert (M : fill (sstart s) (f t) = f t).
    { apply fill_id_iff; auto. specialize (A t (tokens_of_incl _ _ _ Ht)). exact A. }
    rewrite M. repeat split.
Qed.

(* ------------------------------------------------------------------ *)
(* the most frequent Pos *)

Lemma count_list_keys {K} (eqb : K -> K -> bool) l1 l2 :
  exists more, map fst (count_list eqb (l1 ++ l2)) = map fst (count_list eqb l1) ++ more.
Proof.
  unfold count_list. rewrite fold_left_app. generalize (fold_left (fun d k => gadd eqb d k 1) l1 []) as d.
  induction l2 as [|x l2 IH]; intros d; simpl; [exists []; rewrite app_nil_r; auto|].
  destruct (IH (gadd eqb d x 1)) as (m & E). rewrite E. unfold gadd. rewrite gset_keys, <- app_assoc. eauto.
Qed.

Lemma distinct_split {K} (eqb : K -> K -> bool) (R : forall a, eqb a a = true) (l1 l2 m1 m2 : list K) k :
  all_distinct eqb (l1 ++ k :: l2) -> l1 ++ k :: l2 = m1 ++ k :: m2 -> l1 = m1.
Proof.
  revert m1. induction l1 as [|x l1 IH]; intros m1 D E.
  - destruct m1 as [|y m1]; auto. injection E as -> E. inversion D as [|? ? F D']; subst.
    rewrite Forall_forall in F. exfalso. assert (eqb y y = false) by (apply F; apply in_app_iff; right; left; auto). rewrite R in *. discriminate.
  - destruct m1 as [|y m1].
    + injection E as -> E. inversion D as [|? ? F D']; subst. rewrite Forall_forall in F. exfalso.
      assert (eqb k k = false) by (apply F; apply in_app_iff; right; left; auto). rewrite R in *. discriminate.
    + injection E as -> E. inversion D; subst. f_equal. eapply IH; eauto.
Qed.

Lemma first_occurrence {K} (eqb : K -> K -> bool) k (l : list K) : (exists x, In x l /\ eqb x k = true) ->
  exists pre x post, l = pre ++ x :: post /\ eqb x k = true /\ forall q, In q pre -> eqb q k = false.
Proof.
  induction l as [|y l IH]; intros (x & Hx & E); [destruct Hx|]. destruct (eqb y k) eqn:Ey.
  - exists [], y, l. repeat split; auto. intros q [].
  - destruct IH as (pre & z & post & -> & Ez & F).
    + exists x. destruct Hx as [->|Hx]; [congruence|]. auto.
    + exists (y :: pre), z, post. repeat split; auto. intros q [<-|Hq]; auto.
Qed.

Lemma most_common_labels {K} (eqb : K -> K -> bool) (HE : equivalence eqb) labels k :
  most_common (count_list eqb labels) = Some k ->
  exists pre post, labels = pre ++ k :: post /\
    (forall q, In q pre -> occurrences eqb q labels < occurrences eqb k labels) /\
    (forall q, In q labels -> occurrences eqb q labels <= occurrences eqb k labels).
Proof.
  intros H. apply most_common_spec in H. destruct H as (before & n & after & E & Hb & Ha).
  assert (Hk : In (k, n) (count_list eqb labels)) by (rewrite E; apply in_app_iff; right; left; auto).
  destruct (count_list_In eqb HE labels k n Hk) as (Ik & -> & Pk).
  assert (LE : forall q, In q labels -> occurrences eqb q labels <= occurrences eqb k labels).
  { intros q Hq. destruct (In_count_list eqb HE labels q Hq) as (q' & Eq & Iq). rewrite E in Iq.
    apply in_app_iff in Iq. destruct Iq as [Iq|[Iq|Iq]].
    - apply Hb in Iq. lia.
    - injection Iq as _ Iq. lia.
    - apply Ha in Iq. lia. }
  destruct (first_occurrence eqb k labels) as (pre & x & post & El & Ex & Np).
  { exists k. split; auto. apply (eqv_refl eqb HE). }
  assert (D := count_list_distinct eqb HE labels).
  assert (NX : existsb (eqb x) (map fst (count_list eqb pre)) = false).
  { apply not_true_is_false. intros X. apply existsb_exists in X. destruct X as (y & Hy & Ey).
    apply in_map_iff in Hy. destruct Hy as ((y' & m) & <- & Hy). apply (count_list_In eqb HE) in Hy. destruct Hy as (Hy & _).
    specialize (Np _ Hy). cbn [fst] in *. rewrite <- (eqv_subst eqb HE _ _ k Ey) in Np. congruence. }
  destruct (count_list_keys eqb (pre ++ [x]) post) as (more & EK).
  rewrite <- app_assoc in EK. cbn [app] in EK. rewrite <- El in EK.
  assert (EP : map fst (count_list eqb (pre ++ [x])) = map fst (count_list eqb pre) ++ [x]).
  { unfold count_list at 1. rewrite fold_left_app. cbn [fold_left]. unfold gadd. rewrite gset_keys.
    change (fold_left (fun d k0 => gset eqb d k0 (match gget eqb d k0 with Some m => m + 1 | None => 1 end)) pre [])
      with (count_list eqb pre). rewrite NX. auto. }
  rewrite EP, <- app_assoc in EK. cbn [app] in EK.
  assert (x = k).
  { assert (In k (map fst (count_list eqb labels))) as Kin by (apply (in_map fst) in Hk; auto).
    assert (In x (map fst (count_list eqb labels))) as Xin by (rewrite EK; apply in_app_iff; right; left; auto).
    clear -D Kin Xin Ex HE. unfold all_distinct in D. induction (map fst (count_list eqb labels)) as [|y l IH]; [destruct Kin|].
    inversion D as [|? ? F D']; subst. rewrite Forall_forall in F. destruct Kin as [->|Kin], Xin as [->|Xin]; auto.
    - specialize (F _ Xin). rewrite (eqv_sym eqb HE) in F. congruence.
    - specialize (F _ Kin). congruence. }
  subst x. exists pre, post. split; auto. split; auto. intros q Hq.
  assert (EB : map fst (count_list eqb labels) = map fst before ++ k :: map fst after) by (rewrite E, map_app; auto).
  rewrite EB in EK, D. apply (distinct_split eqb (eqv_refl eqb HE)) in EK; auto.
  destruct (In_count_list eqb HE pre q Hq) as (q' & Eq & Iq). apply (in_map fst) in Iq. cbn [fst] in Iq. rewrite <- EK in Iq.
  apply in_map_iff in Iq. destruct Iq as ((q'' & m) & X & Iq). cbn in X. subst q''.
  pose proof (Hb _ _ Iq) as Hm.
  assert (Iq' : In (q', m) (count_list eqb labels)) by (rewrite E; apply in_app_iff; auto).
  destruct (count_list_In eqb HE labels q' m Iq') as (_ & -> & _).
  replace (occurrences eqb q labels) with (occurrences eqb q' labels); auto.
  clear -Eq HE. induction labels as [|z l IH]; simpl; auto. rewrite IH, (eqv_subst eqb HE _ _ z Eq). auto.
Qed.

Lemma nav_tokens_all ds : exists vss, mapM doc_nav_tokens ds = Ok vss /\
  map (fun v => tpos (nv_token v)) (concat vss) = map tpos (concat (map dtokens ds)).
Proof.
  induction ds as [|d ds (vss & E & M)]; [exists []; auto|]. destruct (doc_nav_tokens_ok d) as (vs & E1 & M1 & _).
  exists (vs :: vss). cbn [mapM map concat]. rewrite E1. cbn [bind]. rewrite E. split; auto.
  rewrite !map_app, M, <- M1, map_map. auto.
Qed.

Lemma occurrences_filter (p : option pos) ts : occurrences (option_eqb pos_eqb) p (map tpos ts) =
  Z.of_nat (length (filter (fun t => option_eqb pos_eqb p (tpos t)) ts)).
Proof.
  induction ts as [|t ts IH]; [reflexivity|]. cbn [map occurrences filter]. destruct (option_eqb pos_eqb p (tpos t)).
  - cbn [length]. lia.
  - lia.
Qed.

Lemma occurrences_ext {K} (e1 e2 : K -> K -> bool) k l : (forall x, In x l -> e1 k x = e2 k x) -> occurrences e1 k l = occurrences e2 k l.
Proof. induction l as [|x l IH]; intros H; simpl; auto. rewrite IH, H; simpl; auto. intros; apply H; right; auto. Qed.

Theorem most_frequent ds : Forall (fun t => opt_pos_wf (tpos t)) (concat (map dtokens ds)) ->
  (concat (map dtokens ds) = [] -> most_frequent_pos ds = Err EIndex) /\
  (concat (map dtokens ds) <> [] -> exists p before after,
     most_frequent_pos ds = Ok p /\ map tpos (concat (map dtokens ds)) = before ++ p :: after /\
     (forall q, In q before -> (pos_count q ds < pos_count p ds)%nat) /\
     (forall q, opt_pos_wf q -> (pos_count q ds <= pos_count p ds)%nat)).
Proof.
  intros W. unfold most_frequent_pos. destruct (nav_tokens_all ds) as (vss & E & M). rewrite E. cbn [bind]. rewrite M.
  split; [intros ->; reflexivity|]. intros NE.
  set (labels := map tpos (concat (map dtokens ds))) in *.
  assert (WL : Forall opt_pos_wf labels) by (apply Forall_map; auto).
  destruct (count_list_ext _ view_eqb opt_pos_wf view_eqb_same _ WL) as (EC & _). rewrite EC.
  destruct (most_common (count_list view_eqb labels)) as [p|] eqn:EM.
  2:{ exfalso. destruct (count_list view_eqb labels) eqn:X; [|discriminate]. apply (count_list_nil _ view_equiv) in X.
      unfold labels in X. destruct (concat (map dtokens ds)); [congruence|discriminate]. }
  destruct (most_common_labels view_eqb view_equiv labels p EM) as (pre & post & EL & H1 & H2).
  assert (OC : forall q, opt_pos_wf q -> Z.of_nat (pos_count q ds) = occurrences view_eqb q labels).
  { intros q Wq. unfold pos_count. rewrite <- occurrences_filter. fold labels. apply occurrences_ext.
    intros x Hx. apply view_eqb_same; auto. rewrite Forall_forall in WL. auto. }
  assert (WP : forall q, In q labels -> opt_pos_wf q) by (rewrite Forall_forall in WL; auto).
  assert (Wp : opt_pos_wf p) by (apply WP; rewrite EL; apply in_app_iff; right; left; auto).
  exists p, pre, post. split; [reflexivity|]. split; [auto|]. split.
  - intros q Hq. assert (In q labels) by (rewrite EL; apply in_app_iff; auto).
    specialize (H1 q Hq). rewrite <- !OC in H1 by auto. lia.
  - intros q Wq. destruct (Nat.eq_dec (pos_count q ds) 0) as [->|NZ]; [lia|].
    assert (P : 0 < occurrences view_eqb q labels) by (rewrite <- OC by auto; lia).
    apply (occurrences_pos view_eqb) in P. destruct P as (x & Hx & Ex). specialize (H2 x Hx).
    assert (X : occurrences view_eqb x labels = occurrences view_eqb q labels).
    { clear -Ex. induction labels as [|z l IH]; simpl; auto. rewrite IH, (eqv_subst view_eqb view_equiv _ _ z Ex). auto. }
    rewrite X, <- !OC in H2 by auto. lia.
Qed.
