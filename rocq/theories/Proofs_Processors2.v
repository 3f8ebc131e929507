(* Proofs about the UDPipe wrapper. *)
From Coq Require Import String Ascii ZArith NArith Bool Lia Permutation Sorted List.
From Verif Require Import Base BaseFacts Model_Datamodel Spec_Datamodel Proofs_Datamodel Proofs_Syntax Proofs_Datamodel2
  Proofs_Datamodel4 Model_Conllu Proofs_Conllu6 Model_Processors Spec_Processors Proofs_Processors.
Import ListNotations.
Open Scope Z_scope.

Lemma mapM_Forall2 {A A' B} (f : A -> result B) (g : A' -> result B) l l' :
  Forall2 (fun x y => f y = g x) l' l -> mapM f l = mapM g l'.
Proof. induction 1 as [|x y l' l H F IH]; auto. cbn [mapM]. rewrite H, IH. auto. Qed.

Definition word_for (text : str) (t : token) : ud_word := word_of (mkNav text [] false t 0).

Definition sentence_result (run : ud_sentence -> result ud_sentence) (text : str) (ts : list token) : result (list token) :=
  do ws' <- run (map (word_for text) ts);
  mapM (fun '(t, w) => token_from_word t w) (combine ts ws').

Lemma ud_process_eq run d : doc_inv d ->
  ud_process run d = do tss <- mapM (fun s => sentence_result run (dtext d) (tokens_of (dtokens d) s)) (dsents d);
                     from_document d (concat tss).
Proof.
  intros I. unfold ud_process. destruct (nav_sentences_ok d I) as (ss & E & F). rewrite E. cbn [bind].
  erewrite mapM_Forall2; [reflexivity|]. eapply Forall2_impl; [|exact F]. cbn beta.
  intros s v (vs & V1 & V2 & V3). unfold ud_sentence_tokens, convert_to_ud, convert_from_ud, sentence_result. rewrite V1. cbn [bind].
  replace (map word_of vs) with (map (word_for (dtext d)) (tokens_of (dtokens d) s)).
  2:{ rewrite <- V2, map_map. apply map_ext_in. intros x Hx. rewrite Forall_forall in V3. destruct (V3 _ Hx) as [E1 _].
      unfold word_for, word_of. cbn [nv_token nv_text]. rewrite E1. auto. }
  destruct (run _) as [ws'|e]; cbn [bind]; auto. rewrite <- V2. clear. revert ws'. induction vs as [|v vs IH]; intros [|w ws]; cbn [combine map mapM]; auto.
  destruct (token_from_word (nv_token v) w); cbn [bind]; auto. rewrite IH. auto.
Qed.

(* ------------------------------------------------------------------ *)
(* features *)

Lemma last_value_snoc k es kv : last_value k (es ++ [kv]) = if str_eqb k (fst kv) then Some (snd kv) else last_value k es.
Proof.
  induction es as [|[k' v'] es IH]; cbn [app last_value].
  - destruct kv as [k1 v1]. cbn [fst snd last_value]. destruct (str_eqb k k1); auto.
  - rewrite IH. destruct (str_eqb k (fst kv)); auto.
Qed.

Lemma dict_update_get (es : list (str * str)) : forall k, dict_get (dict_update [] es) k = last_value k es.
Proof.
  induction es as [|kv es IH] using rev_ind; intros k; [reflexivity|].
  unfold dict_update in *. rewrite fold_left_app. cbn [fold_left]. rewrite last_value_snoc.
  destruct (str_eqb k (fst kv)) eqn:E.
  - apply str_eqb_eq in E. subst. apply dict_get_set_same.
  - rewrite dict_get_set_other; auto. intros X. subst. rewrite str_eqb_refl in E. discriminate.
Qed.

Lemma split_in_sep c piece : In c piece <-> exists k v rest, split c piece = k :: v :: rest.
Proof.
  split.
  - intros H. pose proof (join_split c piece) as J. pose proof (split_pieces_no_sep c piece) as P.
    destruct (split c piece) as [|k [|v rest]]; [cbn in J; subst; destruct H| |eauto].
    cbn in J. subst. inversion P; subst. exfalso. eapply H2; eauto.
  - intros (k & v & rest & E). rewrite <- (join_split c piece), E. cbn [join]. apply in_app_iff. right. left. auto.
Qed.

Lemma split_feature_entry piece k v rest : split (ch "="%char) piece = k :: v :: rest -> feature_entry piece (k, v).
Proof.
  intros E. pose proof (join_split (ch "="%char) piece) as J. pose proof (split_pieces_no_sep (ch "="%char) piece) as P.
  rewrite E in *. inversion P as [|? ? P1 P2]; subst. inversion P2 as [|? ? P3 _]; subst.
  split; [exact P1|]. split; [exact P3|]. cbn [fst snd]. destruct rest as [|r rest].
  - exists []. cbn [join]. rewrite app_nil_r. auto.
  - eexists. split; [|right; eexists; reflexivity]. cbn [join app]. reflexivity.
Qed.

Definition read_piece (piece : str) : result (str * str) :=
  match split (ch "=") piece with k :: v :: _ => Ok (k, v) | _ => Err EIndex end.

Lemma read_pieces pieces : (exists es, mapM read_piece pieces = Ok es /\ Forall2 feature_entry pieces es) \/
  (mapM read_piece pieces = Err EIndex /\ ~ Forall (fun piece => In (ch "="%char) piece) pieces).
Proof.
  induction pieces as [|piece pieces IH]; [left; exists []; split; constructor|]. cbn [mapM].
  unfold read_piece at 1 3. destruct (split (ch "=") piece) as [|k [|v rest]] eqn:E.
  - right. cbn [bind]. split; auto. intros H. inversion H as [|? ? H1 _]; subst. apply split_in_sep in H1. destruct H1 as (k & v & r & H1). congruence.
  - right. cbn [bind]. split; auto. intros H. inversion H as [|? ? H1 _]; subst. apply split_in_sep in H1. destruct H1 as (k' & v & r & H1). congruence.
  - cbn [bind]. destruct IH as [(es & M & F)|(M & N)]; rewrite M; cbn [bind].
    + left. eexists. split; [reflexivity|]. constructor; auto. eapply split_feature_entry; eauto.
    + right. split; auto. intros H. inversion H; auto.
Qed.

Lemma dict_update_nonempty (es : list (str * str)) : es <> [] -> dict_update [] es <> [].
Proof.
  destruct es as [|[k v] es] using rev_ind; [congruence|]. intros _ E.
  assert (X : dict_get (dict_update [] (es ++ [(k, v)])) k = Some v).
  { rewrite dict_update_get, last_value_snoc. cbn [fst snd]. rewrite str_eqb_refl. auto. }
  rewrite E in X. discriminate.
Qed.

Lemma parse_word_feats_spec s :
  (readable_features s /\ exists o, parse_word_feats s = Ok o /\
     match o with None => s = [] | Some f => s <> [] /\ f <> [] /\ dict_ok f /\ denotes_features s f end) \/
  (~ readable_features s /\ parse_word_feats s = Err EIndex).
Proof.
  destruct s as [|c s]; [left; split; [left; auto|exists None; auto]|].
  unfold parse_word_feats. set (z := c :: s) in *. destruct (read_pieces (split (ch "|") z)) as [(es & M & F)|(M & N)].
  - left. assert (NE : split (ch "|") z <> []) by apply split_nonempty. split.
    + right. clear -F. induction F as [|p e l l' (_ & _ & r & -> & _) F IH]; constructor; auto. apply in_app_iff. right. left. auto.
    + fold read_piece. change (fun piece => match split (ch "=") piece with k :: v :: _ => Ok (k, v) | _ => Err EIndex end) with read_piece.
      rewrite M. cbn [bind]. eexists. split; [reflexivity|]. cbn beta iota.
      assert (es <> []) by (intros X; rewrite X in F; inversion F as [E|]; symmetry in E; exact (NE E)).
      split; [discriminate|]. split; [apply dict_update_nonempty; auto|]. split; [apply dict_update_ok; constructor|].
      right. split; [discriminate|]. exists (split (ch "|") z), es. split; [symmetry; apply join_split|].
      split; auto. split; [apply split_pieces_no_sep|]. split; auto. apply dict_update_get.
  - right. split.
    + intros [H|H]; [discriminate|]. auto.
    + change (fun piece => match split (ch "=") piece with k :: v :: _ => Ok (k, v) | _ => Err EIndex end) with read_piece.
      rewrite M. reflexivity.
Qed.

Lemma nonempty_spec s : nonempty s (non_empty s).
Proof. destruct s; [left|right]; split; auto; discriminate. Qed.

(* ------------------------------------------------------------------ *)
(* one token *)

Lemma token_from_word_spec st t w : token_wf t ->
  (readable_features (w_feats w) /\ exists t', token_from_word t w = Ok t' /\ same_word t t' /\ heads_agree st t' /\
     says st w (fill st t')) \/
  (~ readable_features (w_feats w) /\ token_from_word t w = Err EIndex).
Proof.
  intros W. unfold token_from_word. destruct (parse_word_feats_spec (w_feats w)) as [(R & o & E & H)|(N & E)]; rewrite E; cbn [bind];
    [left; split; auto|right; split; auto].
  set (p := match w_upos w, w_xpos w, o with [], [], (None | Some []) => None
            | _, _, _ => Some (mkPos (non_empty (w_upos w)) (non_empty (w_xpos w)) (match o with Some f => f | None => [] end)) end).
  rewrite with_morphology_ok by auto. cbn [bind].
  rewrite with_syntax_ok by exact W. cbn [tstart tend tpos tlemma tsub trepl textras].
  eexists. split; [reflexivity|]. split; [repeat split|]. split; [intros a b A; discriminate A|].
  assert (HP : match p with
    | None => w_upos w = [] /\ w_xpos w = [] /\ w_feats w = []
    | Some q => ~ (w_upos w = [] /\ w_xpos w = [] /\ w_feats w = []) /\
        nonempty (w_upos w) (upos q) /\ nonempty (w_xpos w) (xpos q) /\ denotes_features (w_feats w) (feats q)
    end).
  { assert (HF : denotes_features (w_feats w) (match o with Some f => f | None => [] end)).
    { destruct o as [f|]; [tauto|]. left. auto. }
    unfold p. pose proof (nonempty_spec (w_upos w)) as NU. pose proof (nonempty_spec (w_xpos w)) as NX.
    destruct (w_upos w) as [|cu u]; [destruct (w_xpos w) as [|cx x]; [destruct o as [[|kv f]|]|]|]; cbn [upos xpos feats].
    - destruct H as (_ & H & _). congruence.
    - split; [intros (_ & _ & X); tauto|]. auto.
    - auto.
    - split; [intros (_ & X & _); discriminate|]. auto.
    - split; [intros (X & _); discriminate|]. auto. }
  unfold says, fill, filled_pair, set_heads. cbn [tlemma tdeprel tpos thsent thdoc].
  split; [apply nonempty_spec|]. split; [apply nonempty_spec|]. split; [exact HP|].
  destruct (Z.leb_spec 0 (w_head w)).
  - cbn [is_minus1]. rewrite orb_false_r. destruct (Z.eqb_spec (w_head w - 1) (-1)); cbn [fst snd].
    + repeat split; try lia; auto.
    + repeat split; try lia; auto. f_equal. lia.
  - cbn [fst snd]. repeat split; try lia; auto.
Qed.

Lemma says_same st w t : forall t', same_but_heads t t' -> thdoc t = thdoc t' -> thsent t = thsent t' -> says st w t -> says st w t'.
Proof. intros t' (E1&E2&E3&E4&E5&E6&E7&E8) H1 H2. unfold says. rewrite <- E3, <- E4, <- E5, <- H1, <- H2. auto. Qed.

(* ------------------------------------------------------------------ *)
(* one sentence *)

Definition sentence_ok (st : Z) (ts : list token) (ws : ud_sentence) (l : list token) : Prop :=
  Forall2 same_word ts l /\ Forall (heads_agree st) l /\ Forall2 (says st) ws (map (fill st) l).

Lemma words_back st ts : forall ws, Forall token_wf ts -> length ws = length ts ->
  (Forall (fun w => readable_features (w_feats w)) ws /\
   exists l, mapM (fun '(t, w) => token_from_word t w) (combine ts ws) = Ok l /\ sentence_ok st ts ws l) \/
  (~ Forall (fun w => readable_features (w_feats w)) ws /\
   mapM (fun '(t, w) => token_from_word t w) (combine ts ws) = Err EIndex).
Proof.
  induction ts as [|t ts IH]; intros [|w ws] W L; try discriminate.
  - left. split; [constructor|]. exists []. split; [reflexivity|]. repeat split; constructor.
  - inversion W as [|? ? W1 W2]; subst. cbn [combine mapM]. destruct (token_from_word_spec st t w W1) as [(R & t' & E & S & A & Y)|(N & E)];
      rewrite E; cbn [bind].
    + destruct (IH ws W2 ltac:(simpl in L; lia)) as [(R' & l & E' & S1 & S2 & S3)|(N & E')]; rewrite E'; cbn [bind].
      * left. split; [constructor; auto|]. eexists. split; [reflexivity|]. repeat split; constructor; auto.
      * right. split; auto. intros H; inversion H; auto.
    + right. split; auto. intros H; inversion H; auto.
Qed.

(* ------------------------------------------------------------------ *)
(* the words a model gets *)

Definition entry_str (kv : str * str) : str := fst kv ++ ch "=" :: snd kv.

Lemma str_leb_iff a b : str_leb a b = true <-> str_cmp a b <> Gt.
Proof. unfold str_leb. destruct (str_cmp a b); split; intros; congruence. Qed.

Lemma set_if_or_empty o : set_if o = or_empty o.
Proof. destruct o as [[|c s]|]; auto. Qed.

Lemma word_describes text t : describes text t (word_for text t).
Proof.
  unfold describes, word_for, word_of, upos_of, xpos_of. cbn [nv_token nv_text w_form w_lemma w_upos w_xpos w_feats w_head w_deprel].
  rewrite set_if_or_empty. split; auto. split; auto.
  split. { destruct (tpos t); auto using set_if_or_empty. }
  split. { destruct (tpos t); auto using set_if_or_empty. }
  split; auto. split; auto.
  set (fs := match tpos t with Some p => feats p | None => [] end).
  assert (P : Permutation (isort str_leb (map entry_str fs)) (map entry_str fs)) by (apply Permutation_sym, isort_perm).
  apply Permutation_map_inv in P. destruct P as (entries & E & P). exists entries. split; [apply Permutation_sym; auto|].
  change (map (fun kv => fst kv ++ ch "=" :: snd kv) entries) with (map entry_str entries). rewrite <- E. split.
  - unfold fs. destruct (tpos t) as [p|]; [|reflexivity]. destruct (feats p); reflexivity.
  - pose proof (isort_sorted str_leb (leb_of_ok _ str_cmp_ok) (map entry_str fs)) as S. clear -S. induction S as [|a l S IH H]; constructor; auto.
    eapply Forall_impl; [|exact H]. intros b Hb. apply str_leb_iff. exact Hb.
Qed.

Lemma describes_unique text t w w' : describes text t w -> describes text t w' -> w = w'.
Proof.
  intros (A1&A2&A3&A4&A5&A6&es&A7&A8&A9) (B1&B2&B3&B4&B5&B6&es'&B7&B8&B9).
  assert (E : map entry_str es = map entry_str es').
  { eapply sorted_perm_eq; [| |exact A9|exact B9].
    - intros x y _ _ H1 H2. destruct (str_cmp x y) eqn:C; [apply str_cmp_ok; auto| |congruence].
      destruct (str_cmp y x) eqn:C'; [symmetry; apply str_cmp_ok; auto| |congruence].
      rewrite (cmp_anti _ str_cmp_ok x y), C in C'. discriminate.
    - apply Permutation_map. eapply perm_trans; [exact A7|apply Permutation_sym; auto]. }
  change (map (fun kv => fst kv ++ ch "=" :: snd kv) es) with (map entry_str es) in *.
  change (map (fun kv => fst kv ++ ch "=" :: snd kv) es') with (map entry_str es') in *. rewrite <- E in B8.
  destruct w, w'. cbn in *. congruence.
Qed.

Lemma describes_all text ts ws : Forall2 (describes text) ts ws -> ws = map (word_for text) ts.
Proof. induction 1; cbn [map]; f_equal; auto. eapply describes_unique; eauto. apply word_describes. Qed.

Lemma described text ts : Forall2 (describes text) ts (map (word_for text) ts).
Proof. apply Forall2_map_r. induction ts; constructor; auto. apply word_describes. Qed.

(* ------------------------------------------------------------------ *)
(* the document *)

Definition model_writes (run : ud_sentence -> result ud_sentence) (d : document) (s : sentence) (ws ws' : ud_sentence) : Prop :=
  Forall2 (describes (dtext d)) (tokens_of (dtokens d) s) ws /\ run ws = Ok ws'.

Lemma ud_all run d : doc_inv d -> keeps_words run ->
  (exists tss, mapM (fun s => sentence_result run (dtext d) (tokens_of (dtokens d) s)) (dsents d) = Ok tss /\
     Forall2 (fun s l => exists ws ws', model_writes run d s ws ws' /\ Forall (fun w => readable_features (w_feats w)) ws' /\
       sentence_ok (sstart s) (tokens_of (dtokens d) s) ws' l) (dsents d) tss) \/
  (exists e, mapM (fun s => sentence_result run (dtext d) (tokens_of (dtokens d) s)) (dsents d) = Err e /\
     exists s ws, In s (dsents d) /\ Forall2 (describes (dtext d)) (tokens_of (dtokens d) s) ws /\
       (run ws = Err e \/ (e = EIndex /\ exists ws', run ws = Ok ws' /\ ~ Forall (fun w => readable_features (w_feats w)) ws'))).
Proof.
  intros I K. generalize (dsents d) as ss. induction ss as [|s ss IH]; cbn [mapM].
  { left. exists []. split; constructor. }
  unfold sentence_result at 1 3. pose proof (described (dtext d) (tokens_of (dtokens d) s)) as D.
  destruct (run (map (word_for (dtext d)) (tokens_of (dtokens d) s))) as [ws'|e] eqn:R; cbn [bind].
  2:{ right. exists e. split; auto. eexists s, _. split; [left; auto|]. split; [exact D|]. left; auto. }
  assert (L : length ws' = length (tokens_of (dtokens d) s)) by (rewrite (K _ _ R); apply map_length).
  destruct (words_back (sstart s) (tokens_of (dtokens d) s) ws' (tokens_of_wf _ _ I) L) as [(RF & l & E & S)|(N & E)]; rewrite E; cbn [bind].
  - destruct IH as [(tss & M & F)|(e & M & s' & ws & Hs & Dw & H)]; rewrite M; cbn [bind].
    + left. eexists. split; [reflexivity|]. constructor; auto. exists (map (word_for (dtext d)) (tokens_of (dtokens d) s)), ws'.
      split; [split; auto|]. auto.
    + right. exists e. split; auto. exists s', ws. split; [right; auto|]. auto.
  - right. exists EIndex. split; auto. eexists s, _. split; [left; auto|]. split; [exact D|]. right. split; auto. eauto.
Qed.

Theorem ud_aligned run d : built d -> keeps_words run ->
  (exists d', ud_process run d = Ok d' /\ built d' /\ same_layout d d' /\
     forall s, In s (dsents d) -> exists ws ws',
       Forall2 (describes (dtext d)) (tokens_of (dtokens d) s) ws /\ run ws = Ok ws' /\
       Forall2 (says (sstart s)) ws' (tokens_of (dtokens d') s)) \/
  (exists e s ws, ud_process run d = Err e /\ In s (dsents d) /\
     Forall2 (describes (dtext d)) (tokens_of (dtokens d) s) ws /\
     (run ws = Err e \/
      (e = EIndex /\ exists ws', run ws = Ok ws' /\ ~ Forall (fun w => readable_features (w_feats w)) ws'))).
Proof.
  intros B K. pose proof (built_inv _ B) as I. rewrite ud_process_eq by auto.
  destruct (ud_all run d I K) as [(tss & M & F)|(e & M & s & ws & Hs & D & H)]; rewrite M; cbn [bind]; [left|right; exists e, s, ws; auto].
  destruct (reannotate d tss I) as (d' & E & I' & B' & T & S & F2 & P).
  { eapply Forall2_impl; [|exact F]. cbn beta. intros s l (ws & ws' & _ & _ & S1 & S2 & _). split; auto.
    eapply Forall2_impl; [|exact S1]. unfold same_word, same_place. tauto. }
  exists d'. split; auto. split; auto. split.
  - split; auto. split; auto. apply Forall2_sentences; auto; [|apply (Forall2_length' _ _ _ P)].
    intros s i t Hs Ht. apply In_nth_error in Hs. destruct Hs as [k Hk].
    destruct (Forall2_nth _ _ _ _ _ F Hk) as (l & Hl & ws & ws' & _ & _ & S1 & S2 & _).
    destruct (Forall2_nth _ _ _ _ _ F2 Hk) as (l' & Hl' & El'). assert (l' = l) by congruence. subst l'.
    rewrite El', nth_error_map in Ht. destruct (nth_error l i) as [u|] eqn:Eu; [|discriminate]. injection Ht as <-.
    destruct (Forall2_nth_r _ _ _ _ _ S1 Eu) as (t0 & Ht0 & W). exists t0. split; auto.
  - intros s Hs. apply In_nth_error in Hs. destruct Hs as [k Hk].
    destruct (Forall2_nth _ _ _ _ _ F Hk) as (l & Hl & ws & ws' & [D R] & _ & S1 & S2 & S3).
    destruct (Forall2_nth _ _ _ _ _ F2 Hk) as (l' & Hl' & El'). assert (l' = l) by congruence. subst l'.
    exists ws, ws'. rewrite El'. auto.
Qed.

(* ------------------------------------------------------------------ *)
(* a model that changes nothing *)

Lemma nonempty_back o o' : o <> Some [] -> nonempty (or_empty o) o' -> o' = o.
Proof.
  intros N [[E ->]|[E ->]]; destruct o as [s|]; cbn in *; auto.
  - exfalso. apply N. f_equal. exact E.
  - exfalso. apply E. reflexivity.
Qed.

Lemma plain_no_sep fs : plain_features fs -> Forall (fun piece => ~ In (ch "|"%char) piece) (map entry_str fs).
Proof.
  intros [_ F]. apply Forall_map. eapply Forall_impl; [|exact F]. intros [k v] H. cbn in *. unfold entry_str. cbn [fst snd].
  rewrite Forall_forall in H. intros X. apply in_app_iff in X. destruct X as [X|[X|X]].
  - apply (H (ch "|"%char)); auto. apply in_app_iff; auto.
  - discriminate X.
  - apply (H (ch "|"%char)); auto. apply in_app_iff; auto.
Qed.

Lemma plain_perm fs es : Permutation es fs -> plain_features fs -> plain_features es.
Proof.
  intros P [N F]. split.
  - eapply Permutation_NoDup; [|exact N]. apply Permutation_map, Permutation_sym; auto.
  - apply Forall_forall. intros x Hx. rewrite Forall_forall in F. apply F. eapply Permutation_in; eauto.
Qed.

Lemma plain_entry k v kv : Forall (fun c => c <> ch "="%char /\ c <> ch "|"%char) (k ++ v) ->
  feature_entry (entry_str (k, v)) kv -> kv = (k, v).
Proof.
  intros F (N1 & N2 & rest & E & H). rewrite Forall_forall in F.
  assert (Nk : ~ In (ch "="%char) k) by (intros X; destruct (F (ch "="%char)) as [Y _]; [apply in_app_iff; auto|congruence]).
  assert (Nv : ~ In (ch "="%char) v) by (intros X; destruct (F (ch "="%char)) as [Y _]; [apply in_app_iff; auto|congruence]).
  destruct kv as [k' v']. unfold entry_str in E. cbn [fst snd] in *.
  pose proof (f_equal (split (ch "="%char)) E) as S. rewrite !split_app_sep in S by auto. injection S as <- S.
  destruct H as [->|[r ->]].
  - rewrite app_nil_r, !split_no_sep in S by auto. injection S as <-. auto.
  - rewrite split_no_sep in S by auto. rewrite split_app_sep in S by auto. exfalso.
    injection S as _ S. symmetry in S. revert S. apply split_nonempty.
Qed.

Lemma last_value_In k es v : NoDup (map fst es) -> (last_value k es = Some v <-> In (k, v) es).
Proof.
  induction es as [|[k' v'] es IH]; cbn [last_value map fst]; intros N; [split; [discriminate|intros []]|].
  inversion N as [|? ? N1 N2]; subst. specialize (IH N2). destruct (last_value k es) as [w|] eqn:E.
  - rewrite IH. split; [right; tauto|]. intros [X|X]; auto. injection X as -> ->.
    exfalso. apply N1. destruct IH as [_ IH]. clear IH. 
    assert (In (k, w) es) as Y. { clear -E N2. induction es as [|[a b] es IH]; [discriminate|]. cbn [last_value] in E.
      inversion N2; subst. destruct (last_value k es) eqn:L; [right; apply IH; auto; congruence|].
      destruct (str_eqb k a) eqn:Ek; [|discriminate]. apply str_eqb_eq in Ek. left. congruence. }
    apply (in_map fst) in Y. auto.
  - destruct (str_eqb k k') eqn:Ek.
    + apply str_eqb_eq in Ek. subst. split; [intros X; injection X as <-; left; auto|]. intros [X|X]; [congruence|].
      exfalso. apply N1. apply (in_map fst) in X. auto.
    + split; [discriminate|]. intros [X|X]; [injection X as -> ->; rewrite str_eqb_refl in Ek; discriminate|].
      apply IH in X. discriminate.
Qed.

Lemma or_empty_nil o : o <> Some [] -> or_empty o = [] -> None = o.
Proof. intros N E. destruct o as [[|c s]|]; auto; [exfalso; apply N; auto|discriminate E]. Qed.

Lemma no_entries es : join [ch "|"%char] (map entry_str es) = [] -> es = [].
Proof.
  destruct es as [|[k v] es]; auto. intros E. exfalso. cbn [map join] in E.
  destruct (map entry_str es); unfold entry_str in E; cbn [fst snd] in E; destruct k; discriminate E.
Qed.

Lemma features_back fs es f : Permutation es fs -> plain_features fs ->
  denotes_features (join [ch "|"%char] (map entry_str es)) f -> forall k, dict_get f k = dict_get fs k.
Proof.
  intros P PL D k. pose proof (plain_perm _ _ P PL) as PLe.
  assert (NI : forall v, dict_get fs k = Some v <-> In (k, v) es).
  { intros v. split; intros H.
    - eapply Permutation_in; [apply Permutation_sym; eauto|]. apply dict_get_In; auto.
    - apply In_dict_get; [apply PL|]. eapply Permutation_in; eauto. }
  destruct D as [[E ->]|(NE & pieces & es' & E & NP & F1 & F2 & G)].
  - destruct es as [|kv es]; [apply Permutation_nil in P; subst; auto|]. exfalso. clear -E.
    cbn [map join] in E. destruct (map entry_str es); unfold entry_str in E; destruct (fst kv); discriminate.
  - rewrite G. destruct es as [|kv0 es0] eqn:Ees; [cbn in NE; congruence|]. rewrite <- Ees in *.
    assert (EP : pieces = map entry_str es).
    { rewrite <- (split_join (ch "|"%char) pieces), <- (split_join (ch "|"%char) (map entry_str es)); auto.
      - rewrite <- E. auto.
      - rewrite Ees. discriminate.
      - apply plain_no_sep; auto. }
    assert (ES : es' = es).
    { rewrite EP in F2. destruct PLe as [_ PLe]. clear -F2 PLe. revert es' F2. induction es as [|[a b] es IH]; intros es' F2; inversion F2; subst; auto.
      inversion PLe; subst. f_equal; auto. apply plain_entry in H1; auto. }
    subst es'. destruct (last_value k es) as [v|] eqn:L.
    + apply (last_value_In k es v (proj1 PLe)) in L. symmetry. apply NI. auto.
    + destruct (dict_get fs k) as [v|] eqn:L'; auto. pose proof (proj1 (NI v) eq_refl) as L2. apply (last_value_In k es v (proj1 PLe)) in L2. congruence.
Qed.

Theorem ud_identity d : built d -> Forall survivable (dtokens d) ->
  exists d', ud_process Ok d = Ok d' /\ same_layout d d' /\
    Forall2 (fun t t' => tlemma t' = tlemma t /\ upos_of t' = upos_of t /\ xpos_of t' = xpos_of t /\
      (forall k, feature_of t' k = feature_of t k) /\
      thdoc t' = None /\ thsent t' = None /\ tdeprel t' = None) (dtokens d) (dtokens d').
Proof.
  intros B Sv. pose proof (built_inv _ B) as I.
  assert (RD : forall t w, In t (dtokens d) -> describes (dtext d) t w -> readable_features (w_feats w)).
  { intros t w Ht (_ & _ & _ & _ & _ & _ & es & P & E & _). rewrite Forall_forall in Sv. destruct (Sv t Ht) as (_ & _ & _ & PL).
    destruct (tpos t) as [p|].
    - rewrite E. destruct es as [|kv es0] eqn:Ees; [left; auto|]. right. rewrite <- Ees in *.
      change (map (fun kv => fst kv ++ ch "=" :: snd kv) es) with (map entry_str es).
      rewrite split_join; [|rewrite Ees; discriminate|apply plain_no_sep; eapply plain_perm; eauto].
      apply Forall_map, Forall_forall. intros x _. apply in_app_iff. right. left. auto.
    - apply Permutation_sym, Permutation_nil in P. subst es. left. auto. }
  destruct (ud_aligned Ok d B) as [(d' & E & B' & SL & H)|(e & s & ws & E & Hs & D & [X|(-> & ws' & X & N)])].
  - intros ws ws' X. injection X as <-. auto.
  - exists d'. split; auto. split; auto. destruct SL as (T & S & F). apply Forall2_sentences; auto using built_inv; [|apply (Forall2_length' _ _ _ F)].
    intros s i t' Hs Ht'. destruct (H s Hs) as (ws & ws' & D & X & Y). injection X as <-.
    destruct (Forall2_nth_r _ _ _ _ _ Y Ht') as (w & Hw & (S1 & S2 & S3 & S4 & _)).
    destruct (Forall2_nth_r _ _ _ _ _ D Hw) as (t & Ht & (D1 & D2 & D3 & D4 & D5 & D6 & es & P & D7 & _)). exists t. split; auto.
    assert (Ht0 : In t (dtokens d)) by (eapply tokens_of_incl, nth_error_In; eauto).
    rewrite Forall_forall in Sv. destruct (Sv t Ht0) as (V1 & V2 & V3 & V4).
    rewrite D2 in S1. rewrite D6 in S2. destruct (S4 ltac:(lia)) as [H1 H2].
    split; [apply nonempty_back; auto|].
    assert (Q : upos_of t' = upos_of t /\ xpos_of t' = xpos_of t /\ forall k, feature_of t' k = feature_of t k).
    { unfold feature_of. unfold upos_of at 1. unfold xpos_of at 1. destruct (tpos t') as [q|].
      - destruct S3 as (_ & U & Xp & Ft). rewrite D3 in U. rewrite D4 in Xp. apply nonempty_back in U; auto. apply nonempty_back in Xp; auto.
        split; auto. split; auto. intros k. rewrite D7 in Ft. destruct (tpos t) as [p|].
        + eapply features_back; eauto.
        + apply Permutation_sym, Permutation_nil in P. subst es. destruct Ft as [[_ ->]|[Ft _]]; auto. cbn in Ft. congruence.
      - destruct S3 as (U & Xp & Ft). rewrite D3 in U. rewrite D4 in Xp. rewrite D7 in Ft.
        assert (es = []).
        { exact (no_entries es Ft). }
        subst es. split; [|split].
        + apply or_empty_nil; auto.
        + apply or_empty_nil; auto.
        + intros k. destruct (tpos t) as [p|]; auto. apply Permutation_nil in P. rewrite P. auto. }
    destruct Q as (Q1 & Q2 & Q3). repeat (split; [auto|]). destruct S2 as [[_ ->]|[S2 _]]; congruence.
  - discriminate X.
  - exfalso. injection X as <-. apply N. apply Forall_forall. intros w Hw. apply In_nth_error in Hw. destruct Hw as [i Hi].
    destruct (Forall2_nth_r _ _ _ _ _ D Hi) as (t & Ht & Dt). eapply RD; [|exact Dt]. eapply tokens_of_incl, nth_error_In; eauto.
Qed.

(* ------------------------------------------------------------------ *)
(* a model that may also add or remove words *)

Lemma token_from_word_wf t w t' : token_wf t -> token_from_word t w = Ok t' -> token_wf t'.
Proof.
  intros W E. destruct (token_from_word_spec 0 t w W) as [(_ & t'' & E' & S & _)|(_ & E')]; [|congruence].
  assert (t'' = t') by congruence. subst. apply (place_wf t); auto. unfold same_word, same_place in *. tauto.
Qed.

Lemma sentence_result_wf run text ts l : Forall token_wf ts -> sentence_result run text ts = Ok l -> Forall token_wf l.
Proof.
  intros W E. unfold sentence_result in E. apply bind_ok_iff in E. destruct E as (ws & _ & E). apply mapM_ok in E.
  revert l E. revert ws. induction ts as [|t ts IH]; intros ws l E; cbn [combine] in E.
  - inversion E; constructor.
  - inversion W; subst. destruct ws as [|w ws]; inversion E; subst; constructor.
    + eapply token_from_word_wf; eauto.
    + eapply IH; eauto.
Qed.

Theorem ud_any_model run d d' : built d -> ud_process run d = Ok d' ->
  dtext d' = dtext d /\
  ((dsents d' = dsents d /\ Forall2 same_span (dtokens d) (dtokens d')) \/ (dsents d' = [] /\ dtokens d' = [])).
Proof.
  intros B. pose proof (built_inv _ B) as I. rewrite ud_process_eq by auto. intros E. apply bind_ok_iff in E.
  destruct E as (tss & M & E). apply mapM_ok in M. destruct (concat tss) as [|t ts] eqn:C.
  - unfold from_document in E. change (sort_tokens []) with (@nil token) in E. rewrite new_document_empty in E.
    destruct (existsb _ _) in E; [discriminate|]. injection E as <-. split; [auto|]. right. auto.
  - rewrite <- C in E. destruct (from_document_ok d (concat tss) d' I) as (T & S & F); auto.
    + apply Forall_forall. intros x Hx. apply in_concat in Hx. destruct Hx as (l & Hl & Hx).
      apply In_nth_error in Hl. destruct Hl as [i Hi]. destruct (Forall2_nth_r _ _ _ _ _ M Hi) as (s & _ & Es).
      apply sentence_result_wf in Es; [|apply tokens_of_wf; auto]. rewrite Forall_forall in Es. auto.
    + rewrite C. discriminate.
Qed.
