(* Proofs about the tdozat wrapper: the dataset, process, sessions and extra fields. *)
From Coq Require Import String Ascii ZArith NArith Bool Lia Permutation Sorted List.
From Verif Require Import Base BaseFacts Model_Datamodel Spec_Datamodel Proofs_Datamodel Proofs_Syntax Proofs_Datamodel2
  Proofs_Datamodel4 Model_Conllu Proofs_Conllu6 Model_Processors Spec_Processors Proofs_Processors Proofs_Processors2
  Model_Tdozat Spec_Tdozat Proofs_Tdozat Proofs_Tdozat2 Proofs_Tdozat3.
Import ListNotations.
Open Scope Z_scope.

(* ------------------------------------------------------------------ *)
(* the dataset *)

Lemma token_described d i v : view_of (dtext d) v ->
  exists line, to_conll tdozat_columns (Z.of_nat i) v true false = Ok line /\ describes_token d i (nv_token v) line.
Proof.
  intros [VT VD]. unfold to_conll, describes_token. set (t := nv_token v).
  change (has_col tdozat_columns cFEATS) with true. change (has_col tdozat_columns cLEMMA) with true. change (has_col tdozat_columns cUPOS) with true.
  change (has_col tdozat_columns cXPOS) with true. change (has_col tdozat_columns cHEAD) with true. change (has_col tdozat_columns cDEPREL) with true.
  cbn beta iota. unfold head_index. rewrite VD. fold t.
  assert (TAGS : (match tpos t with None => Ok (underscore, underscore, underscore)
      | Some p => do f <- Ok (feats_to_string (feats p)); Ok (shield_none (upos p), shield_none (xpos p), f) end) =
    Ok (or_underscore (upos_of t), or_underscore (xpos_of t), match tpos t with Some p => feats_to_string (feats p) | None => underscore end)).
  { unfold upos_of, xpos_of. destruct (tpos t) as [p|]; cbn [bind]; [|reflexivity]. destruct (upos p), (xpos p); reflexivity. }
  rewrite TAGS. cbn [bind]. clear TAGS.
  set (fs := match tpos t with Some p => feats p | None => [] end).
  assert (P : Permutation (isort str_leb (map entry_str fs)) (map entry_str fs)) by (apply Permutation_sym, isort_perm).
  apply Permutation_map_inv in P. destruct P as (entries & E & P).
  assert (FS : (match tpos t with Some p => feats_to_string (feats p) | None => underscore end) =
    match entries with [] => of_string "_" | _ => join [ch "|"%char] (map (fun kv => fst kv ++ ch "="%char :: snd kv) entries) end).
  { change (map (fun kv => fst kv ++ ch "="%char :: snd kv) entries) with (map entry_str entries).
    unfold fs in *. destruct (tpos t) as [p|].
    - destruct (feats p) as [|kv l] eqn:Ef.
      + apply Permutation_nil in P. subst. reflexivity.
      + destruct entries; [apply Permutation_sym, Permutation_nil in P; discriminate|]. rewrite <- E. reflexivity.
    - apply Permutation_nil in P. subst. reflexivity. }
  rewrite FS.
  assert (SS : StronglySorted (fun a b => str_cmp a b <> Gt) (map (fun kv => fst kv ++ ch "="%char :: snd kv) entries)).
  { change (map (fun kv => fst kv ++ ch "="%char :: snd kv) entries) with (map entry_str entries). rewrite <- E.
    pose proof (isort_sorted str_leb (leb_of_ok _ str_cmp_ok) (map entry_str fs)) as S. clear -S. induction S as [|a l S IH H]; constructor; auto.
    eapply Forall_impl; [|exact H]. intros b Hb. apply str_leb_iff. exact Hb. }
  unfold normalize_index. destruct (Z.eqb_spec (Z.of_nat i) (-1)); [lia|]. cbn [andb].
  assert (T1 : wtext v = text_of (dtext d) t) by (unfold wtext; rewrite VT; reflexivity).
  assert (T2 : wspace_after v = space_after (dtext d) t) by (unfold wspace_after; rewrite VT; reflexivity).
  rewrite T1, T2.
  assert (SH : forall o, shield_none o = or_underscore o) by (intros [x|]; reflexivity). rewrite !SH.
  destruct (thsent t) as [h|] eqn:Eh.
  - eexists. split; [reflexivity|]. eexists _, entries. split; [|split; [apply Permutation_sym; exact P|split; [reflexivity|exact SS]]].
    rewrite ?SH. destruct (space_after (dtext d) t); reflexivity.
  - eexists. split; [reflexivity|]. eexists _, entries. split; [|split; [apply Permutation_sym; exact P|split; [reflexivity|exact SS]]].
    destruct (space_after (dtext d) t); reflexivity.
Qed.

Lemma itersents_ok d : doc_inv d -> exists ls, itersents d = Ok (ls ++ [[]]) /\ Forall2 (lines_of d) (dsents d) ls.
Proof.
  intros I. unfold itersents. destruct (nav_sentences_ok d I) as (ss & E & F). rewrite E. cbn [bind].
  assert (X : exists ls, mapM sentence_lines ss = Ok ls /\ Forall2 (lines_of d) (dsents d) ls).
  { clear E. induction F as [|s v sl ss (vs & V1 & V2 & V3) F IH]; [exists []; split; constructor|].
    assert (L : exists lines, sentence_lines v = Ok lines /\ lines_of d s lines).
    { unfold sentence_lines. rewrite V1. cbn [bind].
      assert (Y : forall l k, Forall (view_of (dtext d)) l -> exists lines, mapM (fun '(index, v) => to_conll tdozat_columns index v true false)
                    (combine (map Z.of_nat (seq k (length l))) l) = Ok lines /\ length lines = length l /\
                  forall i t, nth_error (map nv_token l) i = Some t -> exists line, nth_error lines i = Some line /\ describes_token d (k + i) t line).
      { induction l as [|x l IHl]; intros k V; [exists []; repeat split; intros [|i] t H; discriminate|]. inversion V as [|? ? V4 V5]; subst.
        destruct (token_described d k x V4) as (line & E1 & D1). destruct (IHl (S k) V5) as (lines & E2 & L2 & D2).
        cbn [length seq map combine mapM]. rewrite E1. cbn [bind]. rewrite E2. cbn [bind]. exists (line :: lines). split; auto. split; [cbn; congruence|].
        intros [|i] t H; cbn in H.
        - injection H as <-. exists line. split; auto. rewrite Nat.add_0_r. auto.
        - destruct (D2 i t H) as (l2 & H2 & D3). exists l2. split; auto. replace (k + S i)%nat with (S k + i)%nat by lia. auto. }
      destruct (Y vs 0%nat V3) as (lines & E1 & L1 & D1). exists lines. split.
      - unfold enumerate, zrange, zlen. rewrite Nat2Z.id. exact E1.
      - split; [rewrite <- V2, map_length; auto|]. rewrite <- V2. exact D1. }
    destruct L as (lines & E1 & L1). destruct IH as (ls & E2 & L2). exists (lines :: ls). cbn [mapM]. rewrite E1. cbn [bind]. rewrite E2. cbn [bind]. split; auto. }
  destruct X as (ls & M & Fl). exists ls. rewrite M. cbn [bind]. auto.
Qed.

Lemma lines_not_nil d s lines : doc_inv d -> In s (dsents d) -> lines_of d s lines -> not_nil lines = true.
Proof.
  intros I H (L & _). pose proof (tiles_in _ _ _ _ (inv_tiles _ I) H) as T. assert (Z := tokens_of_length (dtokens d) s ltac:(lia) ltac:(lia)). unfold zlen in Z.
  destruct lines; [cbn in L; lia|reflexivity].
Qed.

Lemma dataset_ok ds : Forall built ds -> exists yielded, Forall2 (fun d y => itersents d = Ok y) ds yielded /\
  length (filter not_nil (concat yielded)) = length (concat (map dsents ds)) /\
  length (concat yielded) = (length (concat (map dsents ds)) + length ds)%nat /\
  forall n k d s, sentence_number ds n k d s -> exists lines,
    nth_error (filter not_nil (concat yielded)) n = Some lines /\ nth_error (concat yielded) (n + k) = Some lines /\ lines_of d s lines.
Proof.
  induction ds as [|d ds IH]; intros B.
  { exists []. split; [constructor|]. split; auto. split; auto. intros n k d s (m & H & _). destruct k; discriminate. }
  inversion B as [|? ? B1 B2]; subst. pose proof (built_inv _ B1) as I. destruct (itersents_ok d I) as (ls & E & F). destruct (IH B2) as (ys & Fy & L1 & L2 & H).
  exists ((ls ++ [[]]) :: ys). pose proof (Forall2_length' _ _ _ F) as L.
  assert (FL : filter not_nil ls = ls).
  { assert (X : Forall (fun l => not_nil l = true) ls).
    { apply Forall_forall. intros l J. apply In_nth_error in J. destruct J as (i & J). destruct (Forall2_nth_r _ _ _ _ _ F J) as (s & Hs & X).
      eapply lines_not_nil; eauto. eapply nth_error_In; eauto. }
    clear -X. induction X as [|l ls H _ IH]; cbn [filter]; [auto|]. rewrite H, IH. auto. }
  cbn [concat map length]. split; [constructor; auto|].
  assert (FC : filter not_nil ((ls ++ [[]]) ++ concat ys) = ls ++ filter not_nil (concat ys)).
  { rewrite <- app_assoc. rewrite filter_app, FL. reflexivity. }
  split; [|split].
  - rewrite FC, !app_length. lia.
  - rewrite !app_length, L2. cbn [length]. lia.
  - intros n k d0 s (m & H1 & H2 & H3). destruct k as [|k].
    + injection H1 as <-. cbn [firstn map concat length Nat.add] in H3. subst n. destruct (Forall2_nth _ _ _ _ _ F H2) as (lines & Hl & X). exists lines.
      assert (m < length ls)%nat by (apply nth_error_Some; congruence).
      split; [rewrite FC, nth_error_app1; auto|]. split; auto. rewrite Nat.add_0_r. rewrite <- app_assoc, nth_error_app1; auto.
    + cbn [firstn map concat] in H3. rewrite app_length in H3. cbn [nth_error] in H1.
      destruct (H (n - length (dsents d))%nat k d0 s) as (lines & X1 & X2 & X3). { exists m. split; auto. split; auto. lia. }
      exists lines. split; [|split; auto].
      * rewrite FC, nth_error_app2 by lia. rewrite <- L. auto.
      * rewrite nth_error_app2 by (rewrite app_length; cbn [length]; lia). rewrite app_length. cbn [length].
        replace (n + S k - (length ls + 1))%nat with (n - length (dsents d) + k)%nat by lia. auto.
Qed.

(* ------------------------------------------------------------------ *)
(* process *)

Lemma every_from_token ds P : every_from ds 0 P <-> every_token ds P.
Proof.
  split.
  - intros H n k d s j (m & H1 & H2 & ->) Hj. apply (H k d H1 m s j); auto.
  - intros H k d H1 m s j H2 Hj. apply (H _ k d s j); auto. exists m. auto.
Qed.

Theorem predictions_aligned argsort net extra st ds yielded bs total :
  sorting argsort -> current st <> None -> predictions st = empty_store -> Forall built ds ->
  Forall2 (fun d y => itersents d = Ok y) ds yielded -> net yielded = (bs, None) ->
  regular bs -> numbers bs total -> (length (concat (map dsents ds)) <= total)%nat -> every_token ds (answered bs extra) ->
  (every_token ds (readable bs) /\ exists ds', process_documents argsort net extra st (ds, None) = (st, Ok ds') /\ length ds' = length ds /\
     forall n k d s, sentence_number ds n k d s -> exists d', nth_error ds' k = Some d' /\ built d' /\ dtext d' = dtext d /\ dsents d' = dsents d /\
       length (dtokens d') = length (dtokens d) /\
       forall i t0, nth_error (tokens_of (dtokens d) s) i = Some t0 ->
         exists t, nth_error (tokens_of (dtokens d') s) i = Some t /\ predicted bs extra n (S i) (sstart s) t0 t) \/
  (~ every_token ds (readable bs) /\ exists e p', (e = EIndex \/ e = EValue) /\ indices p' = concat (map fst bs) /\
     process_documents argsort net extra st (ds, None) = (mkState (current st) (open st) (created st) p', Err e)).
Proof.
  intros S C P B Y N R NU T A. unfold process_documents. destruct (current st) as [c|] eqn:Ec; [|congruence].
  unfold parse_documents. rewrite (proj2 (mapM_ok itersents ds yielded) Y). rewrite N. rewrite P.
  apply every_from_token in A.
  destruct (parse_loop_spec bs extra argsort total R NU S ds 0%nat B T A) as [(Rd & ds' & E & L & G)|(Rd & e & E & X)];
    change (Z.of_nat 0) with 0 in E; rewrite E.
  - left. split; [apply every_from_token; auto|]. exists ds'. split; [|split; auto].
    + f_equal. destruct st as [c0 o cr p0]. cbn in *. subst. reflexivity.
    + intros n k d s (m & H1 & H2 & ->). destruct (G k d H1) as (d' & H3 & B' & T' & S' & L' & G'). exists d'. do 5 (split; [solve [auto]|]).
      intros i t0 Ht. apply (G' m s i t0 H2 Ht).
  - right. split; [intros Y'; apply Rd, every_from_token; auto|]. eexists e, _. split; [exact X|]. split; [|reflexivity]. rewrite indices_fold. reflexivity.
Qed.

(* ------------------------------------------------------------------ *)
(* sessions *)

Lemma process_keeps argsort net extra st docs : 
  let st' := fst (process_documents argsort net extra st docs) in current st' = current st /\ open st' = open st /\ created st' = created st.
Proof.
  unfold process_documents. destruct (current st) eqn:E; cbn [fst]; auto. destruct docs as [ds [e|]]; cbn [fst]; auto.
  destruct (parse_documents argsort net extra (predictions st) ds). cbn. auto.
Qed.

Lemma calls_keep argsort net extra calls : forall st,
  let st' := fold_left (fun s docs => fst (process_documents argsort net extra s docs)) calls st in
  current st' = current st /\ open st' = open st /\ created st' = created st.
Proof.
  induction calls as [|c calls IH]; intros st; cbn [fold_left]; auto. destruct (IH (fst (process_documents argsort net extra st c))) as (A1 & A2 & A3).
  destruct (process_keeps argsort net extra st c) as (B1 & B2 & B3). cbn zeta in *. repeat split; congruence.
Qed.

Theorem with_block argsort net extra st calls : sessions_ok st ->
  let st1 := fst (enter_session None None st) in
  let st2 := fold_left (fun s docs => fst (process_documents argsort net extra s docs)) calls st1 in
  current st1 = Some (created st) /\ ~ In (created st) (open st) /\
  exit_session st2 = (mkState None (open st) (S (created st)) (predictions st2), None) /\
  sessions_ok (fst (exit_session st2)).
Proof.
  intros W st1 st2. assert (NI : ~ In (created st) (open st)) by (intros H; apply W in H; lia).
  destruct (calls_keep argsort net extra calls st1) as (A1 & A2 & A3). fold st2 in A1, A2, A3. cbn [enter_session st1 fst current open created] in A1, A2, A3.
  split; [reflexivity|]. split; auto.
  assert (X : exit_session st2 = (mkState None (open st) (S (created st)) (predictions st2), None)).
  { unfold exit_session. rewrite A1, A2, A3. cbn [filter]. rewrite Nat.eqb_refl. cbn [negb]. f_equal. f_equal.
    clear -NI. induction (open st) as [|k l IH]; [reflexivity|]. cbn [filter]. destruct (Nat.eqb_spec k (created st)) as [->|]; [destruct NI; left; auto|].
    cbn [negb]. f_equal. apply IH. intros H. apply NI. right. auto. }
  split; auto. rewrite X. intros k H. cbn in *. apply W in H. lia.
Qed.

(* ------------------------------------------------------------------ *)
(* extra fields *)

Lemma find_output_ok path : forall o x, find_output o path = Ok x <-> leads o path x.
Proof.
  induction path as [|key path IH]; intros o x; cbn [find_output].
  - split; [intros [= <-]; constructor|]. intros H. inversion H; auto.
  - destruct o as [n|d]; [split; [discriminate|intros H; inversion H]|].
    destruct (dict_get d key) as [o'|] eqn:E.
    + rewrite IH. split; [intros H; econstructor; eauto|]. intros H. inversion H; subst. congruence.
    + split; [discriminate|]. intros H. inversion H; subst. congruence.
Qed.
Lemma find_output_err path : forall o e, find_output o path = Err e -> e = EValue.
Proof.
  induction path as [|key path IH]; intros o e; cbn [find_output]; [discriminate|]. destruct o; [congruence|]. destruct (dict_get d key); [apply IH|congruence].
Qed.

Lemma find_outputs_gen o fields : forall acc,
  let r := foldM (fun acc kv => do x <- find_output o (snd kv); Ok (dict_set acc (fst kv) x)) acc fields in
  NoDup (map fst fields) ->
  (exists d, r = Ok d /\ (forall k, ~ In k (map fst fields) -> dict_get d k = dict_get acc k) /\
     (forall k path, In (k, path) fields -> exists x, leads o path x /\ dict_get d k = Some x)) \/
  (r = Err EValue /\ exists k path, In (k, path) fields /\ ~ exists x, leads o path x).
Proof.
  induction fields as [|[k path] fields IH]; intros acc r N; cbn [foldM] in r.
  - left. exists acc. split; [reflexivity|]. split; auto. intros ? ? [].
  - cbn [fst snd] in r. cbn [map fst] in N. inversion N as [|? ? N1 N2]; subst. destruct (find_output o path) as [x|e] eqn:E; cbn [bind] in r.
    + destruct (IH (dict_set acc k x) N2) as [(d & Ed & D1 & D2)|(Ee & k' & path' & I & X)].
      * left. exists d. split; [exact Ed|]. split.
        -- intros k' H. cbn [map fst In] in H. rewrite D1 by tauto. apply dict_get_set_other. intros ->. tauto.
        -- intros k' path' [H|H]; [|apply D2; auto]. injection H as <- <-. exists x. split; [apply find_output_ok; auto|]. rewrite D1 by auto. apply dict_get_set_same.
      * right. split; [exact Ee|]. exists k', path'. split; [right; auto|auto].
    + right. pose proof (find_output_err _ _ _ E) as ->. split; [reflexivity|]. exists k, path. split; [left; auto|]. intros (x & X). apply find_output_ok in X. congruence.
Qed.

Theorem find_outputs_spec o fields : NoDup (map fst fields) ->
  (exists d, find_outputs o fields = Ok d /\
     (forall k x, dict_get d k = Some x <-> exists path, In (k, path) fields /\ leads o path x)) \/
  (find_outputs o fields = Err EValue /\ exists k path, In (k, path) fields /\ ~ exists x, leads o path x).
Proof.
  intros N. destruct (find_outputs_gen o fields [] N) as [(d & E & D1 & D2)|H]; [left|right; exact H]. exists d. split; [exact E|]. intros k x. split.
  - intros H. destruct (in_dec (list_eq_dec N.eq_dec) k (map fst fields)) as [I|I].
    + apply in_map_iff in I. destruct I as ([k' path] & <- & I). destruct (D2 _ _ I) as (y & L & G). cbn [fst] in *. exists path. split; auto. congruence.
    + rewrite (D1 k I) in H. discriminate.
  - intros (path & I & L). destruct (D2 _ _ I) as (y & L' & G). rewrite G. f_equal. apply find_output_ok in L. apply find_output_ok in L'. congruence.
Qed.

Theorem flag_fields recur upos_hidden xpos_hidden e k : (match e with Some e => NoDup (map fst e) | None => True end) ->
  let asked := match e with Some e => dict_get e k | None => None end in
  dict_get (parser_fields recur e) k = (match asked with
    | Some path => Some path
    | None => if recur && str_eqb k (of_string "parser_recur_layer") then Some [of_string "deptree"; of_string "recur_layer"] else None end) /\
  dict_get (tagger_fields recur upos_hidden xpos_hidden e) k = (match asked with
    | Some path => Some path
    | None => if recur && str_eqb k (of_string "tagger_recur_layer") then Some [of_string "upos"; of_string "recur_layer"]
              else if upos_hidden && str_eqb k (of_string "upos_hidden") then Some [of_string "upos"; of_string "hidden_layer"]
              else if xpos_hidden && str_eqb k (of_string "xpos_hidden") then Some [of_string "xpos"; of_string "hidden_layer"]
              else None end).
Proof.
  intros W asked. unfold parser_fields, tagger_fields, asked. destruct e as [e|].
  - rewrite !dict_get_update by exact W. destruct (dict_get e k); auto. destruct recur, upos_hidden, xpos_hidden; cbn [andb app dict_get map]; auto.
  - destruct recur, upos_hidden, xpos_hidden; cbn [andb app dict_get map]; auto.
Qed.

Theorem calls_keep_state argsort net extra st documents :
  let '(st', r) := process_documents argsort net extra st documents in
  current st' = current st /\ open st' = open st /\ created st' = created st /\
  (forall ds, r = Ok ds -> predictions st' = empty_store) /\
  (predictions st = empty_store -> forall ds, r = Ok ds -> st' = st) /\
  (forall ds e, documents = (ds, Some e) -> st' = st /\ exists e', r = Err e' /\ (current st <> None -> e' = e)).
Proof.
  unfold process_documents. destruct (current st) as [c|] eqn:C.
  2:{ rewrite C. do 3 (split; [reflexivity|]). split; [discriminate|]. split; [discriminate|]. intros ds e E. split; auto. exists EAttr. split; auto. congruence. }
  destruct documents as [ds [e|]].
  { rewrite C. do 3 (split; [reflexivity|]). split; [discriminate|]. split; [discriminate|]. intros ds' e' E. injection E as _ <-. split; auto. exists e. auto. }
  unfold parse_documents. destruct (mapM itersents ds) as [ys|e]; [destruct (net ys) as [bs [e|]]; [|destruct (parse_loop _ _ _ _ _)]|];
    cbn [current open created predictions]; rewrite <- ?C; do 3 (split; [reflexivity|]); (split; [first [discriminate|reflexivity]|]); (split; [|discriminate]); try discriminate.
  intros E ds' _. destruct st. cbn in *. subst. reflexivity.
Qed.

(* ------------------------------------------------------------------ *)
(* the order matters only for the numbers that are there *)

Lemma parse_documents_order a1 a2 net extra p ds : 
  (forall ys bs, mapM itersents ds = Ok ys -> net ys = (bs, None) -> a1 (indices (fold_left cache bs p)) = a2 (indices (fold_left cache bs p))) ->
  parse_documents a1 net extra p ds = parse_documents a2 net extra p ds.
Proof.
  intros H. unfold parse_documents. destruct (mapM itersents ds) as [ys|e]; auto. destruct (net ys) as [bs [e|]] eqn:E; auto. rewrite (H ys bs); auto.
Qed.

Lemma process_order a1 a2 net extra st ds : 
  (forall ys bs, mapM itersents ds = Ok ys -> net ys = (bs, None) ->
     a1 (indices (fold_left cache bs (predictions st))) = a2 (indices (fold_left cache bs (predictions st)))) ->
  process_documents a1 net extra st (ds, None) = process_documents a2 net extra st (ds, None).
Proof. intros H. unfold process_documents. rewrite (parse_documents_order a1 a2) by exact H. reflexivity. Qed.

(* the positions of a list with two numbers twice *)
Lemma sorted_pair argsort : sorting argsort -> argsort [0; 1] = [0; 1]%nat.
Proof.
  intros S. destruct (S [0; 1]) as [P O]. cbn [length seq] in P.
  destruct (argsort [0; 1]) as [|a [|b [|c l]]]; try (apply Permutation_length in P; discriminate).
  assert (Ia : In a [0; 1]%nat) by (eapply Permutation_in; [exact P|left; auto]).
  assert (Ib : In b [0; 1]%nat) by (eapply Permutation_in; [exact P|right; left; auto]).
  assert (N : NoDup [a; b]) by (eapply Permutation_NoDup; [symmetry; exact P|repeat constructor; cbn; intuition discriminate]).
  inversion O as [|? ? _ F]; subst. inversion F as [|? ? L _]; subst.
  inversion N as [|? ? N1 _]; subst. cbn in Ia, Ib, N1.
  destruct Ia as [<-|[<-|[]]]; destruct Ib as [<-|[<-|[]]]; auto; cbn in L; try lia; tauto.
Qed.

Lemma sorted_twice argsort : sorting argsort ->
  In (argsort [0; 1; 0; 1]) [[0; 2; 1; 3]; [0; 2; 3; 1]; [2; 0; 1; 3]; [2; 0; 3; 1]]%nat.
Proof.
  intros S. destruct (S [0; 1; 0; 1]) as [P O]. cbn [length seq] in P.
  destruct (argsort [0; 1; 0; 1]) as [|a [|b [|c [|d [|e l]]]]]; try (apply Permutation_length in P; discriminate).
  assert (Ia : In a [0; 1; 2; 3]%nat) by (eapply Permutation_in; [exact P|left; auto]).
  assert (Ib : In b [0; 1; 2; 3]%nat) by (eapply Permutation_in; [exact P|right; left; auto]).
  assert (Ic : In c [0; 1; 2; 3]%nat) by (eapply Permutation_in; [exact P|right; right; left; auto]).
  assert (Id : In d [0; 1; 2; 3]%nat) by (eapply Permutation_in; [exact P|right; right; right; left; auto]).
  assert (N : NoDup [a; b; c; d]) by (eapply Permutation_NoDup; [symmetry; exact P|repeat constructor; cbn; intuition discriminate]).
  inversion O as [|? ? O1 F1]; subst. inversion F1 as [|? ? Lab F2]; subst. inversion O1 as [|? ? O2 F3]; subst. inversion F3 as [|? ? Lbc _]; subst.
  inversion O2 as [|? ? _ F4]; subst. inversion F4 as [|? ? Lcd _]; subst.
  inversion N as [|? ? N1 N']; subst. inversion N' as [|? ? N2 N'']; subst. inversion N'' as [|? ? N3 _]; subst. cbn [In] in N1, N2, N3. clear P O F1 F2 F3 F4 O1 O2 N N' N'' S.
  cbn [In] in Ia, Ib, Ic, Id.
  destruct Ia as [<-|[<-|[<-|[<-|[]]]]]; destruct Ib as [<-|[<-|[<-|[<-|[]]]]]; try (exfalso; tauto); cbn in Lab; try lia;
  destruct Ic as [<-|[<-|[<-|[<-|[]]]]]; try (exfalso; tauto); cbn in Lbc; try lia; destruct Id as [<-|[<-|[<-|[<-|[]]]]]; try (exfalso; tauto); cbn in Lcd; try lia; cbn; tauto.
Qed.
