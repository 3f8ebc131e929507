(* The CoNLL-U reader: what it does, sentence by sentence, independently of the limit. *)
From Coq Require Import String ZArith NArith Bool Lia Permutation List.
From Verif Require Import Base BaseFacts Model_Datamodel Model_Conllu Spec_Datamodel Spec_Conllu
  Proofs_Datamodel Proofs_Syntax Proofs_Datamodel2 Proofs_Datamodel4.
Import ListNotations.
Open Scope Z_scope.

(* ------------------------------------------------------------------ *)
(* Lines as events                                                      *)

Inductive ev := EvBlank | EvRow (r : irow) | EvErr (e : exn).

Definition line_event (cols : columns) (raw : str) : option ev :=
  let line := strip_crlf raw in
  if startswith line (of_string "#") then None
  else match line with
       | [] => Some EvBlank
       | _ :: _ => Some (match parse_line cols (split chTAB line) with
                         | Ok r => EvRow r
                         | Err e => EvErr e
                         end)
       end.

Fixpoint events (cols : columns) (lines : list str) : list ev :=
  match lines with
  | [] => []
  | l :: ls => match line_event cols l with
               | None => events cols ls
               | Some e => e :: events cols ls
               end
  end.

(* ------------------------------------------------------------------ *)
(* Sentence blocks                                                      *)

Inductive tail := TErr (e : exn) | TEnd (lf : list (group irow)).

Definition opened := option (irow * list irow * Z).

Definition row_step (cur : list (group irow)) (op : opened) (r : irow) : result (list (group irow) * opened) :=
  match op with
  | None =>
      match i_id r with
      | None => Err EType
      | Some i =>
          if mem_char 46%N i then Ok (cur, None)
          else if mem_char 45%N i then do n <- range_count i; Ok (cur, Some (r, [], n))
          else match i_text r with [] => Err EAssert | _ => Ok (cur ++ [GWord r], None) end
      end
  | Some (g, ws, n) =>
      match i_text g with
      | [] => Err EAssert
      | _ => let ws' := ws ++ [r] in
             if n =? zlen ws' then Ok (cur ++ [GRange g ws'], None) else Ok (cur, Some (g, ws', n))
      end
  end.

Fixpoint parse (cur : list (group irow)) (op : opened) (evs : list ev) : list (list (group irow)) * tail :=
  match evs with
  | [] => ([], match op with Some _ => TErr ENotImpl | None => TEnd cur end)
  | EvErr e :: _ => ([], TErr e)
  | EvRow r :: evs' =>
      match row_step cur op r with
      | Err e => ([], TErr e)
      | Ok (cur', op') => parse cur' op' evs'
      end
  | EvBlank :: evs' =>
      match op with
      | Some _ => ([], TErr ERuntime)
      | None => match cur with
                | [] => ([], TErr EAssert)
                | _ => let (bs, t) := parse [] None evs' in (cur :: bs, t)
                end
      end
  end.

(* ------------------------------------------------------------------ *)
(* Documents from blocks                                                *)

Definition row_token (start fin sub : Z) (repl : option str) (r : irow) : token :=
  mkToken start fin (i_pos r) (i_lemma r) (i_deprel r) sub repl None (compute_head (i_head r)) [].

Fixpoint range_tokens (start fin sub : Z) (ws : list irow) : list token :=
  match ws with
  | [] => []
  | w :: ws' => row_token start fin sub (Some (i_text w)) w :: range_tokens start fin (sub + 1) ws'
  end.

Definition group_tokens (off : Z) (g : group irow) : list token :=
  match g with
  | GWord r => [row_token off (off + zlen (i_text r)) 0 None r]
  | GRange r ws => range_tokens off (off + zlen (i_text r)) 0 ws
  end.

Definition group_text (g : group irow) : str :=
  i_text (surface_row g) ++ (if i_space (surface_row g) then [chSP] else []).

Fixpoint layout (off : Z) (gs : list (group irow)) : list token :=
  match gs with
  | [] => []
  | g :: gs' => group_tokens off g ++ layout (off + zlen (group_text g)) gs'
  end.

Definition surface (gs : list (group irow)) : str := concat (map group_text gs).

Definition count (gs : list (group irow)) : Z := zlen (layout 0 gs).

Fixpoint bounds (a : Z) (acc : list (list (group irow))) : list sentence :=
  match acc with
  | [] => []
  | b :: acc' => mkSent a (a + count b) :: bounds (a + count b) acc'
  end.

Definition doc_of (acc : list (list (group irow))) (lf : list (group irow)) : result document :=
  new_document (surface (concat acc ++ lf)) (layout 0 (concat acc ++ lf)) (Some (bounds 0 acc)) true.

Fixpoint assemble (limit : Z) (acc bs : list (list (group irow))) (t : tail) : gen document :=
  match bs with
  | [] =>
      match t with
      | TErr e => ([], Some e)
      | TEnd lf =>
          match acc, lf with
          | [], [] => ([], None)
          | _, _ => match doc_of acc lf with Err e => ([], Some e) | Ok d => ([d], None) end
          end
      end
  | b :: bs' =>
      let acc' := acc ++ [b] in
      if limit <=? zlen acc' then
        match doc_of acc' [] with
        | Err e => ([], Some e)
        | Ok d => let (ds, e) := assemble limit [] bs' t in (d :: ds, e)
        end
      else assemble limit acc' bs' t
  end.

(* a usable group: non-empty surface form, at least one word *)
Definition group_ok (g : group irow) : Prop :=
  i_text (surface_row g) <> [] /\ match g with GWord _ => True | GRange _ ws => ws <> [] end.

Lemma range_tokens_length a b sub ws : length (range_tokens a b sub ws) = length ws.
Proof. revert sub; induction ws; intros; simpl; auto. Qed.

Lemma range_tokens_app a b sub ws ws' :
  range_tokens a b sub (ws ++ ws') = range_tokens a b sub ws ++ range_tokens a b (sub + zlen ws) ws'.
Proof.
  revert sub; induction ws as [|w ws IH]; intros sub; simpl.
  - unfold zlen; simpl. rewrite Z.add_0_r. auto.
  - rewrite IH. rewrite zlen_cons. do 3 f_equal. lia.
Qed.

Lemma surface_app gs gs' : surface (gs ++ gs') = surface gs ++ surface gs'.
Proof. unfold surface. rewrite map_app, concat_app. auto. Qed.

Lemma layout_app off gs gs' : layout off (gs ++ gs') = layout off gs ++ layout (off + zlen (surface gs)) gs'.
Proof.
  revert off; induction gs as [|g gs IH]; intros off; simpl.
  - unfold surface; simpl. unfold zlen; simpl. rewrite Z.add_0_r; auto.
  - rewrite IH, <- app_assoc. unfold surface; simpl. rewrite zlen_app. do 3 f_equal. lia.
Qed.

Lemma group_tokens_length off off' g : length (group_tokens off g) = length (group_tokens off' g).
Proof. destruct g; simpl; auto. rewrite !range_tokens_length; auto. Qed.

Lemma layout_length off off' gs : length (layout off gs) = length (layout off' gs).
Proof.
  revert off off'; induction gs as [|g gs IH]; intros; simpl; auto.
  rewrite !app_length, (group_tokens_length off off' g), (IH _ (off' + zlen (group_text g))). auto.
Qed.

Lemma count_layout off gs : zlen (layout off gs) = count gs.
Proof. unfold count, zlen. rewrite (layout_length off 0). auto. Qed.

Lemma count_app gs gs' : count (gs ++ gs') = count gs + count gs'.
Proof. unfold count at 1. rewrite layout_app, zlen_app, !count_layout. auto. Qed.

Lemma count_nonneg gs : 0 <= count gs.
Proof. apply zlen_nonneg. Qed.

Lemma count_pos gs : Forall group_ok gs -> gs <> [] -> 0 < count gs.
Proof.
  intros F N. destruct gs as [|g gs]; [congruence|]. inversion F as [|? ? [_ G] _]; subst.
  unfold count. simpl. rewrite zlen_app. pose proof (zlen_nonneg (layout (zlen (group_text g)) gs)).
  assert (0 < zlen (group_tokens 0 g)); [|lia].
  destruct g as [r|r ws]; simpl; [unfold zlen; simpl; lia|].
  unfold zlen. rewrite range_tokens_length. destruct ws; [congruence|simpl; lia].
Qed.

Lemma bounds_app a acc acc' : bounds a (acc ++ acc') = bounds a acc ++ bounds (a + count (concat acc)) acc'.
Proof.
  revert a; induction acc as [|b acc IH]; intros a; simpl.
  - unfold count; simpl. unfold zlen; simpl. rewrite Z.add_0_r; auto.
  - rewrite IH, count_app. do 3 f_equal. lia.
Qed.

Lemma bounds_length a acc : length (bounds a acc) = length acc.
Proof. revert a; induction acc; intros; simpl; auto. Qed.

Lemma bounds_last a acc : acc <> [] -> exists s, py_index (bounds a acc) (-1) = Ok s /\ send s = a + count (concat acc).
Proof.
  intros N. assert (B : bounds a acc <> []) by (destruct acc; [congruence|simpl; congruence]).
  rewrite (py_index_last _ (mkSent 0 0)) by auto. eexists. split; [reflexivity|]. clear B.
  revert a; induction acc as [|b acc IH]; intros a; [congruence|].
  destruct acc as [|b' acc].
  - simpl. rewrite app_nil_r. auto.
  - change (bounds a (b :: b' :: acc)) with (mkSent a (a + count b) :: bounds (a + count b) (b' :: acc)).
    change (concat (b :: b' :: acc)) with (b ++ concat (b' :: acc)). rewrite count_app.
    assert (X : bounds (a + count b) (b' :: acc) <> []) by (simpl; congruence).
    destruct (bounds (a + count b) (b' :: acc)) as [|s l] eqn:E; [congruence|].
    change (last (mkSent a (a + count b) :: s :: l) (mkSent 0 0)) with (last (s :: l) (mkSent 0 0)).
    rewrite <- E. rewrite IH by congruence. lia.
Qed.

(* ------------------------------------------------------------------ *)
(* The reader state and the blocks                                      *)

Definition open_text (op : opened) : str :=
  match op with Some (g, _, _) => group_text (GRange g []) | None => [] end.
Definition open_tokens (off : Z) (op : opened) : list token :=
  match op with Some (g, ws, _) => range_tokens off (off + zlen (i_text g)) 0 ws | None => [] end.
Definition open_mw (off : Z) (op : opened) : option mwstate :=
  match op with
  | Some (g, ws, n) => Some (mkMW n (zlen ws) off (off + zlen (i_text g)))
  | None => None
  end.

Definition state_of (acc : list (list (group irow))) (cur : list (group irow)) (op : opened) : rstate :=
  let gs := concat acc ++ cur in
  let off := zlen (surface gs) in
  mkRState (surface gs ++ open_text op) (layout 0 gs ++ open_tokens off op) (bounds 0 acc) (open_mw off op).

Lemma mem_char_spec c s : mem_char c s = true <-> In c s.
Proof.
  unfold mem_char. rewrite existsb_exists. split.
  - intros (x & H & E). apply N.eqb_eq in E. subst; auto.
  - intros H. exists c. rewrite N.eqb_refl. auto.
Qed.

Lemma layout_snoc gs g : layout 0 (gs ++ [g]) = layout 0 gs ++ group_tokens (zlen (surface gs)) g.
Proof. rewrite layout_app. simpl. rewrite app_nil_r. auto. Qed.

Lemma new_token_row start fin sub repl r : 0 <= start -> (repl = None -> sub = 0) ->
  new_token start fin (i_pos r) (i_lemma r) (i_deprel r) sub repl None (compute_head (i_head r)) None =
  if start <? fin then Ok (row_token start fin sub repl r) else Err EAssert.
Proof.
  intros H1 H2. unfold new_token, row_token. assert (E : (0 <=? start) = true) by lia. rewrite E. simpl.
  destruct (start <? fin); simpl; auto. destruct repl; simpl; auto. rewrite H2 by auto. auto.
Qed.

Lemma process_row_step acc cur op r :
  process_row (state_of acc cur op) r =
  rmap (fun p => state_of acc (fst p) (snd p)) (row_step cur op r).
Proof.
  unfold process_row, row_step. destruct op as [[[g ws] n]|].
  - unfold state_of at 1. simpl r_mw.
    unfold open_mw. cbn [mw_count mw_added mw_start mw_end].
    rewrite new_token_row by (try discriminate; apply zlen_nonneg).
    set (off := zlen (surface (concat acc ++ cur))).
    destruct (i_text g) as [|c s] eqn:Eg.
    + change (zlen []) with 0. rewrite Z.add_0_r, Z.ltb_irrefl. reflexivity.
    + assert (L : (off <? off + zlen (c :: s)) = true).
      { rewrite zlen_cons. pose proof (zlen_nonneg s). lia. }
      rewrite L. cbn [bind].
      replace (zlen ws + 1) with (zlen (ws ++ [r])) by (rewrite zlen_app; reflexivity).
      assert (T : layout 0 (concat acc ++ cur) ++ range_tokens off (off + zlen (c :: s)) 0 ws
                  ++ [row_token off (off + zlen (c :: s)) (zlen ws) (Some (i_text r)) r]
                  = layout 0 (concat acc ++ cur) ++ range_tokens off (off + zlen (c :: s)) 0 (ws ++ [r])).
      { rewrite range_tokens_app. simpl. auto. }
      subst off. set (gs := concat acc ++ cur) in *.
      destruct (n =? zlen (ws ++ [r])) eqn:En; cbn [rmap bind fst snd]; unfold state_of; cbn [r_text r_tokens r_sents open_text open_tokens open_mw];
        rewrite ?app_assoc; fold gs; rewrite Eg.
      * rewrite layout_snoc, (surface_app gs). cbn [group_tokens]. rewrite Eg, <- T, !app_nil_r, <- !app_assoc.
        unfold surface at 7. simpl. rewrite app_nil_r. reflexivity.
      * rewrite <- T, <- !app_assoc. reflexivity.
  - unfold state_of at 1. simpl. destruct (i_id r) as [i|]; auto.
    destruct (mem_char 46%N i); simpl; auto.
    rewrite !app_nil_r. set (gs := concat acc ++ cur).
    assert (P : 0 <= zlen (surface gs)) by apply zlen_nonneg.
    assert (E2 : (if i_space r then (surface gs ++ i_text r) ++ [chSP] else surface gs ++ i_text r)
                 = surface gs ++ group_text (GWord r)).
    { unfold group_text; simpl. destruct (i_space r); rewrite ?app_nil_r, <- ?app_assoc; auto. }
    rewrite E2, zlen_app.
    destruct (mem_char 45%N i).
    + destruct (range_count i) as [n|e]; simpl; auto.
      unfold state_of. simpl. fold gs. rewrite app_nil_r. reflexivity.
    + rewrite new_token_row by auto.
      destruct (i_text r) as [|c s] eqn:Er.
      * change (zlen []) with 0. rewrite Z.add_0_r, Z.ltb_irrefl. reflexivity.
      * assert (L : (zlen (surface gs) <? zlen (surface gs) + zlen (c :: s)) = true).
        { rewrite zlen_cons. pose proof (zlen_nonneg s). lia. }
        rewrite L. cbn [bind rmap fst snd]. unfold state_of. cbn [open_text open_tokens open_mw]. rewrite !app_nil_r.
        rewrite (app_assoc (concat acc)). fold gs.
        rewrite layout_snoc, (surface_app gs). cbn [group_tokens]. rewrite Er. unfold surface at 5. simpl. rewrite app_nil_r. reflexivity.
Qed.

Lemma end_of_sentence_state acc cur op :
  Forall group_ok cur ->
  end_of_sentence (state_of acc cur op) =
  match op with
  | Some _ => Err ERuntime
  | None => match cur with [] => Err EAssert | _ => Ok (state_of (acc ++ [cur]) [] None) end
  end.
Proof.
  intros G. unfold end_of_sentence. destruct op as [[[g ws] n]|]; auto.
  unfold state_of at 1. cbn [r_mw open_mw].
  assert (ES : (match r_sents (state_of acc cur None) with
                | [] => Ok 0
                | _ => do s <- py_index (r_sents (state_of acc cur None)) (-1); Ok (send s)
                end) = Ok (count (concat acc))).
  { simpl. destruct acc as [|b acc]; [reflexivity|].
    destruct (bounds_last 0 (b :: acc)) as (s & E & Es); [congruence|].
    rewrite E. cbn [bind]. rewrite Es. simpl. reflexivity. }
  rewrite ES. cbn [bind].
  unfold state_of at 1. cbn [r_tokens open_tokens]. rewrite app_nil_r.
  change (zlen (layout 0 (concat acc ++ cur))) with (count (concat acc ++ cur)). rewrite count_app.
  unfold new_sentence. pose proof (count_nonneg (concat acc)).
  assert (E0 : (0 <=? count (concat acc)) = true) by lia. rewrite E0. cbn [assert bind].
  destruct cur as [|g cur].
  - change (count []) with 0. rewrite Z.add_0_r, Z.ltb_irrefl. auto.
  - pose proof (count_pos (g :: cur) G ltac:(congruence)).
    assert (E1 : (count (concat acc) <? count (concat acc) + count (g :: cur)) = true) by lia. rewrite E1.
    cbn [assert bind]. unfold state_of. cbn [r_text r_tokens r_sents open_text open_tokens open_mw].
    rewrite !app_nil_r. rewrite concat_app. simpl concat. rewrite !app_nil_r. rewrite bounds_app. simpl. reflexivity.
Qed.

Lemma state_document_state acc cur :
  state_document (state_of acc cur None) = doc_of acc cur.
Proof. unfold state_document, state_of, doc_of. simpl. rewrite !app_nil_r. auto. Qed.

Lemma state_is_empty_state acc cur :
  Forall (fun b => b <> []) acc -> Forall group_ok (concat acc ++ cur) ->
  state_is_empty (state_of acc cur None) = Ok (match acc, cur with [], [] => true | _, _ => false end).
Proof.
  intros NE G. unfold state_is_empty, state_of. simpl. rewrite !app_nil_r. f_equal.
  destruct acc as [|b acc].
  - simpl. destruct cur as [|g cur]; auto.
    pose proof (count_pos (g :: cur)) as C. simpl in G. specialize (C G ltac:(congruence)). unfold count in C.
    apply andb_false_iff. right. lia.
  - inversion NE; subst. pose proof (count_pos (concat (b :: acc) ++ cur) G) as C.
    apply andb_false_iff. right. unfold count in C.
    assert (X : concat (b :: acc) ++ cur <> []) by (destruct b; simpl; congruence). specialize (C X). lia.
Qed.

Lemma row_step_ok cur op r cur' op' : row_step cur op r = Ok (cur', op') ->
  Forall group_ok cur -> Forall group_ok cur'.
Proof.
  unfold row_step. destruct op as [[[g ws] n]|].
  - destruct (i_text g) as [|c s] eqn:E; [discriminate|].
    destruct (n =? zlen (ws ++ [r])); intros H F; inversion H; subst; auto.
    apply Forall_app; split; auto. repeat constructor; simpl; [congruence|]. destruct ws; simpl; congruence.
  - destruct (i_id r) as [i|]; [|discriminate]. destruct (mem_char 46%N i); [intros H F; inversion H; subst; auto|].
    destruct (mem_char 45%N i).
    + destruct (range_count i); [|discriminate]. intros H F; inversion H; subst; auto.
    + destruct (i_text r) eqn:E; [discriminate|]. intros H F; inversion H; subst.
      apply Forall_app; split; auto. repeat constructor; simpl; congruence.
Qed.

Lemma read_loop_blocks cols limit lines : forall acc cur op,
  Forall (fun b => b <> []) acc -> Forall group_ok (concat acc) -> Forall group_ok cur -> zlen acc < limit ->
  0 < limit ->
  read_loop cols limit (state_of acc cur op) lines =
  (let (bs, t) := parse cur op (events cols lines) in assemble limit acc bs t).
Proof.
  induction lines as [|raw rest IH]; intros acc cur op NE GA GC LT LP.
  - simpl. destruct op as [[[g ws] n]|]; [reflexivity|].
    rewrite state_is_empty_state; auto; [|apply Forall_app; auto].
    rewrite state_document_state. destruct acc, cur; reflexivity.
  - cbn [read_loop events]. unfold line_event.
    destruct (startswith (strip_crlf raw) (of_string "#")); [apply IH; auto|].
    destruct (strip_crlf raw) as [|c line] eqn:EL.
    + rewrite end_of_sentence_state by auto. cbn [parse].
      destruct op as [o|]; [reflexivity|].
      destruct cur as [|g cur]; [reflexivity|].
      assert (EZ : zlen (r_sents (state_of (acc ++ [g :: cur]) [] None)) = zlen (acc ++ [g :: cur])).
      { unfold zlen. simpl. rewrite bounds_length. auto. }
      rewrite EZ.
      assert (NE' : Forall (fun b => b <> []) (acc ++ [g :: cur])).
      { apply Forall_app; split; auto. repeat constructor. congruence. }
      assert (GA' : Forall group_ok (concat (acc ++ [g :: cur]))).
      { rewrite concat_app. apply Forall_app; split; auto. simpl. rewrite app_nil_r. auto. }
      destruct (limit <=? zlen (acc ++ [g :: cur])) eqn:El.
      * rewrite state_document_state.
        pose proof (IH [] [] None) as IH'.
        change (state_of [] [] None) with initial_state in IH'.
        specialize (IH' (Forall_nil _) (Forall_nil _) (Forall_nil _)).
        rewrite IH' by (auto; change (zlen []) with 0; lia).
        destruct (parse [] None (events cols rest)) as [bs t]. cbn [assemble]. rewrite El. reflexivity.
      * rewrite IH; auto; try lia. destruct (parse [] None (events cols rest)) as [bs t]. cbn [assemble]. rewrite El. reflexivity.
    + unfold add_token. destruct (parse_line cols (split chTAB (c :: line))) as [r|e]; cbn [bind parse]; [|reflexivity].
      rewrite process_row_step. destruct (row_step cur op r) as [[cur' op']|e] eqn:ER; cbn [rmap bind]; [|reflexivity].
      apply IH; auto. eapply row_step_ok; eauto.
Qed.

Lemma read_str_blocks limit cols text g :
  read_str limit cols text = Ok g <->
  0 < limit /\
  g = (let (bs, t) := parse [] None (events (normal_columns cols) (file_lines text)) in assemble limit [] bs t).
Proof.
  unfold read_str, assert. destruct (0 <? limit) eqn:E.
  - cbn [bind]. change initial_state with (state_of [] [] None).
    rewrite read_loop_blocks by (try apply Forall_nil; change (zlen []) with 0; lia).
    split; [intros H; inversion H; split; [lia|auto]|intros [_ ->]; auto].
  - simpl. split; [discriminate|lia].
Qed.

(* blocks of a parse are non-empty and usable *)
Lemma parse_ok evs : forall cur op bs t, Forall group_ok cur -> parse cur op evs = (bs, t) ->
  Forall (fun b => b <> [] /\ Forall group_ok b) bs /\ (forall lf, t = TEnd lf -> Forall group_ok lf).
Proof.
  induction evs as [|e evs IH]; intros cur op bs t G H; simpl in H.
  - inversion H; subst. split; auto. destruct op; intros lf E; inversion E; subst; auto.
  - destruct e as [|r|e].
    + destruct op; [inversion H; subst; split; [auto|congruence]|].
      destruct cur as [|g cur]; [inversion H; subst; split; [auto|congruence]|].
      destruct (parse [] None evs) as [bs' t'] eqn:E. inversion H; subst.
      destruct (IH _ _ _ _ (Forall_nil _) E) as [A B]. split; auto. constructor; auto. split; auto. congruence.
    + destruct (row_step cur op r) as [[cur' op']|x] eqn:E; [|inversion H; subst; split; [auto|congruence]].
      eapply IH; [|eauto]. eapply row_step_ok; eauto.
    + inversion H; subst; split; [auto|congruence].
Qed.
