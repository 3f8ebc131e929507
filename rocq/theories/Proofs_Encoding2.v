(* The writer that writes to a file and the writer that makes a string. *)
From Coq Require Import String Ascii ZArith NArith Bool Lia List.
From Verif Require Import Base BaseFacts Model_Datamodel Model_Conllu Model_Encoding Spec_Conllu Spec_Encoding Proofs_Encoding.
Import ListNotations.
Open Scope Z_scope.

Definition a_line (l : str) : Prop := exists l', l = l' ++ [chNL].

Lemma whole_lines_app s l : whole_lines s -> a_line l -> whole_lines (s ++ l).
Proof. intros _ [l' ->]. right. exists (s ++ l'). apply app_assoc. Qed.

Definition agree (q : str) (st : wstate) (fs : fstate) : Prop :=
  encode (q ++ w_out st) = Ok (f_out fs) /\ whole_lines (q ++ w_out st) /\ w_index st = f_index fs /\ w_multi st = f_multi fs.

(* a text of which [p] was written, followed by a line that cannot be *)
Definition stuck (p text : str) : Prop := exists l rest, text = p ++ l ++ rest /\ a_line l /\ ~ Forall scalar l.

Definition sim (q : str) (g : step_to) (r : result wstate) : Prop :=
  match g with
  | (fs, None) => exists st, r = Ok st /\ agree q st fs
  | (fs, Some e) => exists p, encode p = Ok (f_out fs) /\ whole_lines p /\ (exists more, p = q ++ more) /\
      (r = Err e \/ (e = EValue /\ forall st, r = Ok st -> stuck p (q ++ w_out st)))
  end.

Definition extends (h : wstate -> result wstate) : Prop :=
  forall st st', h st = Ok st' -> exists rest, w_out st' = w_out st ++ rest.

Lemma stuck_app p t rest : stuck p t -> stuck p (t ++ rest).
Proof. intros (l & r & -> & L & N). exists l, (r ++ rest). rewrite <- !app_assoc. auto. Qed.

Lemma sim_bind q g r k h : sim q g r -> (forall st fs, agree q st fs -> sim q (k fs) (h st)) -> extends h ->
  sim q (and_then g k) (bind r h).
Proof.
  intros S H X. destruct g as [fs [e|]]; cbn [and_then sim] in *.
  - destruct S as (p & E & W & Q & S). exists p. split; [exact E|]. split; [exact W|]. split; [exact Q|]. destruct S as [->|[-> S]]; [left; reflexivity|].
    right. split; [reflexivity|]. intros st Hst. destruct r as [st0|]; [|discriminate]. cbn in Hst. destruct (X _ _ Hst) as [rest ->].
    rewrite app_assoc. apply stuck_app, S. reflexivity.
  - destruct S as (st & -> & A). cbn. apply H, A.
Qed.

Lemma extends_foldM {A} (f : wstate -> A -> result wstate) l : (forall a, extends (fun st => f st a)) -> extends (fun st => foldM f st l).
Proof.
  intros X. induction l as [|a l IH]; intros st st' H; cbn [foldM] in H.
  - injection H as <-. exists []. symmetry. apply app_nil_r.
  - destruct (f st a) as [st1|] eqn:E; [|discriminate]. cbn in H. destruct (X _ _ _ E) as [r1 E1]. destruct (IH _ _ H) as [r2 E2].
    exists (r1 ++ r2). rewrite E2, E1, app_assoc. reflexivity.
Qed.

Lemma sim_fold {A} q (g : fstate -> A -> step_to) (f : wstate -> A -> result wstate) l :
  (forall st fs a, agree q st fs -> sim q (g fs a) (f st a)) -> (forall a, extends (fun st => f st a)) ->
  forall st fs, agree q st fs -> sim q (run_all g fs l) (foldM f st l).
Proof.
  intros H X. induction l as [|a l IH]; intros st fs A0; cbn [run_all foldM].
  - exists st. auto.
  - apply (sim_bind q (g fs a) (f st a) (fun fs' => run_all g fs' l) (fun st' => foldM f st' l)); auto using extends_foldM.
Qed.

(* one file.write *)
Lemma sim_write q st fs line i m : a_line line -> agree q st fs ->
  sim q (and_then (file_write fs line) (fun fs' => (mkF (f_out fs') i m, None))) (Ok (mkWState (w_out st ++ line) i m)).
Proof.
  intros L (E & W & _ & _). unfold file_write. destruct (encode line) as [b|e] eqn:El; cbn [and_then sim].
  - eexists. split; [reflexivity|]. unfold agree. cbn. rewrite app_assoc, encode_app, E. cbn. rewrite El. cbn.
    split; [reflexivity|]. split; [apply whole_lines_app; auto|auto].
  - exists (q ++ w_out st). split; [exact E|]. split; [exact W|]. split; [eauto|]. right. split; [eapply encode_err; eauto|]. intros st' H. injection H as <-. cbn.
    exists line, []. rewrite app_nil_r, app_assoc. split; [reflexivity|]. split; [exact L|]. intros F. apply encode_scalar in F as [b F]. congruence.
Qed.

Lemma format_line_line cells : a_line (format_line cells).
Proof. unfold format_line. eexists. reflexivity. Qed.

Lemma sim_regular q cols st fs v sp : agree q st fs -> sim q (fwrite_regular cols fs v sp) (write_regular cols st v sp).
Proof.
  intros A0. destruct A0 as (E & W & EI & EM). unfold fwrite_regular, write_regular. rewrite EI.
  destruct (to_conll cols (f_index fs) v sp true) as [cells|e]; cbn [bind].
  - pose proof (sim_write q st fs (format_line cells) (f_index fs + 1) (f_multi fs) (format_line_line _) (conj E (conj W (conj EI EM)))) as S.
    rewrite <- EM in S. unfold file_write in *. destruct (encode (format_line cells)); cbn in *; rewrite ?EM in *; auto.
  - cbn. exists (q ++ w_out st). split; [exact E|]. split; [exact W|]. split; [eexists; reflexivity|left; reflexivity].
Qed.

Lemma extends_regular cols v sp : extends (fun st => write_regular cols st v sp).
Proof. intros st st' H. unfold write_regular in H. apply bind_ok_iff in H as (cells & _ & H). injection H as <-. cbn. eauto. Qed.

Lemma sim_multiword q cols st fs m : agree q st fs -> sim q (fwrite_multiword cols fs m) (write_multiword cols st m).
Proof.
  intros A0. pose proof A0 as (E & W & EI & EM). unfold fwrite_multiword, write_multiword.
  pose proof (sim_write q st fs (format_line (range_line m)) (f_index fs) (f_multi fs) (format_line_line _) A0) as S.
  rewrite EI, EM.
  change (foldM (fun st0 v => write_regular cols st0 v false) (mkWState (w_out st ++ format_line (range_line m)) (f_index fs) (f_multi fs)) (wm_tokens m))
    with (bind (Ok (mkWState (w_out st ++ format_line (range_line m)) (f_index fs) (f_multi fs)))
               (fun st0 => foldM (fun st0 v => write_regular cols st0 v false) st0 (wm_tokens m))).
  assert (S' : sim q (file_write fs (format_line (range_line m))) (Ok (mkWState (w_out st ++ format_line (range_line m)) (f_index fs) (f_multi fs)))).
  { unfold file_write in *. destruct (encode (format_line (range_line m))); exact S. }
  apply (sim_bind q _ _ (fun st' => run_all (fun st v => fwrite_regular cols st v false) st' (wm_tokens m)) _ S').
  - intros st1 fs1 A1. apply sim_fold; auto using extends_regular. intros; apply sim_regular; auto.
  - apply extends_foldM. intros. apply extends_regular.
Qed.

Lemma extends_multiword cols m : extends (fun st => write_multiword cols st m).
Proof.
  intros st st' H. unfold write_multiword in H. destruct (extends_foldM _ (wm_tokens m) (fun v => extends_regular cols v false) _ _ H) as [r E].
  cbn in E. rewrite E, <- app_assoc. eauto.
Qed.

Lemma sim_regular_token q cols st fs v : agree q st fs -> sim q (fregular_write_token cols fs v) (regular_write_token cols st v).
Proof.
  intros (E & W & EI & EM). unfold fregular_write_token, regular_write_token. destruct (is_multiword (nv_token v)).
  - cbn. eexists. split; [reflexivity|]. unfold agree. cbn. rewrite EI. auto.
  - apply sim_regular. unfold agree. cbn. auto.
Qed.

Lemma extends_regular_token cols v : extends (fun st => regular_write_token cols st v).
Proof.
  intros st st' H. unfold regular_write_token in H. destruct (is_multiword (nv_token v)).
  - injection H as <-. cbn. exists []. symmetry. apply app_nil_r.
  - apply (extends_regular cols v true) in H. exact H.
Qed.

Lemma sim_token q cols st fs v : agree q st fs -> sim q (fwrite_token cols fs v) (write_token cols st v).
Proof.
  intros A0. pose proof A0 as (E & W & EI & EM). unfold fwrite_token, write_token. rewrite EM. destruct (f_multi fs) as [m|].
  - destruct (coincides _ _).
    + cbn. eexists. split; [reflexivity|]. unfold agree. cbn. auto.
    + apply (sim_bind q _ _ (fun st' => fregular_write_token cols st' v) (fun st' => regular_write_token cols st' v)).
      * apply sim_multiword, A0.
      * intros. apply sim_regular_token. auto.
      * apply extends_regular_token.
  - apply sim_regular_token, A0.
Qed.

Lemma extends_token cols v : extends (fun st => write_token cols st v).
Proof.
  intros st st' H. unfold write_token in H. destruct (w_multi st) as [m|]; [|apply extends_regular_token in H; exact H].
  destruct (coincides _ _).
  - injection H as <-. cbn. exists []. symmetry. apply app_nil_r.
  - apply bind_ok_iff in H as (st1 & H1 & H2). apply extends_multiword in H1 as [r1 E1]. apply extends_regular_token in H2 as [r2 E2].
    exists (r1 ++ r2). rewrite E2, E1, app_assoc. reflexivity.
Qed.

Lemma sim_end q cols st fs : agree q st fs -> sim q (fwrite_end_of_sentence cols fs) (write_end_of_sentence cols st).
Proof.
  intros A0. pose proof A0 as (E & W & EI & EM). unfold fwrite_end_of_sentence, write_end_of_sentence. rewrite EM.
  apply (sim_bind q (match f_multi fs with None => (fs, None) | Some m => fwrite_multiword cols fs m end)
                    (match f_multi fs with None => Ok st | Some m => write_multiword cols st m end)
                    (fun st' => and_then (file_write st' [chNL]) (fun st'' => (mkF (f_out st'') 0 (f_multi fs), None)))
                    (fun st' => Ok (mkWState (w_out st' ++ [chNL]) 0 (f_multi fs)))).
  - destruct (f_multi fs); [apply sim_multiword, A0|]. cbn. exists st. auto.
  - intros. apply sim_write; auto. exists []. reflexivity.
  - intros a b H. injection H as <-. cbn. eauto.
Qed.

Lemma extends_end cols : extends (write_end_of_sentence cols).
Proof.
  intros st st' H. unfold write_end_of_sentence in H. apply bind_ok_iff in H as (st1 & H1 & H2). injection H2 as <-. cbn.
  destruct (w_multi st).
  - apply extends_multiword in H1 as [r ->]. rewrite <- app_assoc. eauto.
  - injection H1 as <-. eauto.
Qed.

Lemma sim_sentence q cols st fs s : agree q st fs -> sim q (fwrite_sentence cols fs s) (write_sentence cols st s).
Proof.
  intros A0. unfold fwrite_sentence, write_sentence. destruct (ns_nav_tokens s) as [vs|e]; cbn [bind].
  - apply (sim_bind q _ _ (fwrite_end_of_sentence cols) (write_end_of_sentence cols)).
    + apply sim_fold; auto using extends_token. intros; apply sim_token; auto.
    + intros. apply sim_end. auto.
    + apply extends_end.
  - cbn. destruct A0 as (E & W & _). exists (q ++ w_out st). split; [exact E|]. split; [exact W|]. split; [eexists; reflexivity|left; reflexivity].
Qed.

Lemma extends_sentence cols s : extends (fun st => write_sentence cols st s).
Proof.
  intros st st' H. unfold write_sentence in H. apply bind_ok_iff in H as (vs & _ & H). apply bind_ok_iff in H as (st1 & H1 & H2).
  destruct (extends_foldM _ vs (extends_token cols) _ _ H1) as [r1 E1]. apply extends_end in H2 as [r2 E2].
  exists (r1 ++ r2). rewrite E2, E1, app_assoc. reflexivity.
Qed.

Lemma sim_document q cols fs d : encode q = Ok (f_out fs) -> whole_lines q ->
  match fwrite_document cols fs d with
  | (fs', None) => exists out, write_document cols d = Ok out /\ encode (q ++ out) = Ok (f_out fs') /\ whole_lines (q ++ out)
  | (fs', Some e) => exists p, encode p = Ok (f_out fs') /\ whole_lines p /\ (exists more, p = q ++ more) /\
      (write_document cols d = Err e \/ (e = EValue /\ forall out, write_document cols d = Ok out -> stuck p (q ++ out)))
  end.
Proof.
  intros E W. unfold fwrite_document, write_document. destruct (doc_nav_sentences d) as [ss|e]; cbn [bind]; [|exists q; split; [exact E|]; split; [exact W|]; split; [exists []; symmetry; apply app_nil_r|auto]].
  assert (S : sim q (run_all (fwrite_sentence cols) (mkF (f_out fs) 0 None) ss) (foldM (write_sentence cols) (mkWState [] 0 None) ss)).
  { apply sim_fold; auto using extends_sentence. { intros; apply sim_sentence; auto. } unfold agree. cbn. rewrite app_nil_r. auto. }
  destruct (run_all _ _ ss) as [fs' [e|]]; cbn [sim] in S.
  - destruct S as (p & E1 & W1 & Q & S). exists p. split; [exact E1|]. split; [exact W1|]. split; [exact Q|]. destruct S as [->|[-> S]]; [left; reflexivity|].
    right. split; [reflexivity|]. intros out H. apply bind_ok_iff in H as (st & H1 & H2). injection H2 as <-. apply S, H1.
  - destruct S as (st & -> & E1 & W1 & _). cbn. eauto.
Qed.

Lemma sim_documents cols ds : forall q fs, encode q = Ok (f_out fs) -> whole_lines q ->
  match run_all (fwrite_document cols) fs ds with
  | (fs', None) => exists outs, mapM (write_document cols) ds = Ok outs /\ encode (q ++ concat outs) = Ok (f_out fs')
  | (fs', Some e) => exists p, encode p = Ok (f_out fs') /\ whole_lines p /\
      (exists ds1 d ds2 outs1 more, ds = ds1 ++ d :: ds2 /\ mapM (write_document cols) ds1 = Ok outs1 /\ p = q ++ concat outs1 ++ more /\
         (write_document cols d = Err e \/ e = EValue)) /\
      (mapM (write_document cols) ds = Err e \/
       (e = EValue /\ forall outs, mapM (write_document cols) ds = Ok outs -> stuck p (q ++ concat outs)))
  end.
Proof.
  induction ds as [|d ds IH]; intros q fs E W; cbn [run_all mapM].
  - exists []. cbn. rewrite app_nil_r. auto.
  - pose proof (sim_document q cols fs d E W) as S. destruct (fwrite_document cols fs d) as [fs1 [e|]]; cbn [and_then].
    + destruct S as (p & E1 & W1 & [more Q] & S). exists p. split; [exact E1|]. split; [exact W1|].
      split; [exists [], d, ds, [], more; cbn; intuition|]. destruct S as [->|[-> S]]; [left; reflexivity|].
      right. split; [reflexivity|]. intros outs H. apply bind_ok_iff in H as (out & H1 & H). apply bind_ok_iff in H as (outs' & _ & H). injection H as <-.
      cbn [concat]. rewrite app_assoc. apply stuck_app, S, H1.
    + destruct S as (out & ED & E1 & W1). rewrite ED. cbn [bind]. specialize (IH (q ++ out) fs1 E1 W1).
      destruct (run_all (fwrite_document cols) fs1 ds) as [fs2 [e|]].
      * destruct IH as (p & E2 & W2 & (ds1 & d1 & ds2 & outs1 & more & Q1 & Q2 & Q3 & Q4) & S). exists p. split; [exact E2|]. split; [exact W2|].
        split; [exists (d :: ds1), d1, ds2, (out :: outs1), more; rewrite Q1; split; [reflexivity|]; split; [cbn [mapM]; rewrite ED, Q2; reflexivity|];
                split; [rewrite Q3; cbn [concat]; rewrite <- !app_assoc; reflexivity|exact Q4]|]. destruct S as [->|[-> S]]; [left; reflexivity|].
        right. split; [reflexivity|]. intros outs H. apply bind_ok_iff in H as (outs' & H1 & H). injection H as <-. cbn [concat].
        rewrite app_assoc. apply S, H1.
      * destruct IH as (outs & -> & E2). cbn. eexists. split; [reflexivity|]. cbn [concat]. rewrite app_assoc. exact E2.
Qed.

Lemma file_writer old cols ds :
  match write_to_file old cols ds with
  | (bytes, None) => exists text, write_str cols ds = Ok text /\ encode text = Ok bytes
  | (bytes, Some e) => exists p, encode p = Ok bytes /\ whole_lines p /\
      (exists ds1 d ds2 text1 more, ds = ds1 ++ d :: ds2 /\ write_str cols ds1 = Ok text1 /\ p = text1 ++ more /\
         (write_str cols [d] = Err e \/ e = EValue)) /\
      (write_str cols ds = Err e \/ (e = EValue /\ forall text, write_str cols ds = Ok text -> stuck p text))
  end.
Proof.
  unfold write_to_file, write_str. cbn [firstn].
  pose proof (sim_documents (normal_columns cols) ds [] (mkF [] 0 None) eq_refl (or_introl eq_refl)) as S.
  destruct (run_all _ _ ds) as [fs [e|]]; cbv iota.
  - destruct S as (p & E & W & (ds1 & d1 & ds2 & outs1 & more & Q1 & Q2 & Q3 & Q4) & S). exists p. split; [exact E|]. split; [exact W|].
    split; [exists ds1, d1, ds2, (concat outs1), more; split; [exact Q1|]; split; [rewrite Q2; reflexivity|]; split; [exact Q3|];
            destruct Q4 as [Q4|Q4]; [left; cbn [mapM]; rewrite Q4; reflexivity|right; exact Q4]|].
    destruct S as [->|[-> S]]; [left; reflexivity|].
    right. split; [reflexivity|]. intros text H. destruct (mapM _ ds) as [outs|]; [|discriminate]. injection H as <-. apply (S _ eq_refl).
  - destruct S as (outs & -> & E). cbn. eauto.
Qed.

Lemma file_written old cols ds bytes :
  write_to_file old cols ds = (bytes, None) <-> exists text, write_str cols ds = Ok text /\ encode text = Ok bytes.
Proof.
  pose proof (file_writer old cols ds) as F. destruct (write_to_file old cols ds) as [b [e|]].
  - split; [discriminate|]. intros (text & H1 & H2). exfalso. destruct F as (p & _ & _ & _ & [F|[_ F]]); [congruence|].
    destruct (F _ H1) as (l & rest & -> & _ & N). apply N.
    assert (X : Forall scalar (p ++ l ++ rest)) by (apply encode_scalar; eauto). rewrite !Forall_app in X. tauto.
  - destruct F as (text & H1 & H2). split.
    + intros H. injection H as <-. eauto.
    + intros (text' & H3 & H4). assert (text' = text) by congruence. subst text'. assert (b = bytes) by congruence. subst. reflexivity.
Qed.
