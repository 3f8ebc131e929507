(* What features and encoders declare *)
From Coq Require Import String Ascii ZArith NArith Bool Lia List.
From Verif Require Import Base BaseFacts Model_Graph Spec_Graph Proofs_Graph Proofs_Graph2.
Import ListNotations.
Open Scope Z_scope.

(* ---- sizes against their specification ---- *)

Lemma out_channels_snoc ks k ch : out_channels (ks ++ [k]) ch = cv_count k.
Proof. unfold out_channels. rewrite fold_left_app. reflexivity. Qed.
Lemma ends_with_iff ks n : ends_with ks n <-> ks <> [] /\ n = out_channels ks 0.
Proof.
  split.
  - intros (ks' & k & -> & <-). split; [destruct ks'; discriminate|]. rewrite out_channels_snoc. reflexivity.
  - intros [N ->]. destruct (exists_last N) as (ks' & k & ->). exists ks', k. rewrite out_channels_snoc. auto.
Qed.
Lemma out_channels_any ks a b : ks <> [] -> out_channels ks a = out_channels ks b.
Proof. destruct ks; [congruence|reflexivity]. Qed.

Lemma subwords_give_iff a size n : subwords_give a size n <-> a <> Cnn [] /\ n = agg_size a size.
Proof.
  split.
  - intros H. destruct H as [cell layers size H|cell layers size H|ks size n H|size|size]; (split; [try discriminate|]); cbn [agg_size]; auto.
    + unfold bilstm_size. destruct (Z.to_nat layers) eqn:E; auto. lia.
    + replace (Z.to_nat layers) with 0%nat by lia. reflexivity.
    + apply ends_with_iff in H. destruct H as [N _]. congruence.
    + apply ends_with_iff in H. destruct H as [_ ->]. reflexivity.
  - intros [N ->]. destruct a as [cell layers|ks| |]; cbn [agg_size]; try constructor.
    + unfold bilstm_size. destruct (Z.to_nat layers) eqn:E; constructor; lia.
    + apply ends_with_iff. split; auto. congruence.
Qed.

(* ---- features ---- *)

Record piece := mkPiece { p_name : str; p_act : action Z; p_cond : Prop; p_res : Z; p_decl : nat -> decl; p_bump : nat }.
Definition sound (p : piece) : Prop := meets (p_act p) (p_cond p) (p_res p) (p_decl p) (p_bump p).

Definition words_decl (c : Z * Z * option Z) : decl :=
  let '(rows, size, d) := c in
  (KWords, [rows; size]) :: match d with None => [] | Some u => [(KWeDense false, [size; u]); (KWeDense true, [u])] end.
Definition words_res (c : Z * Z * option Z) : Z := let '(_, size, d) := c in match d with None => size | Some u => u end.
Definition words_piece (c : Z * Z * option Z) : piece :=
  mkPiece (of_string "word_embedding") (words_feature c) True (words_res c) (fun _ => words_decl c) 0.
Definition trained_piece (c : Z * Z) : piece :=
  mkPiece (of_string "trained_embedding") (trained_feature c) True (snd c) (fun _ => [(KTrained, [fst c; snd c])]) 0.
Definition sub_piece (s : sub) (c : subwords) : piece :=
  mkPiece (sub_name s) (subwords_feature (sub_name s) c) (sw_aggregator c <> Cnn []) (agg_size (sw_aggregator c) (sw_size c)) (sub_decl s c) (sub_bump c).

Definition opt {C} (o : option C) (f : C -> piece) : list piece := match o with Some c => [f c] | None => [] end.
Definition pieces (f : features) : list piece :=
  opt (f_words f) words_piece ++ opt (f_trained f) trained_piece ++
  opt (f_characters f) (sub_piece Characters) ++ opt (f_bpe f) (sub_piece Bpe) ++ opt (f_morfessor f) (sub_piece Morfessor).

Lemma builders_pieces f : feature_builders f = map (fun p => (p_name p, p_act p)) (pieces f).
Proof.
  unfold feature_builders, pieces, given, opt. rewrite !map_app.
  destruct (f_words f), (f_trained f), (f_characters f), (f_bpe f), (f_morfessor f); reflexivity.
Qed.

Lemma words_sound c : sound (words_piece c).
Proof.
  destruct c as [[rows size] d]. unfold sound. cbn [words_piece p_act p_cond p_res p_decl p_bump words_feature words_res words_decl].
  eapply meets_eq; [eapply meets_bind; [apply (meets_var KWords); reflexivity|intros _]|..].
  - instantiate (1 := 0%nat). instantiate (1 := fun _ => match d with None => [] | Some u => [(KWeDense false, [size; u]); (KWeDense true, [u])] end).
    instantiate (1 := match d with None => size | Some u => u end). instantiate (1 := True).
    destruct d as [u|]; [|apply meets_ret]. apply (meets_named _ (KWeDense false) (KWeDense true)); [|reflexivity|reflexivity].
    intros i E. destruct i; unfold default_scope in E; spell E; discriminate.
  - tauto.
  - intros _. auto.
Qed.
Lemma trained_sound c : sound (trained_piece c).
Proof.
  unfold sound. cbn [trained_piece p_act p_cond p_res p_decl p_bump]. unfold trained_feature.
  eapply meets_eq; [eapply meets_bind; [apply (meets_var KTrained); reflexivity|intros _; apply meets_ret]|tauto|]. auto.
Qed.
Lemma sub_sound s c : sound (sub_piece s c).
Proof. apply meets_sub. Qed.

Lemma pieces_sound f : Forall sound (pieces f).
Proof.
  unfold pieces, opt.
  repeat (apply Forall_app; split); try match goal with |- Forall _ (match ?o with _ => _ end) => destruct o end; repeat constructor;
    auto using words_sound, trained_sound, sub_sound.
Qed.

Fixpoint pieces_decl (ps : list piece) (n : nat) : decl :=
  match ps with [] => [] | p :: ps' => p_decl p n ++ pieces_decl ps' (n + p_bump p) end.
Definition pieces_bump (ps : list piece) : nat := fold_right (fun p n => (p_bump p + n)%nat) 0%nat ps.
Definition pieces_dict (ps : list piece) : dict Z := map (fun p => (p_name p, p_res p)) ps.

Lemma meets_features ps : Forall sound ps ->
  meets (run_features (map (fun p => (p_name p, p_act p)) ps)) (Forall p_cond ps) (pieces_dict ps) (pieces_decl ps) (pieces_bump ps).
Proof.
  induction 1 as [|p ps H _ IH]; cbn [map run_features].
  - eapply meets_eq; [apply meets_ret|split; constructor|auto].
  - eapply meets_eq; [eapply meets_bind; [exact H|intros _; eapply meets_bind; [exact IH|intros _; apply meets_ret]]|..].
    + rewrite Forall_cons_iff. tauto.
    + intros _. cbn [pieces_dict map pieces_bump fold_right]. split; auto. split; [unfold pieces_bump; lia|].
      intros n. cbn [pieces_decl]. rewrite app_nil_r. reflexivity.
Qed.

Definition word_size (f : features) : Z := sum_sizes (pieces_dict (pieces f)).
Definition word_dict (f : features) : dict Z := pieces_dict (pieces f) ++ [(of_string "word_features", word_size f)].
Lemma meets_words f : meets (word_layers f) (pieces f <> [] /\ Forall p_cond (pieces f)) (word_dict f) (pieces_decl (pieces f)) (pieces_bump (pieces f)).
Proof.
  unfold word_layers. rewrite builders_pieces.
  eapply meets_eq; [eapply meets_bind; [apply meets_features; apply pieces_sound|intros _]|..].
  - instantiate (1 := 0%nat). instantiate (1 := fun _ => []). instantiate (1 := word_dict f). instantiate (1 := pieces f <> []).
    unfold word_dict, word_size. destruct (pieces f) as [|p ps].
    + eapply meets_eq; [apply (meets_raise EValue (word_dict f) (fun _ => []) 0)|tauto|tauto].
    + cbn [pieces_dict map]. eapply meets_eq; [apply meets_ret|split; [discriminate|auto]|auto].
  - tauto.
  - intros _. split; auto. split; auto. intros n. apply app_nil_r.
Qed.

(* ---- the features against their specification ---- *)

Lemma pieces_In f p : In p (pieces f) <->
  (exists c, f_words f = Some c /\ p = words_piece c) \/ (exists c, f_trained f = Some c /\ p = trained_piece c) \/
  (exists c, f_characters f = Some c /\ p = sub_piece Characters c) \/ (exists c, f_bpe f = Some c /\ p = sub_piece Bpe c) \/
  (exists c, f_morfessor f = Some c /\ p = sub_piece Morfessor c).
Proof.
  unfold pieces, opt. rewrite !in_app_iff.
  assert (A : forall C (o : option C) (g : C -> piece), In p (match o with Some c => [g c] | None => [] end) <-> exists c, o = Some c /\ p = g c).
  { intros C o g. destruct o as [c|]; cbn; [|split; [tauto|intros (c & E & _); discriminate]].
    split; [intros [<-|[]]; eauto|]. intros (c' & E & ->). left. congruence. }
  rewrite !A. tauto.
Qed.

Lemma names_NoDup f : NoDup (map p_name (pieces f)).
Proof.
  unfold pieces, opt. destruct (f_words f), (f_trained f), (f_characters f), (f_bpe f), (f_morfessor f); cbn [app map p_name words_piece trained_piece sub_piece sub_name];
    repeat (constructor; [cbn [In]; intros H; repeat (destruct H as [H|H]; [discriminate|]); exact H|]); constructor.
Qed.

Lemma feature_of_iff f name n : feature_of f name n <-> exists p, In p (pieces f) /\ p_cond p /\ p_name p = name /\ p_res p = n.
Proof.
  split.
  - intros H. destruct H as [rows size E|rows size n E|rows size E|c n E G|c n E G|c n E G]; try apply subwords_give_iff in G.
    + exists (words_piece (rows, size, None)). split; [apply pieces_In; eauto 10|cbn [p_cond p_name p_res words_piece trained_piece sub_piece words_res snd]; auto].
    + exists (words_piece (rows, size, Some n)). split; [apply pieces_In; eauto 10|cbn [p_cond p_name p_res words_piece trained_piece sub_piece words_res snd]; auto].
    + exists (trained_piece (rows, size)). split; [apply pieces_In; eauto 10|cbn [p_cond p_name p_res words_piece trained_piece sub_piece words_res snd]; auto].
    + destruct G as [G ->]. exists (sub_piece Characters c). split; [apply pieces_In; eauto 10|cbn [p_cond p_name p_res words_piece trained_piece sub_piece words_res snd]; auto].
    + destruct G as [G ->]. exists (sub_piece Bpe c). split; [apply pieces_In; eauto 10|cbn [p_cond p_name p_res words_piece trained_piece sub_piece words_res snd]; auto].
    + destruct G as [G ->]. exists (sub_piece Morfessor c). split; [apply pieces_In; eauto 10|cbn [p_cond p_name p_res words_piece trained_piece sub_piece words_res snd]; auto].
  - intros (p & I & C & <- & <-). apply pieces_In in I. destruct I as [(c & E & ->)|[(c & E & ->)|[(c & E & ->)|[(c & E & ->)|(c & E & ->)]]]].
    + destruct c as [[rows size] [u|]]; cbn; [eapply of_words_dense|eapply of_words]; eauto.
    + destruct c. cbn. eapply of_trained; eauto.
    + cbn in *. apply (of_characters _ c); auto. apply subwords_give_iff; auto.
    + cbn in *. apply (of_bpe _ c); auto. apply subwords_give_iff; auto.
    + cbn in *. apply (of_morfessor _ c); auto. apply subwords_give_iff; auto.
Qed.

Lemma features_fit_iff f : features_fit f <-> pieces f <> [] /\ Forall p_cond (pieces f).
Proof.
  unfold features_fit. rewrite Forall_forall. split.
  - intros [(name & n & H) C]. apply feature_of_iff in H. destruct H as (p & I & _). split; [intros E; rewrite E in I; destruct I|].
    intros q Q. apply pieces_In in Q. destruct Q as [(c & E & ->)|[(c & E & ->)|[(c & E & ->)|[(c & E & ->)|(c & E & ->)]]]]; cbn; auto 6.
  - intros [N C]. split.
    + destruct (pieces f) as [|p ps] eqn:E; [congruence|]. exists (p_name p), (p_res p). apply feature_of_iff. exists p. rewrite E.
      assert (I : In p (p :: ps)) by (left; auto). auto.
    + intros c H. assert (Q : exists s, In (sub_piece s c) (pieces f)).
      { destruct H as [H|[H|H]]; [exists Characters|exists Bpe|exists Morfessor]; apply pieces_In; eauto 10. }
      destruct Q as (s & Q). apply (C _ Q).
Qed.

Lemma sum_sizes_map ns : sum_sizes ns = fold_right Z.add 0 (map snd ns).
Proof. unfold sum_sizes. induction ns as [|x ns IH]; cbn; auto. rewrite IH. reflexivity. Qed.

Lemma sum_permutation l l' : Permutation.Permutation l l' -> fold_right Z.add 0 l = fold_right Z.add 0 l'.
Proof. induction 1; cbn; lia. Qed.

Lemma NoDup_map_inv' {A B} (f : A -> B) l : NoDup (map f l) -> NoDup l.
Proof. apply NoDup_map_inv. Qed.

Lemma words_size_iff f n : Forall p_cond (pieces f) -> (words_size f n <-> n = word_size f).
Proof.
  intros C. assert (IN : forall name m, In (name, m) (pieces_dict (pieces f)) <-> feature_of f name m).
  { intros name m. rewrite feature_of_iff. unfold pieces_dict. rewrite in_map_iff. rewrite Forall_forall in C. split.
    - intros (p & E & I). injection E as <- <-. exists p. auto.
    - intros (p & I & _ & <- & <-). eauto. }
  assert (ND : NoDup (map fst (pieces_dict (pieces f)))).
  { unfold pieces_dict. rewrite map_map. apply names_NoDup. }
  split.
  - intros (ns & N & H & ->). unfold word_size. rewrite sum_sizes_map. apply sum_permutation. apply Permutation.Permutation_map.
    apply Permutation.NoDup_Permutation; [apply (NoDup_map_inv' fst); auto|apply (NoDup_map_inv' fst); auto|].
    intros [name m]. rewrite H, IN. tauto.
  - intros ->. exists (pieces_dict (pieces f)). split; auto. split; auto. apply sum_sizes_map.
Qed.

(* ---- encoders ---- *)

Lemma get_app_last ns k (v : Z) : ~ In k (map fst ns) -> dict_get (ns ++ [(k, v)]) k = Some v.
Proof.
  induction ns as [|[k1 v1] ns IH]; cbn [app dict_get map fst In]; intros N; [rewrite str_eqb_refl; auto|].
  destruct (str_eqb k k1) eqn:E; [apply str_eqb_eq in E; subst; tauto|]. auto.
Qed.
Lemma feature_names f : incl (map fst (pieces_dict (pieces f)))
  [of_string "word_embedding"; of_string "trained_embedding"; of_string "characters"; of_string "bpe_subwords"; of_string "morfessor_subwords"].
Proof.
  intros x. unfold pieces_dict. rewrite map_map. cbn [fst]. rewrite in_map_iff. intros (p & <- & I). apply pieces_In in I.
  destruct I as [(c & E & ->)|[(c & E & ->)|[(c & E & ->)|[(c & E & ->)|(c & E & ->)]]]]; cbn [p_name words_piece trained_piece sub_piece sub_name In]; auto 8.
Qed.
Lemma words_of_dict f : words_of (word_dict f) = word_size f.
Proof.
  unfold words_of, word_dict. rewrite get_app_last; auto. intros I. apply feature_names in I. cbn [In] in I.
  repeat (destruct I as [I|I]; [discriminate|]). exact I.
Qed.

Definition skip_cond (sk : skip) (out words : Z) : Prop := match sk with Sum => out = words | OtherSkip => False | _ => True end.
Definition skip_dict (name : string) (sk : skip) (out words : Z) : dict Z :=
  match sk with Sum => [(of_string name, out)] | Concat => [(of_string name, out + words)] | _ => [] end.
Lemma meets_skip name sk out words : meets (skip_connection name sk out words) (skip_cond sk out words) (skip_dict name sk out words) (fun _ => []) 0.
Proof.
  destruct sk; cbn [skip_connection skip_cond skip_dict].
  - apply meets_ret.
  - destruct (out =? words) eqn:E.
    + eapply meets_eq; [apply meets_ret|split; [lia|auto]|auto].
    + eapply meets_eq; [apply (meets_raise EValue [(of_string name, out)] (fun _ => []) 0)|split; [tauto|lia]|auto].
  - apply meets_ret.
  - apply meets_raise.
Qed.

Definition bil_dict (cell : Z) (sk : skip) (f : features) : dict Z :=
  word_dict f ++ [(of_string "bilstm", 2 * cell)] ++ skip_dict "bilstm_and_word_features" sk (2 * cell) (word_size f).
Definition bil_decl (cell layers : Z) (f : features) : decl := bilstm_decl None cell 0 (Z.to_nat layers) (word_size f).
Lemma meets_bil cell layers sk f :
  meets (bilstm_layers_of cell layers sk (word_dict f)) (0 < layers /\ skip_cond sk (2 * cell) (word_size f)) (bil_dict cell sk f)
        (fun _ => bil_decl cell layers f) 0.
Proof.
  unfold bilstm_layers_of. destruct (layers <=? 0) eqn:E.
  - eapply meets_eq; [apply (meets_raise EValue (bil_dict cell sk f) (fun _ => bil_decl cell layers f) 0)|lia|auto].
  - rewrite words_of_dict.
    assert (S : bilstm_size cell (Z.to_nat layers) (word_size f) = 2 * cell) by (unfold bilstm_size; destruct (Z.to_nat layers) eqn:X; auto; lia).
    eapply meets_eq; [eapply meets_bind; [apply (meets_bilstm None)|intros _; rewrite S; eapply meets_bind; [apply meets_skip|intros _; apply meets_ret]]|..].
    + split; [intros (_ & H & _)|intros (_ & H)]; repeat split; auto; lia.
    + intros _. split; auto. split; auto. intros n. rewrite !app_nil_r. reflexivity.
Qed.

Definition enc_cond (f : features) (e : encoder) : Prop :=
  match e with
  | WE_charCNN => True
  | BiLSTM cell layers sk => 0 < layers /\ skip_cond sk (2 * cell) (word_size f)
  | BiLSTM_CNN cell layers sk ks => 0 < layers /\ skip_cond sk (2 * cell) (word_size f) /\ ks <> []
  | Dilated_CNN None sk => False
  | Dilated_CNN (Some ks) sk => ks <> [] /\ skip_cond sk (out_channels ks 0) (word_size f)
  end.
Definition enc_dict (f : features) (e : encoder) : dict Z :=
  match e with
  | WE_charCNN => word_dict f
  | BiLSTM cell layers sk => bil_dict cell sk f
  | BiLSTM_CNN cell layers sk ks => bil_dict cell sk f ++ [(of_string "bilstm_cnn", out_channels ks 0)]
  | Dilated_CNN None sk => []
  | Dilated_CNN (Some ks) sk => word_dict f ++ [(of_string "dilated_cnn", out_channels ks 0)] ++
      skip_dict "dilated_cnn_and_word_features" sk (out_channels ks 0) (word_size f)
  end.
Definition enc_decl (f : features) (e : encoder) : decl :=
  match e with
  | WE_charCNN => []
  | BiLSTM cell layers sk => bil_decl cell layers f
  | BiLSTM_CNN cell layers sk ks => bil_decl cell layers f ++ conv_decl KKernel 0 ks 1
  | Dilated_CNN None sk => []
  | Dilated_CNN (Some ks) sk => conv_decl KDilated 0 ks (word_size f)
  end.

Lemma meets_shared f e :
  meets (shared_layers f e) ((pieces f <> [] /\ Forall p_cond (pieces f)) /\ enc_cond f e) (enc_dict f e)
        (fun n => pieces_decl (pieces f) n ++ enc_decl f e) (pieces_bump (pieces f)).
Proof.
  unfold shared_layers.
  eapply meets_eq; [eapply meets_bind; [apply meets_words|intros _]|..].
  - instantiate (1 := 0%nat). instantiate (1 := fun _ => enc_decl f e). instantiate (1 := enc_dict f e). instantiate (1 := enc_cond f e).
    destruct e as [|cell layers sk|cell layers sk ks|[ks|] sk]; cbn [enc_cond enc_dict enc_decl].
    + apply meets_ret.
    + apply meets_bil.
    + eapply meets_eq; [eapply meets_bind; [apply meets_bil|intros _; unfold sent_level_cnn; eapply meets_bind;
        [eapply meets_bind; [apply (meets_conv KKernel _ 0); reflexivity|intros _; apply meets_last]|intros _; apply meets_ret]]|tauto|].
      intros _. split; auto. split; auto. intros n. rewrite !app_nil_r. reflexivity.
    + rewrite words_of_dict.
      eapply meets_eq; [eapply meets_bind; [apply (meets_conv KDilated _ 0); reflexivity|intros _; eapply meets_bind;
        [apply meets_last|intros _; eapply meets_bind; [apply meets_skip|intros _; apply meets_ret]]]|tauto|].
      intros _. split; auto. split; auto. intros n. rewrite !app_nil_r. reflexivity.
    + apply meets_raise.
  - tauto.
  - intros _. split; auto.
Qed.

Lemma skip_fits_iff f sk n : Forall p_cond (pieces f) -> (skip_fits f sk n <-> skip_cond sk n (word_size f)).
Proof. intros C. destruct sk; cbn; try tauto. apply words_size_iff; auto. Qed.

Lemma encoder_fits_iff f e : Forall p_cond (pieces f) -> (encoder_fits f e <-> enc_cond f e).
Proof.
  intros C. destruct e as [|cell layers sk|cell layers sk ks|ks sk]; cbn [encoder_fits enc_cond]; [tauto|rewrite skip_fits_iff; tauto|rewrite skip_fits_iff; tauto|].
  destruct ks as [ks|]; [|split; [intros (? & ? & H & _); discriminate|tauto]].
  split.
  - intros (ks' & n & E & H & S). injection E as <-. apply ends_with_iff in H. destruct H as [N ->]. apply skip_fits_iff in S; auto.
  - intros [N S]. exists ks, (out_channels ks 0). rewrite ends_with_iff, skip_fits_iff; auto.
Qed.
