(* Scores. *)
From Coq Require Import String Ascii ZArith NArith QArith Bool Sorted Lia Lqa List.
From Verif Require Import Base BaseFacts Model_Datamodel Model_Conllu Spec_Datamodel Spec_Conllu Proofs_Datamodel Proofs_Conllu Proofs_Conllu10.
From Verif Require Import Model_UDEval Spec_UDEval Proofs_UDEval Proofs_UDEval2 Proofs_UDEval3 Proofs_UDEval4 Proofs_UDEval5 Proofs_UDEval6.
Import ListNotations.
Open Scope Z_scope.

(* ---- sums ---- *)

Lemma qsum_total {A} (f : A -> Q) l : qsum f l = total f l.
Proof. induction l as [|x l IH]; auto. unfold qsum, total in *. cbn. now rewrite IH. Qed.

Lemma total_cons {A} (f : A -> Q) x l : total f (x :: l) = (f x + total f l)%Q.
Proof. reflexivity. Qed.

Lemma total_map {A B} (f : B -> Q) (g : A -> B) l : total f (map g l) = total (fun x => f (g x)) l.
Proof. unfold total. now rewrite map_map. Qed.

Lemma total_ext {A} (f g : A -> Q) l : (forall x, In x l -> (f x == g x)%Q) -> (total f l == total g l)%Q.
Proof.
  induction l as [|x l IH]; intro H; [reflexivity|]. rewrite !total_cons, IH, (H x).
  - reflexivity.
  - left; auto.
  - intros y I0. apply H. right; auto.
Qed.

Lemma total_nonneg {A} (f : A -> Q) l : (forall x, In x l -> (0 <= f x)%Q) -> (0 <= total f l)%Q.
Proof.
  induction l as [|x l IH]; intro H; [cbn; lra|]. rewrite total_cons.
  assert (0 <= f x)%Q by (apply H; left; auto). assert (0 <= total f l)%Q by (apply IH; intros y I0; apply H; right; auto). lra.
Qed.

Lemma total_subseq {A} (f : A -> Q) l l' : subseq l l' -> (forall x, In x l' -> (0 <= f x)%Q) -> (total f l <= total f l')%Q.
Proof.
  induction 1 as [l|x l l' S0 IH|x l l' S0 IH]; intro H.
  - change (total f []) with 0%Q. now apply total_nonneg.
  - rewrite !total_cons. assert (total f l <= total f l')%Q by (apply IH; intros y I0; apply H; right; auto). lra.
  - rewrite total_cons. assert (0 <= f x)%Q by (apply H; left; auto).
    assert (total f l <= total f l')%Q by (apply IH; intros y I0; apply H; right; auto). lra.
Qed.

Lemma total_count {A} (l : list A) : (total (fun _ => 1%Q) l == count l)%Q.
Proof.
  induction l as [|x l IH]; [reflexivity|]. rewrite total_cons, IH. unfold count. cbn [length].
  rewrite Nat2Z.inj_succ, <- Z.add_1_l, inject_Z_plus. reflexivity.
Qed.

(* ---- scores ---- *)

Lemma new_score_scores g s c a : scores (new_score g s c a) c g s a.
Proof.
  unfold scores, new_score. cbn [s_precision s_recall s_f1 s_aligned]. split; [apply ratio_fraction|].
  split; [apply ratio_fraction|]. split; [apply ratio_fraction|]. destruct a; cbn; auto. apply ratio_fraction.
Qed.

Lemma fraction_unit c b q : (0 <= c)%Q -> (c <= b)%Q -> fraction c b q -> unit_interval q.
Proof.
  intros H0 H1 [F1 F2]. unfold unit_interval. destruct (Qeq_dec b 0) as [E|E].
  - rewrite F1 by auto. split; lra.
  - specialize (F2 E). assert (0 < b)%Q by (destruct (Qlt_le_dec 0 b); auto; exfalso; apply E; lra).
    split; nra.
Qed.

Lemma mul_zero x y : (x * y == 0)%Q -> ~ (y == 0)%Q -> (x == 0)%Q.
Proof. intros E N. destruct (Qmult_integral _ _ E); auto; contradiction. Qed.

Lemma scores_unit sc c g s a : (0 <= c)%Q -> (c <= g)%Q -> (c <= s)%Q -> (forall x, a = Some x -> (c <= x)%Q) -> scores sc c g s a ->
  unit_interval (s_precision sc) /\ unit_interval (s_recall sc) /\ unit_interval (s_f1 sc) /\
  (forall q, s_aligned sc = Some q -> unit_interval q) /\
  (s_f1 sc * (s_precision sc + s_recall sc) == 2 * s_precision sc * s_recall sc)%Q /\
  ((s_precision sc + s_recall sc == 0)%Q -> (s_f1 sc == 0)%Q).
Proof.
  intros H0 Hg Hs Ha (P & R & F & A).
  assert (P1 := fraction_unit _ _ _ H0 Hs P). assert (R1 := fraction_unit _ _ _ H0 Hg R).
  assert (F1 : unit_interval (s_f1 sc)) by (apply (fraction_unit (2 * c) (s + g)); auto; lra).
  split; [exact P1|]. split; [exact R1|]. split; [exact F1|]. split.
  - intros q E. rewrite E in A. destruct a as [x|]; [|contradiction]. apply (fraction_unit c x); auto.
  - destruct P as [P2 P3], R as [R2 R3], F as [F2 F3].
    destruct (Qeq_dec s 0) as [Es|Es], (Qeq_dec g 0) as [Eg|Eg].
    + rewrite (P2 Es), (R2 Eg), (F2 ltac:(lra)). split; [ring|reflexivity].
    + assert (Ec : (c == 0)%Q) by lra. rewrite (P2 Es). specialize (R3 Eg). rewrite Ec in R3.
      assert (Er : (s_recall sc == 0)%Q) by (destruct (Qmult_integral _ _ R3); auto; contradiction).
      specialize (F3 ltac:(intro X; apply Eg; lra)). rewrite Ec in F3.
      assert (Ef : (s_f1 sc == 0)%Q). { apply (mul_zero _ (s + g)); [lra|]. intro X. apply Eg. lra. }
      rewrite Er, Ef. split; [ring|reflexivity].
    + assert (Ec : (c == 0)%Q) by lra. rewrite (R2 Eg). specialize (P3 Es). rewrite Ec in P3.
      assert (Er : (s_precision sc == 0)%Q) by (destruct (Qmult_integral _ _ P3); auto; contradiction).
      specialize (F3 ltac:(intro X; apply Es; lra)). rewrite Ec in F3.
      assert (Ef : (s_f1 sc == 0)%Q). { apply (mul_zero _ (s + g)); [lra|]. intro X. apply Es. lra. }
      rewrite Er, Ef. split; [ring|reflexivity].
    + assert (Ps : (0 < s)%Q) by lra. assert (Pg : (0 < g)%Q) by lra.
      specialize (P3 Es). specialize (R3 Eg). specialize (F3 ltac:(intro X; lra)).
      split.
      * assert (K : (s_f1 sc * (s_precision sc + s_recall sc) * (s * g * (s + g)) ==
                     2 * s_precision sc * s_recall sc * (s * g * (s + g)))%Q).
        { transitivity ((s_f1 sc * (s + g)) * ((s_precision sc * s) * g + (s_recall sc * g) * s))%Q; [ring|].
          rewrite F3, P3, R3.
          transitivity (2 * (s_precision sc * s) * (s_recall sc * g) * (s + g))%Q; [rewrite P3, R3; ring|ring]. }
        apply Qmult_inj_r in K; auto. intro X.
        destruct (Qmult_integral _ _ X) as [Y|Y]; [destruct (Qmult_integral _ _ Y); contradiction|lra].
      * intro X. assert (Ep : (s_precision sc == 0)%Q) by (unfold unit_interval in *; lra). rewrite Ep in P3.
        assert (Ec : (c == 0)%Q) by lra. rewrite Ec in F3.
        apply (mul_zero _ (s + g)); [lra|]. intro Y. lra.
Qed.

(* ---- keys ---- *)

Lemma columns_eqb cs w v : list_eqb str_eqb (columns_of cs w) (columns_of cs v) = true <-> same_columns cs w v.
Proof.
  unfold columns_of, same_columns. induction cs as [|c cs IH]; cbn; [split; auto; constructor|].
  rewrite andb_true_iff, IH, str_eqb_eq. split.
  - intros [H1 H2]. constructor; auto.
  - intro H. inversion H; auto.
Qed.

Lemma pref_eqb_eq a b : pref_eqb a b = true <-> a = b.
Proof.
  destruct a, b; cbn; try (split; [discriminate|congruence]); try tauto.
  rewrite Z.eqb_eq. split; congruence.
Qed.

Definition aw (pairs : list (word * word)) (p : word * word) : aligned_words :=
  mkAW (fst p) (snd p)
       (match w_parent (fst p) with PaWord i => RGold i | _ => RRoot end)
       (match w_parent (snd p) with
        | PaWord i => match matched pairs i with Some j => RGold j | None => RNone end
        | _ => RRoot
        end).
Lemma fill_parents_aw pairs : fill_parents pairs = map (aw pairs) pairs.
Proof. reflexivity. Qed.

Lemma matched_spec pairs i j : NoDup (map (fun p => w_ix (snd p)) pairs) ->
  (matched pairs i = Some j <-> exists p, In p pairs /\ w_ix (snd p) = i /\ w_ix (fst p) = j).
Proof.
  intro N. unfold matched. split.
  - destruct (find _ _) as [p|] eqn:F; [|discriminate]. intros [= <-]. apply find_some in F as [F1 F2].
    apply in_rev in F1. apply Z.eqb_eq in F2. eauto.
  - intros (p & I0 & E1 & E2). destruct (find (fun p => w_ix (snd p) =? i) (rev pairs)) as [q|] eqn:F.
    + apply find_some in F as [F1 F2]. apply in_rev in F1. apply Z.eqb_eq in F2. cbn. f_equal.
      assert (q = p).
      { clear - N I0 F1 E1 F2. induction pairs as [|x l IH]; [destruct I0|]. cbn in N. inversion N as [|? ? N1 N2]; subst.
        destruct I0 as [->|I0], F1 as [->|F1]; auto.
        - exfalso. apply N1. rewrite <- F2. now apply (in_map (fun p => w_ix (snd p))).
        - exfalso. apply N1. rewrite F2. now apply (in_map (fun p => w_ix (snd p))). }
      now subst.
    + exfalso. eapply find_none in F; [|apply in_rev; rewrite rev_involutive; exact I0]. cbn in F. rewrite E1, Z.eqb_refl in F. discriminate.
Qed.

Definition not_remapping (w : word) : Prop := w_parent w <> PaRemap.

Lemma heads_key pairs w v : NoDup (map (fun p => w_ix (snd p)) pairs) -> not_remapping w -> not_remapping v ->
  (a_gold_parent (aw pairs (w, v)) = a_system_parent (aw pairs (w, v)) <-> heads_paired pairs w v).
Proof.
  intros N Rw Rv. unfold aw, heads_paired, not_remapping in *. cbn [a_gold_parent a_system_parent fst snd].
  destruct (w_parent w) as [| |i] eqn:Pw; try contradiction; destruct (w_parent v) as [| |j] eqn:Pv; try contradiction.
  - tauto.
  - split.
    + destruct (matched pairs j); discriminate.
    + intros [[_ C]|(pw & pv & _ & C & _)]; discriminate.
  - split; [discriminate|]. intros [[C _]|(pw & pv & _ & _ & C)]; discriminate.
  - split.
    + destruct (matched pairs j) as [k|] eqn:M; [|discriminate]. intros [= <-].
      apply matched_spec in M as (p & I0 & E1 & E2); auto. right. exists (fst p), (snd p). rewrite E1, E2. destruct p; auto.
    + intros [[C _]|(pw & pv & I0 & [= C1] & [= C2])]; [discriminate|].
      assert (M : matched pairs j = Some i) by (apply matched_spec; auto; exists (pw, pv); cbn; auto).
      now rewrite M.
Qed.

(* ---- the metrics ---- *)

Definition key_of (m : metric) : option (word -> pref -> key) :=
  match compared m with
  | None => None
  | Some (cs, heads) => Some (if heads then head_key cs else tag_key cs)
  end.

Lemma deprel_weight_clas w : deprel_weight clas_weights w = metric_weight None MCLAS w.
Proof.
  unfold deprel_weight, metric_weight, clas_weights, functional_relations.
  generalize (nth 7 (w_columns w) []). intro k.
  change (map (fun s => (of_string s, 0%Q)) ["aux"; "case"; "cc"; "clf"; "cop"; "det"; "mark"; "punct"]%string)
    with (map (fun s => (s, 0%Q)) (map of_string ["aux"; "case"; "cc"; "clf"; "cop"; "det"; "mark"; "punct"]%string)).
  generalize (map of_string ["aux"; "case"; "cc"; "clf"; "cop"; "det"; "mark"; "punct"]%string). intro l.
  assert (G : dict_get (map (fun s => (s, 0%Q)) l) k = if existsb (str_eqb k) l then Some 0%Q else None).
  { induction l as [|s l IH]; auto. cbn. rewrite IH, (str_eqb_sym k s). destruct (str_eqb s k); auto. }
  rewrite G. destruct (existsb (str_eqb k) l); reflexivity.
Qed.

Lemma metric_alignment gold system al weights m sc : compared m <> None \/ m = MWords ->
  metric_score gold system al weights m = Some sc ->
  exists wt, sc = alignment_score (u_words gold) (u_words system) al (key_of m) wt /\
    (forall w, wt w = metric_weight weights m w).
Proof.
  intros K E. destruct m; cbn [metric_score key_of compared] in *; try (destruct K as [K|K]; [congruence|discriminate]);
    try (injection E as <-; exists one; split; [reflexivity|intro; reflexivity]).
  - injection E as <-. exists (deprel_weight clas_weights). split; [reflexivity|]. intro w. now rewrite deprel_weight_clas.
  - destruct weights as [d|]; [|discriminate]. injection E as <-. exists (deprel_weight d). split; [reflexivity|]. reflexivity.
Qed.

Lemma good_pairs m pairs : NoDup (map (fun p => w_ix (snd p)) pairs) ->
  Forall (fun p => not_remapping (fst p) /\ not_remapping (snd p)) pairs ->
  exists good, agreeing m pairs good /\
    match key_of m with
    | None => good = pairs
    | Some k => map (aw pairs) good = filter (fun a => key_eqb (k (a_gold a) (a_gold_parent a)) (k (a_system a) (a_system_parent a))) (map (aw pairs) pairs)
    end.
Proof.
  intros N R. destruct (key_of m) as [k|] eqn:K.
  - set (f := fun a => key_eqb (k (a_gold a) (a_gold_parent a)) (k (a_system a) (a_system_parent a))).
    exists (filter (fun p => f (aw pairs p)) pairs). split; [split|].
    + apply subseq_filter.
    + intros w v I0. rewrite filter_In. rewrite Forall_forall in R. destruct (R _ I0) as [Rw Rv]. cbn [fst snd] in Rw, Rv.
      unfold key_of in K. destruct (compared m) as [[cs heads]|] eqn:C; [|discriminate]. injection K as <-.
      unfold f, key_eqb. cbn [a_gold a_system aw fst snd]. destruct heads; cbn [head_key tag_key fst snd option_eqb].
      * rewrite andb_true_iff, columns_eqb, pref_eqb_eq, (heads_key pairs w v) by auto. tauto.
      * cbn [andb]. rewrite columns_eqb. split; [intros [_ H]; split; auto; discriminate|tauto].
    + subst f. generalize (aw pairs). intro h. generalize pairs. induction pairs0 as [|p l IH]; auto. cbn.
      destruct (key_eqb _ _); cbn; now rewrite IH.
  - exists pairs. split; auto. split; [apply subseq_refl|]. intros w v I0. unfold key_of in K.
    destruct (compared m) as [[cs heads]|]; [discriminate|]. tauto.
Qed.

(* the weight of a word depends on its relation only *)
Lemma weight_agrees weights m pairs good w v : agreeing m pairs good -> subseq good pairs -> In (w, v) good ->
  metric_weight weights m w = metric_weight weights m v.
Proof.
  intros [_ H] S0 I0. assert (Ip := subseq_In _ _ _ S0 I0). apply (proj1 (H _ _ Ip)) in I0.
  destruct m; try reflexivity; cbn [compared] in I0; destruct I0 as [C _]; inversion C as [|? ? E _]; subst;
    unfold metric_weight; now rewrite E.
Qed.

(* loaded files *)
Lemma loaded_ix u : loaded u -> NoDup (map w_ix (u_words u)).
Proof.
  intros [-> _]. unfold positions. apply FinFun.Injective_map_NoDup; [intros a b; lia|]. apply seq_NoDup.
Qed.
Lemma loaded_remap u : loaded u -> Forall not_remapping (u_words u).
Proof.
  intros [_ P]. eapply Forall_impl; [|exact P]. intros w H. unfold parent_valid, not_remapping in *. destruct (w_parent w); auto; discriminate.
Qed.

Lemma consecutive_nonempty a b l : consecutive a b l -> forall s, In s l -> sp_start s < sp_end s.
Proof. induction 1; intros x I0; [destruct I0|]. destruct I0 as [<-|I0]; [lia|auto]. Qed.
Lemma load_nonempty text u : load_conllu text = Ok u -> Forall nonempty_span (u_words u).
Proof.
  intro E. destruct (load_tiles _ _ E) as (T & _ & W). eapply Forall_impl; [|exact W]. intros w I0. eapply consecutive_nonempty; eauto.
Qed.
Lemma consecutive_increasing a b l : consecutive a b l -> increasing_starts l /\ Forall (fun s => a <= sp_start s) l.
Proof.
  induction 1 as [a|a b s ss E L C [IH1 IH2]]; [split; constructor|]. split; constructor; auto; try lia.
  - eapply Forall_impl; [|exact IH2]. cbv beta. intros; lia.
  - eapply Forall_impl; [|exact IH2]. cbv beta. intros; lia.
Qed.

(* what evaluate computes for two loaded files *)
Lemma evaluate_meaning lower tg ts gold system weights :
  load_conllu tg = Ok gold -> load_conllu ts = Ok system -> u_chars gold = u_chars system ->
  exists f pairs, evaluate lower gold system weights = Ok f /\ aligned lower (u_words gold) (u_words system) pairs /\
    align lower (u_words gold) (u_words system) = Ok pairs /\
    (exists sc xs, f MTokens = Some sc /\ common_spans xs (u_tokens gold) (u_tokens system) /\
       scores sc (count xs) (count (u_tokens gold)) (count (u_tokens system)) None) /\
    (exists sc xs, f MSentences = Some sc /\ common_spans xs (u_sents gold) (u_sents system) /\
       scores sc (count xs) (count (u_sents gold)) (count (u_sents system)) None) /\
    (forall m, m <> MTokens -> m <> MSentences ->
       (f m = None <-> m = MWeightedLAS /\ weights = None) /\
       forall sc, f m = Some sc ->
         exists good, agreeing m pairs good /\
           scores sc (total (fun p => metric_weight weights m (fst p)) good)
                  (total (metric_weight weights m) (u_words gold)) (total (metric_weight weights m) (u_words system))
                  (match compared m with None => None | Some _ => Some (total (fun p => metric_weight weights m (fst p)) pairs) end)).
Proof.
  intros Lg Ls C. destruct (align_ok lower (u_words gold) (u_words system)) as (pairs & EA & A);
    [eapply load_nonempty; eauto|eapply load_nonempty; eauto|].
  unfold evaluate. rewrite C, str_eqb_refl. cbn [negb raise_if bind]. rewrite EA. cbn [bind].
  eexists. exists pairs. split; [reflexivity|]. split; auto. split; auto.
  assert (Sp : forall g s, increasing_starts g -> increasing_starts s ->
     exists xs, common_spans xs g s /\ scores (spans_score g s) (count xs) (count g) (count s) None).
  { intros g s Ig Is. destruct (spans_correct_common g Ig s Is) as (xs & Cx & _). exists xs. split; auto.
    destruct (spans_score_counts g s xs Ig Is Cx) as (P & R & F & E). unfold scores. rewrite E. auto. }
  destruct (load_tiles _ _ Lg) as (Tg & Sg & _). destruct (load_tiles _ _ Ls) as (Ts & Ss & _).
  split; [|split].
  - destruct (Sp (u_tokens gold) (u_tokens system)) as (xs & Cx & Q); [eapply consecutive_increasing; eauto|eapply consecutive_increasing; eauto|].
    cbn [metric_score]. eauto.
  - destruct (Sp (u_sents gold) (u_sents system)) as (xs & Cx & Q); [eapply consecutive_increasing; eauto|eapply consecutive_increasing; eauto|].
    cbn [metric_score]. eauto.
  - intros m Nt Ns. split.
    + destruct m; cbn [metric_score]; try contradiction; try (split; [discriminate|intros [X _]; discriminate]).
      destruct weights; cbn; split; auto; try discriminate. intros [_ X]; discriminate.
    + intros sc E.
      destruct (metric_alignment gold system (fill_parents pairs) weights m sc) as (wt & -> & W).
      { destruct m; try contradiction; auto; left; discriminate. }
      { exact E. }
      destruct (aligned_matching _ _ _ _ A) as (M1 & M2 & _).
      pose proof (loaded_ix _ (load_loaded _ _ Ls)) as NI.
      assert (NP : NoDup (map (fun p => w_ix (snd p)) pairs)).
      { rewrite <- (map_map snd w_ix). eapply subseq_NoDup; [|exact NI]. now apply subseq_map. }
      assert (RP : Forall (fun p => not_remapping (fst p) /\ not_remapping (snd p)) pairs).
      { apply Forall_forall. intros p I0. pose proof (loaded_remap _ (load_loaded _ _ Lg)) as R1. pose proof (loaded_remap _ (load_loaded _ _ Ls)) as R2.
        rewrite Forall_forall in R1, R2. split; [apply R1; eapply subseq_In; [exact M1|]; now apply in_map|apply R2; eapply subseq_In; [exact M2|]; now apply in_map]. }
      destruct (good_pairs m pairs NP RP) as (good & AG & GK). exists good. split; auto.
      assert (WT : forall l, total wt l = total (metric_weight weights m) l).
      { intro l. unfold total. f_equal. apply map_ext. exact W. }
      assert (WG : forall l, qsum (fun a => wt (a_gold a)) (map (aw pairs) l) = total (fun p => metric_weight weights m (fst p)) l).
      { intro l. rewrite qsum_total, total_map. unfold total. f_equal. apply map_ext. intro p. apply W. }
      unfold alignment_score. rewrite fill_parents_aw, WG, !qsum_total, !WT.
      destruct (key_of m) as [k|] eqn:K.
      * rewrite <- GK, WG. replace (match compared m with None => None | Some _ => _ end) with (Some (total (fun p => metric_weight weights m (fst p)) pairs)).
        -- apply new_score_scores.
        -- unfold key_of in K. destruct (compared m) as [[cs h]|]; [reflexivity|discriminate].
      * subst good. replace (match compared m with None => None | Some _ => _ end) with (@None Q).
        -- apply new_score_scores.
        -- unfold key_of in K. destruct (compared m) as [[cs h]|]; [discriminate|reflexivity].
Qed.

Lemma metric_weight_nonneg weights m w : weights_nonneg weights -> (0 <= metric_weight weights m w)%Q.
Proof.
  intro H. destruct m; cbn [metric_weight]; try lra.
  - destruct (existsb _ _); lra.
  - destruct weights as [d|]; [|lra]. destruct (dict_get d _) as [q|] eqn:E; [|lra]. eapply H; eauto.
Qed.

Lemma common_le xs g s : common_spans xs g s -> (length xs <= length g)%nat /\ (length xs <= length s)%nat.
Proof. intros [N C]. split; apply NoDup_incl_length; auto; intros x I0; apply C in I0; tauto. Qed.

Lemma count_le {A B} (l : list A) (l' : list B) : (length l <= length l')%nat -> (count l <= count l')%Q.
Proof. intro H. unfold count. rewrite <- Zle_Qle. lia. Qed.
Lemma count_nonneg {A} (l : list A) : (0 <= count l)%Q.
Proof. unfold count. change 0%Q with (inject_Z 0). rewrite <- Zle_Qle. lia. Qed.

Lemma metric_dec (a b : metric) : {a = b} + {a <> b}.
Proof. decide equality. Qed.

Lemma evaluate_unit lower tg ts gold system weights f m sc :
  load_conllu tg = Ok gold -> load_conllu ts = Ok system -> weights_nonneg weights ->
  evaluate lower gold system weights = Ok f -> f m = Some sc ->
  unit_interval (s_precision sc) /\ unit_interval (s_recall sc) /\ unit_interval (s_f1 sc) /\
  (forall q, s_aligned sc = Some q -> unit_interval q) /\
  (s_f1 sc * (s_precision sc + s_recall sc) == 2 * s_precision sc * s_recall sc)%Q /\
  ((s_precision sc + s_recall sc == 0)%Q -> (s_f1 sc == 0)%Q).
Proof.
  intros Lg Ls Wn E Em.
  assert (C : u_chars gold = u_chars system).
  { unfold evaluate in E. destruct (str_eqb (u_chars gold) (u_chars system)) eqn:X; [now apply str_eqb_eq|discriminate]. }
  destruct (evaluate_meaning lower tg ts gold system weights Lg Ls C) as (f' & pairs & E' & A & _ & Mt & Ms & Mo).
  rewrite E in E'. injection E' as <-.
  assert (Span : forall g s, (exists sc0 xs, f m = Some sc0 /\ common_spans xs g s /\ scores sc0 (count xs) (count g) (count s) None) ->
     unit_interval (s_precision sc) /\ unit_interval (s_recall sc) /\ unit_interval (s_f1 sc) /\
     (forall q, s_aligned sc = Some q -> unit_interval q) /\
     (s_f1 sc * (s_precision sc + s_recall sc) == 2 * s_precision sc * s_recall sc)%Q /\
     ((s_precision sc + s_recall sc == 0)%Q -> (s_f1 sc == 0)%Q)).
  { intros g s (sc0 & xs & E0 & Cx & Q). rewrite Em in E0. injection E0 as <-. destruct (common_le _ _ _ Cx) as [L1 L2].
    eapply scores_unit; [| | | |exact Q]; [apply count_nonneg|now apply count_le|now apply count_le|discriminate]. }
  destruct (metric_dec m MTokens) as [->|Nt]; [apply (Span _ _ Mt)|].
  destruct (metric_dec m MSentences) as [->|Ns]; [apply (Span _ _ Ms)|].
  destruct (Mo m Nt Ns) as [_ Mo']. destruct (Mo' sc Em) as (good & AG & Q).
  destruct (aligned_matching _ _ _ _ A) as (M1 & M2 & _). pose proof (proj1 AG) as Sg.
  assert (T1 : (total (fun p => metric_weight weights m (fst p)) good <= total (fun p => metric_weight weights m (fst p)) pairs)%Q).
  { apply total_subseq; auto. intros. now apply metric_weight_nonneg. }
  eapply scores_unit; [| | | |exact Q].
  - apply total_nonneg. intros. now apply metric_weight_nonneg.
  - eapply Qle_trans; [exact T1|]. rewrite <- total_map. apply total_subseq; auto. intros. now apply metric_weight_nonneg.
  - assert (X : (total (fun p => metric_weight weights m (fst p)) good == total (fun p => metric_weight weights m (snd p)) good)%Q).
    { apply total_ext. intros [w v] I0. cbn [fst snd]. rewrite (weight_agrees weights m pairs good w v AG Sg I0). reflexivity. }
    rewrite X. rewrite <- (total_map (metric_weight weights m) snd). apply total_subseq.
    + eapply subseq_trans; [exact M2|]. now apply subseq_map.
    + intros. now apply metric_weight_nonneg.
  - intros x Ex. destruct (compared m); [|discriminate]. injection Ex as <-. exact T1.
Qed.

(* ---- C34 ---- *)

Lemma evaluate_error lower tg ts gold system weights :
  load_conllu tg = Ok gold -> load_conllu ts = Ok system ->
  (evaluate lower gold system weights = Err EUD <-> u_chars gold <> u_chars system) /\
  (u_chars gold = u_chars system -> exists f, evaluate lower gold system weights = Ok f).
Proof.
  intros Lg Ls. assert (K : u_chars gold = u_chars system -> exists f, evaluate lower gold system weights = Ok f).
  { intro C. destruct (evaluate_meaning lower tg ts gold system weights Lg Ls C) as (f & pairs & E & _). eauto. }
  split; auto. split.
  - intros E C. destruct (K C) as (f & E'). congruence.
  - intro C. unfold evaluate. destruct (str_eqb (u_chars gold) (u_chars system)) eqn:X; [|reflexivity].
    apply str_eqb_eq in X. contradiction.
Qed.
