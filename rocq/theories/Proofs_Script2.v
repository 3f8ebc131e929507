(* Weights and scores. *)
From Coq Require Import String Ascii ZArith NArith QArith Bool Lia Lqa List.
From Verif Require Import Base BaseFacts Model_Datamodel Model_Conllu Spec_Datamodel Spec_Conllu Proofs_Conllu3
  Model_UDEval Spec_UDEval Proofs_UDEval Proofs_UDEval2 Proofs_UDEval3 Proofs_UDEval4 Proofs_UDEval5 Proofs_UDEval6 Proofs_UDEval7
  Model_Script Spec_Script Proofs_Script.
Import ListNotations.
Open Scope Z_scope.

(* ---- scores of proportional weights ---- *)

Lemma ratio_scale c a b a' b' : ~ (c == 0)%Q -> (a' == c * a)%Q -> (b' == c * b)%Q -> (ratio a' b' == ratio a b)%Q.
Proof.
  intros N Ea Eb. apply (fraction_unique a' b'); [apply ratio_fraction|]. destruct (ratio_fraction a b) as [H1 H2]. split.
  - intro Z. apply H1. rewrite Eb in Z. apply Qmult_integral in Z. tauto.
  - intro Z. assert (Nb : ~ (b == 0)%Q) by (intro X; apply Z; rewrite Eb, X; ring).
    specialize (H2 Nb). rewrite Ea, Eb. transitivity (c * (ratio a b * b))%Q; [ring|]. rewrite H2. reflexivity.
Qed.

Lemma total_scale {A} (c : Q) (f g : A -> Q) l : (forall x, In x l -> (g x == c * f x)%Q) -> (total g l == c * total f l)%Q.
Proof.
  induction l as [|x l IH]; intro H; [cbn; ring|]. rewrite !total_cons, IH, (H x).
  - ring.
  - left; auto.
  - intros y I0. apply H. right; auto.
Qed.

Lemma new_score_scale c g s k a g' s' k' a' : ~ (c == 0)%Q -> (g' == c * g)%Q -> (s' == c * s)%Q -> (k' == c * k)%Q ->
  match a, a' with Some x, Some x' => (x' == c * x)%Q | None, None => True | _, _ => False end ->
  same_score (new_score g' s' k' a') (new_score g s k a).
Proof.
  intros N Eg Es Ek Ea. unfold same_score, new_score. cbn [s_precision s_recall s_f1 s_aligned].
  split; [eapply ratio_scale; eauto|]. split; [eapply ratio_scale; eauto|]. split.
  - apply (ratio_scale c); auto; [rewrite Ek|rewrite Eg, Es]; ring.
  - destruct a, a'; try contradiction; cbn [option_map]; auto. eapply ratio_scale; eauto.
Qed.

Lemma alignment_score_scale c gold system al k wt wt' : ~ (c == 0)%Q ->
  (forall w, In w gold \/ In w system -> (wt' w == c * wt w)%Q) -> (forall a, In a al -> In (a_gold a) gold) ->
  same_score (alignment_score gold system al k wt') (alignment_score gold system al k wt).
Proof.
  intros N H I0. unfold alignment_score.
  assert (Hg : (qsum wt' gold == c * qsum wt gold)%Q) by (rewrite !qsum_total; apply total_scale; auto).
  assert (Hs : (qsum wt' system == c * qsum wt system)%Q) by (rewrite !qsum_total; apply total_scale; auto).
  assert (Ha : forall l, (forall a, In a l -> In a al) -> (qsum (fun a => wt' (a_gold a)) l == c * qsum (fun a => wt (a_gold a)) l)%Q).
  { intros l S0. rewrite !qsum_total. apply total_scale. intros a Ia. apply H. left. auto. }
  destruct k as [k|].
  - apply (new_score_scale c); auto. apply Ha. intros a Ia. apply filter_In in Ia. tauto.
  - apply (new_score_scale c); auto.
Qed.

Lemma fill_parents_gold lower gold system pairs a : aligned lower gold system pairs -> In a (fill_parents pairs) -> In (a_gold a) gold.
Proof.
  intros A I0. destruct (aligned_matching _ _ _ _ A) as (M1 & _ & _). rewrite fill_parents_aw in I0. apply in_map_iff in I0.
  destruct I0 as (p & <- & Ip). cbn [aw a_gold]. eapply subseq_In; [exact M1|]. now apply in_map.
Qed.

(* a file that is evaluated *)
Lemma evaluate_inv lower tg ts gold system weights f :
  load_conllu tg = Ok gold -> load_conllu ts = Ok system -> evaluate lower gold system weights = Ok f ->
  u_chars gold = u_chars system /\ exists pairs, align lower (u_words gold) (u_words system) = Ok pairs /\
    aligned lower (u_words gold) (u_words system) pairs /\ f = metric_score gold system (fill_parents pairs) weights.
Proof.
  intros Lg Ls E. unfold evaluate in E. destruct (str_eqb (u_chars gold) (u_chars system)) eqn:X; [|discriminate].
  split; [now apply str_eqb_eq|]. cbn [negb raise_if bind] in E.
  destruct (align_ok lower (u_words gold) (u_words system)) as (pairs & EA & A); [eapply load_nonempty; eauto|eapply load_nonempty; eauto|].
  rewrite EA in E. injection E as <-. exists pairs. auto.
Qed.

Definition las_key : option (word -> pref -> key) := Some (head_key [7%nat]).

Lemma same_score_refl a : same_score a a.
Proof. unfold same_score. repeat (split; [reflexivity|]). destruct (s_aligned a); reflexivity || exact I. Qed.

Lemma deprel_weight_given d w : given d (relation_of w) (deprel_weight d w).
Proof. unfold given, deprel_weight, relation_of. destruct (dict_get d _); auto. Qed.

Lemma given_unique d r q q' : given d r q -> given d r q' -> q = q'.
Proof. intros [H|[H ->]] [H'|[H' ->]]; congruence. Qed.

Section Files.
Variables (lower : str -> str) (tg ts : str) (gold system : ud).
Hypotheses (Lg : load_conllu tg = Ok gold) (Ls : load_conllu ts = Ok system).

Lemma weights_matter_not d f : evaluate lower gold system None = Ok f ->
  f MWeightedLAS = None /\
  exists f', evaluate lower gold system (Some d) = Ok f' /\ f' MWeightedLAS <> None /\ forall m, m <> MWeightedLAS -> f' m = f m.
Proof.
  intro E. destruct (evaluate_inv _ _ _ _ _ _ _ Lg Ls E) as (C & pairs & EA & A & ->). split; [reflexivity|].
  exists (metric_score gold system (fill_parents pairs) (Some d)). split.
  - unfold evaluate. rewrite C, str_eqb_refl, EA. reflexivity.
  - split; [discriminate|]. intros m N. destruct m; try reflexivity. contradiction.
Qed.

Lemma weights_like_las d f : evaluate lower gold system (Some d) = Ok f ->
  (forall w, In w (u_words gold) \/ In w (u_words system) -> exists q, given d (relation_of w) q /\ (q == 1)%Q) ->
  exists a b, f MWeightedLAS = Some a /\ f MLAS = Some b /\ same_score a b.
Proof.
  intros E H. destruct (evaluate_inv _ _ _ _ _ _ _ Lg Ls E) as (C & pairs & EA & A & ->). cbn [metric_score option_map].
  eexists. eexists. split; [reflexivity|]. split; [reflexivity|]. apply (alignment_score_scale 1).
  - intro X; discriminate.
  - intros w I0. destruct (H w I0) as (q & G & Q). rewrite (given_unique _ _ _ _ (deprel_weight_given d w) G), Q. reflexivity.
  - intros a. now apply (fill_parents_gold lower _ (u_words system)).
Qed.

Lemma weights_like_clas d f : evaluate lower gold system (Some d) = Ok f ->
  (forall w, In w (u_words gold) \/ In w (u_words system) ->
     exists q, given d (relation_of w) q /\ (In (relation_of w) functional_relations -> (q == 0)%Q) /\
       (~ In (relation_of w) functional_relations -> (q == 1)%Q)) ->
  exists a b, f MWeightedLAS = Some a /\ f MCLAS = Some b /\ same_score a b.
Proof.
  intros E H. destruct (evaluate_inv _ _ _ _ _ _ _ Lg Ls E) as (C & pairs & EA & A & ->). cbn [metric_score option_map].
  eexists. eexists. split; [reflexivity|]. split; [reflexivity|]. apply (alignment_score_scale 1).
  - intro X; discriminate.
  - intros w I0. destruct (H w I0) as (q & G & Q0 & Q1). rewrite (given_unique _ _ _ _ (deprel_weight_given d w) G).
    rewrite (deprel_weight_clas w). cbn [metric_weight]. fold (relation_of w).
    destruct (existsb (str_eqb (relation_of w)) functional_relations) eqn:X.
    + rewrite Q0; [reflexivity|]. apply existsb_exists in X. destruct X as (y & Iy & Ey). apply str_eqb_eq in Ey. now subst.
    + rewrite Q1; [reflexivity|]. intro Iw. assert (existsb (str_eqb (relation_of w)) functional_relations = true); [|congruence].
      apply existsb_exists. exists (relation_of w). split; auto. apply str_eqb_refl.
  - intros a. now apply (fill_parents_gold lower _ (u_words system)).
Qed.

Lemma weights_scale c d d' f f' : evaluate lower gold system (Some d) = Ok f -> evaluate lower gold system (Some d') = Ok f' ->
  ~ (c == 0)%Q ->
  (forall w, In w (u_words gold) \/ In w (u_words system) ->
     exists q q', dict_get d (relation_of w) = Some q /\ dict_get d' (relation_of w) = Some q' /\ (q' == c * q)%Q) ->
  exists a b, f' MWeightedLAS = Some a /\ f MWeightedLAS = Some b /\ same_score a b.
Proof.
  intros E E' N H. destruct (evaluate_inv _ _ _ _ _ _ _ Lg Ls E) as (C & pairs & EA & A & ->).
  destruct (evaluate_inv _ _ _ _ _ _ _ Lg Ls E') as (_ & pairs' & EA' & _ & ->). rewrite EA in EA'. injection EA' as <-.
  cbn [metric_score option_map]. eexists. eexists. split; [reflexivity|]. split; [reflexivity|]. apply (alignment_score_scale c); auto.
  - intros w I0. destruct (H w I0) as (q & q' & G & G' & Q). unfold deprel_weight. fold (relation_of w). now rewrite G, G'.
  - intros a. now apply (fill_parents_gold lower _ (u_words system)).
Qed.

End Files.

(* ---- relations ---- *)

Lemma split_base s : base_relation s (hd [] (split 58%N s)).
Proof.
  induction s as [|c s [IH IHn]].
  - cbn. split; auto.
  - cbn [split]. destruct (N.eqb_spec c 58%N) as [->|N].
    + cbn [hd]. split; auto. right. exists s. reflexivity.
    + pose proof (split_nonempty 58%N s) as X. destruct (split 58%N s) as [|p ps]; [congruence|]. cbn [hd] in *. split.
      * destruct IH as [->|(rest & ->)]; [auto|]. right. exists rest. reflexivity.
      * intros [->|I0]; auto.
Qed.

Lemma words_relations gs : forall at_,
  Forall2 (fun f c => base_relation (cell c 7) (nth 7 (snd (fst f)) [])) (expected_words at_ gs) (word_cells gs).
Proof.
  induction gs as [|g gs IH]; intro at_; [constructor|]. cbn [expected_words]. unfold word_cells. cbn [flat_map]. rewrite map_app.
  apply Forall2_app; [|apply IH]. induction (words_of g) as [|w ws IHw]; cbn [map]; constructor; auto.
  cbn [fst snd kept_columns nth]. apply split_base.
Qed.

Lemma word_cells_concat gss : word_cells (concat gss) = file_words gss.
Proof.
  unfold file_words. induction gss as [|gs gss IH]; [reflexivity|]. cbn [concat map]. rewrite <- IH. unfold word_cells.
  rewrite flat_map_app, map_app. reflexivity.
Qed.

Lemma loaded_relations text u : load_conllu text = Ok u ->
  exists gss, ud_lines (file_lines text) gss /\
    Forall2 (fun w c => base_relation (cell c 7) (relation_of w)) (u_words u) (file_words gss).
Proof.
  intro E. destruct (load_text _ _ E) as (gss & L & _ & _ & _ & W). exists gss. split; auto.
  pose proof (words_relations (concat gss) 0) as X. rewrite <- W, word_cells_concat in X. clear - X.
  remember (map word_facts (u_words u)) as l eqn:El. revert El. generalize (u_words u). induction X as [|f c l cs H X IH]; intros ws El.
  - destruct ws; [constructor|discriminate].
  - destruct ws as [|w ws]; [discriminate|]. cbn [map] in El. injection El as -> El. constructor; auto.
Qed.

Lemma loaded_no_colon text u w : load_conllu text = Ok u -> In w (u_words u) -> ~ In 58%N (relation_of w).
Proof.
  intros E I0. destruct (loaded_relations _ _ E) as (gss & _ & F). clear E. induction F as [|x c ws cs [_ H] F IH]; [destruct I0|].
  destruct I0 as [->|I0]; auto.
Qed.

(* a weight for a relation with a colon is the weight of no word *)
Lemma subtype_ignored lower tg ts gold system d k q f f' m :
  load_conllu tg = Ok gold -> load_conllu ts = Ok system -> In 58%N k ->
  evaluate lower gold system (Some d) = Ok f -> evaluate lower gold system (Some (dict_set d k q)) = Ok f' -> f' m = f m.
Proof.
  intros Lg Ls K E E'. destruct (evaluate_inv _ _ _ _ _ _ _ Lg Ls E) as (C & pairs & EA & A & ->).
  destruct (evaluate_inv _ _ _ _ _ _ _ Lg Ls E') as (_ & pairs' & EA' & _ & ->). rewrite EA in EA'. injection EA' as <-.
  destruct m; try reflexivity. cbn [metric_score option_map]. f_equal.
  assert (X : forall w, In w (u_words gold) \/ In w (u_words system) -> deprel_weight (dict_set d k q) w = deprel_weight d w).
  { intros w I0. assert (N : ~ In 58%N (relation_of w)) by (destruct I0 as [I0|I0]; [exact (loaded_no_colon _ _ _ Lg I0)|exact (loaded_no_colon _ _ _ Ls I0)]).
    unfold deprel_weight. fold (relation_of w). rewrite dict_get_set_other; auto; intros ->; contradiction. }
  assert (S0 : forall A0 (h h' : A0 -> Q) l, (forall x, In x l -> h x = h' x) -> qsum h l = qsum h' l).
  { intros A0 h h' l. induction l as [|x l IH]; intro H; [reflexivity|]. cbn. rewrite (H x) by (left; auto). f_equal.
    apply IH. intros y Iy. apply H. right; auto. }
  assert (G : forall a, In a (fill_parents pairs) -> deprel_weight (dict_set d k q) (a_gold a) = deprel_weight d (a_gold a)).
  { intros a Ia. apply X. left. eapply fill_parents_gold; eauto. }
  unfold alignment_score. f_equal.
  - apply S0. auto.
  - apply S0. auto.
  - apply S0. intros a Ia. apply filter_In in Ia. apply G. tauto.
  - f_equal. apply S0. auto.
Qed.

(* the weights of all words, from the text *)
Lemma weights_by_relation lower tg ts gold system d f :
  load_conllu tg = Ok gold -> load_conllu ts = Ok system -> evaluate lower gold system (Some d) = Ok f ->
  exists gg gs pairs good wt sc,
    ud_lines (file_lines tg) gg /\ ud_lines (file_lines ts) gs /\
    Forall2 (fun w c => exists r, base_relation (cell c 7) r /\ given d r (wt w)) (u_words gold) (file_words gg) /\
    Forall2 (fun w c => exists r, base_relation (cell c 7) r /\ given d r (wt w)) (u_words system) (file_words gs) /\
    aligned lower (u_words gold) (u_words system) pairs /\ agreeing MWeightedLAS pairs good /\
    f MWeightedLAS = Some sc /\
    scores sc (total (fun p => wt (fst p)) good) (total wt (u_words gold)) (total wt (u_words system))
           (Some (total (fun p => wt (fst p)) pairs)).
Proof.
  intros Lg Ls E. destruct (evaluate_inv _ _ _ _ _ _ _ Lg Ls E) as (C & _).
  destruct (evaluate_meaning lower _ _ _ _ (Some d) Lg Ls C) as (f1 & pairs & E1 & A & _ & _ & _ & M). rewrite E in E1. injection E1 as <-.
  destruct (M MWeightedLAS) as [Mn Ms]; try discriminate.
  destruct (f MWeightedLAS) as [sc|] eqn:F; [|destruct (proj1 Mn eq_refl); discriminate].
  destruct (Ms sc eq_refl) as (good & AG & Q).
  destruct (loaded_relations _ _ Lg) as (gg & Ug & Fg). destruct (loaded_relations _ _ Ls) as (gs & Us & Fs).
  exists gg, gs, pairs, good, (metric_weight (Some d) MWeightedLAS), sc.
  assert (X : forall l cs, Forall2 (fun w c => base_relation (cell c 7) (relation_of w)) l cs ->
    Forall2 (fun w c => exists r, base_relation (cell c 7) r /\ given d r (metric_weight (Some d) MWeightedLAS w)) l cs).
  { induction 1 as [|w c l cs H F0 IH]; constructor; auto. exists (relation_of w). split; auto. cbn [metric_weight]. fold (relation_of w).
    unfold given. destruct (dict_get d (relation_of w)); auto. }
  repeat (split; auto).
Qed.
