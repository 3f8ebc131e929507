(* Lemmas about the choice of a label among those that are allowed. *)
From Coq Require Import String Ascii ZArith NArith Bool List Lia.
From Verif Require Import Base BaseFacts Model_Datamodel Spec_Datamodel Model_Vocab Model_Lemma Model_Layers Spec_Vocab Spec_Lemma
  Spec_Layers Proofs_Vocab Proofs_Lemma Proofs_Lemma2 Proofs_Layers Proofs_Layers2.
Import ListNotations.
Open Scope nat_scope.

Section Order.
Context {A : arith}.
Hypothesis HA : ordered A.

Lemma leb_refl (x : num A) : leb x x = true.
Proof. destruct (proj1 HA x x); assumption. Qed.
Lemma leb_flip (x y : num A) : leb x y = false -> leb y x = true.
Proof. intros H. destruct (proj1 HA x y); [congruence|assumption]. Qed.
Lemma leb_below (x y z : num A) : leb x y = true -> leb z y = false -> leb z x = false.
Proof. intros H1 H2. destruct (leb z x) eqn:E; [|reflexivity]. rewrite (proj2 HA z x y E H1) in H2. discriminate. Qed.

Lemma argmax_from_spec : forall (v : list (num A)) best at_ i,
  (argmax_from best at_ i v = at_ /\ forall j y, nth_error v j = Some y -> leb y best = true) \/
  (exists j x, argmax_from best at_ i v = i + j /\ nth_error v j = Some x /\ leb x best = false /\
     forall j' y, nth_error v j' = Some y -> leb y x = true /\ (j' < j -> leb x y = false)).
Proof.
  induction v as [|y v IH]; intros best at_ i; cbn [argmax_from].
  - left. split; [reflexivity|]. intros [|j] y; discriminate.
  - destruct (leb y best) eqn:E.
    + destruct (IH best at_ (S i)) as [[E1 H1]|(j & x & E1 & Hx & Hb & H1)].
      * left. split; [exact E1|]. intros [|j] z Hz; [injection Hz as <-; exact E|]. exact (H1 j z Hz).
      * right. exists (S j), x. split; [rewrite E1; lia|]. split; [exact Hx|]. split; [exact Hb|].
        intros [|j'] z Hz.
        -- injection Hz as <-. split.
           ++ apply leb_flip. exact (leb_below _ _ _ E Hb).
           ++ intros _. exact (leb_below _ _ _ E Hb).
        -- destruct (H1 j' z Hz) as [K1 K2]. split; [exact K1|]. intros L. apply K2. lia.
    + destruct (IH y i (S i)) as [[E1 H1]|(j & x & E1 & Hx & Hb & H1)].
      * right. exists 0, y. split; [rewrite E1; lia|]. split; [reflexivity|]. split; [exact E|].
        intros [|j'] z Hz; [injection Hz as <-; split; [apply leb_refl|lia]|]. split; [exact (H1 j' z Hz)|lia].
      * right. exists (S j), x. split; [rewrite E1; lia|]. split; [exact Hx|]. split.
        { apply (leb_below best y x); [apply leb_flip; exact E|exact Hb]. }
        intros [|j'] z Hz.
        -- injection Hz as <-. split; [apply leb_flip; exact Hb|]. intros _. exact Hb.
        -- destruct (H1 j' z Hz) as [K1 K2]. split; [exact K1|]. intros L. apply K2. lia.
Qed.

Lemma argmax_spec (v : list (num A)) : v <> [] -> exists x, nth_error v (argmax v) = Some x /\
  forall j y, nth_error v j = Some y -> leb y x = true /\ (j < argmax v -> leb x y = false).
Proof.
  destruct v as [|x v]; [congruence|]. intros _. cbn [argmax].
  destruct (argmax_from_spec v x 0 1) as [[E H]|(j & y & E & Hy & Hb & H)]; rewrite E.
  - exists x. split; [reflexivity|]. intros [|j] y Hy; [injection Hy as <-; split; [apply leb_refl|lia]|]. split; [exact (H j y Hy)|lia].
  - exists y. split; [exact Hy|]. intros [|j'] z Hz.
    + injection Hz as <-. split; [apply leb_flip; exact Hb|]. intros _. exact Hb.
    + destruct (H j' z Hz) as [K1 K2]. split; [exact K1|]. intros L. apply K2. lia.
Qed.

Lemma masked_nth (m : list bool) (v : list (num A)) j : nth_error (masked m v) j =
  match nth_error m j, nth_error v j with Some b, Some x => Some (if b then x else lowest) | _, _ => None end.
Proof. apply nth_map2. Qed.

Lemma masked_choice (m : list bool) (v : list (num A)) : length m = length v ->
  (forall x, In x v -> leb x lowest = false) -> In true m -> best_allowed m v (argmax (masked m v)).
Proof.
  intros L Hv Hm. apply In_nth_error in Hm as (j0 & Hj0).
  assert (exists x0, nth_error v j0 = Some x0) as (x0 & Hx0).
  { destruct (nth_error v j0) as [x0|] eqn:E; [eauto|]. apply nth_error_None in E. assert (j0 < length m) by (apply nth_error_Some; congruence). lia. }
  assert (nth_error (masked m v) j0 = Some x0) as H0 by now rewrite masked_nth, Hj0, Hx0.
  destruct (argmax_spec (masked m v)) as (x & Hx & Hb); [intros E; rewrite E in H0; destruct j0; discriminate|].
  rewrite masked_nth in Hx. destruct (nth_error m (argmax (masked m v))) as [b|] eqn:Em; [|discriminate].
  destruct (nth_error v (argmax (masked m v))) as [y|] eqn:Ey; [|discriminate]. injection Hx as <-.
  assert (b = true) as ->.
  { destruct b; [reflexivity|]. destruct (Hb j0 x0 H0) as [K _]. rewrite (Hv x0 (nth_error_In _ _ Hx0)) in K. discriminate. }
  split; [exact Em|]. exists y. split; [exact Ey|]. intros j z Hj Hz. apply Hb. now rewrite masked_nth, Hj, Hz.
Qed.

Lemma masked_none (m : list bool) (v : list (num A)) : (forall b, In b m -> b = false) -> argmax (masked m v) = 0.
Proof.
  intros Hm. destruct (masked m v) as [|z w] eqn:E; [reflexivity|].
  destruct (argmax_spec (masked m v)) as (x & Hx & Hb); [congruence|]. rewrite <- E.
  destruct (argmax (masked m v)) as [|k] eqn:Ek; [reflexivity|]. exfalso.
  assert (forall j y, nth_error (masked m v) j = Some y -> y = lowest) as K.
  { intros j y. rewrite masked_nth. destruct (nth_error m j) as [b|] eqn:Eb; [|discriminate]. destruct (nth_error v j); [|discriminate].
    rewrite (Hm b (nth_error_In _ _ Eb)). congruence. }
  destruct (Hb 0 z) as [_ F]; [now rewrite E|]. specialize (F (Nat.lt_0_succ k)).
  rewrite (K _ _ Hx), (K 0 z) in F by now rewrite E. rewrite leb_refl in F. discriminate.
Qed.
End Order.

(* ---------- lemma rules ---------- *)

Lemma lemma_choice (A : arith) lower threshold ds rules x m (v : list (num A)) : ordered A ->
  build_rules lower threshold ds = Ok rules -> token_wf (dt_tok x) -> mask_extractor lower rules x = Ok m ->
  length v = length (snd rules) -> (forall y, In y v -> leb y lowest = false) ->
  exists r t, nth_error (snd rules) (argmax (masked m v)) = Some r /\
    interpret_rule lower (snd rules) x (Z.of_nat (argmax (masked m v))) = Ok (mkDT (dt_doc x) t) /\ same_but_lemma (dt_tok x) t /\
    (In true m -> best_allowed m v (argmax (masked m v)) /\
       exists p, lower (dt_text x) = p ++ word_suffix r /\ tlemma t = Some (p ++ lemma_suffix r)) /\
    (~ In true m -> argmax (masked m v) = 0).
Proof.
  intros HA Hb Hwf Hm Hv Hl. destruct (mask_meaning lower threshold ds rules x Hb) as (m' & Em & Lm & Hmask & _).
  rewrite Hm in Em. injection Em as <-. set (k := argmax (masked m v)).
  destruct (build_rules_vocabulary lower threshold ds rules Hb) as (labels & mc & _ & _ & H0 & _).
  assert (~ In true m -> k = 0) as HN.
  { intros N. apply masked_none; [exact HA|]. intros [|] Hi; [contradiction|reflexivity]. }
  assert (In true m -> best_allowed m v k) as HY.
  { intros Y. apply masked_choice; [exact HA|lia|exact Hl|exact Y]. }
  assert (exists r, nth_error (snd rules) k = Some r) as (r & Hr).
  { destruct (in_dec Bool.bool_dec true m) as [Y|N].
    - destruct (HY Y) as (Ek & _). assert (k < length m) by (apply nth_error_Some; congruence).
      destruct (nth_error (snd rules) k) as [r|] eqn:E; [eauto|]. apply nth_error_None in E. lia.
    - rewrite (HN N). eauto. }
  destruct (interpret_rule_ok lower (snd rules) x (Z.of_nat k) r Hwf) as (t & Et & St & D); [lia|now rewrite Nat2Z.id|].
  exists r, t. split; [exact Hr|]. split; [exact Et|]. split; [exact St|]. split; [|exact HN].
  intros Y. split; [exact (HY Y)|]. destruct D as [D|[D _]]; [exact D|]. exfalso. destruct (HY Y) as (Ek & _).
  destruct (Hmask k Ek) as (r' & Er & Hend). rewrite Hr in Er. injection Er as <-. contradiction.
Qed.

(* ---------- networks ---------- *)

Lemma network_choice {A : arith} {W} (n : net A W) b outs i s t w o ti name heads k allowed ls labels : ordered A ->
  predict n b = Ok outs -> nth_error b i = Some s -> nth_error s t = Some w -> nth_error outs i = Some o ->
  nth_error (n_tasks n) ti = Some (DenseTask name heads (Some (k, allowed))) -> nth_error o ti = Some ls -> nth_error ls t = Some labels ->
  (forall h v, In h heads -> length (h v) = length (allowed w) /\ forall x, In x (h v) -> leb x lowest = false) -> In true (allowed w) ->
  exists v, Forall2 (fun h l => best_allowed (allowed w) (h v) l) heads labels.
Proof.
  intros HA E Hi Ht Ho Hti Hls Hlab Hh Hw. unfold predict in E.
  destruct (mapM_nth _ _ _ _ _ E Hi) as (o' & Ho' & Eo). rewrite Ho in Ho'. injection Ho' as <-.
  unfold predict_sentence in Eo. destruct (mapM_nth _ _ _ _ _ Eo Hti) as (ls' & Hls' & El). rewrite Hls in Hls'. injection Hls' as <-.
  cbn [task_output] in El. destruct (dict_get _ name) as [vs|]; cbn [of_option bind] in El; [|discriminate]. injection El as <-.
  assert (t < length s) as Lt by (apply nth_error_Some; congruence).
  rewrite nth_map2, nth_pad_to, nth_error_map, Ht in Hlab by now rewrite map_length. cbn [option_map] in Hlab.
  destruct (nth_error vs t) as [v|]; [|discriminate]. injection Hlab as <-. exists v. unfold dense_output.
  clear -HA Hh Hw. induction heads as [|h heads IH]; cbn [map]; constructor.
  - destruct (Hh h v (or_introl eq_refl)) as [L F]. apply masked_choice; [exact HA|now symmetry|exact F|exact Hw].
  - apply IH. intros h' v' H. apply Hh. now right.
Qed.

Lemma gold_label lower threshold ds rules x r : build_rules lower threshold ds = Ok rules -> token_wf (dt_tok x) -> teaches lower x r ->
  exists i m, rule_label lower (fst rules) x = Ok (Z.of_nat i) /\ mask_extractor lower rules x = Ok m /\
    (In r (snd rules) -> nth_error m i = Some true) /\ (~ In r (snd rules) -> i = 0).
Proof.
  intros H W T. destruct (in_dec (fun a b => Bool.reflect_dec _ _ (Bool.iff_reflect _ _ (iff_sym (rule_eqb_eq a b)))) r (snd rules)) as [Hi|Hn].
  - destruct T as (l & El & Hl). destruct (gold_selectable lower threshold ds rules x r l H W El (ex_intro _ l (conj El Hl)) Hi)
      as (i & m & t & E1 & _ & E2 & E3 & _). exists i, m. do 2 (split; [assumption|]). split; [intros _; exact E3|contradiction].
  - destruct (mask_meaning lower threshold ds rules x H) as (m & Em & _). exists 0, m. split; [|split; [exact Em|]; split; [contradiction|reflexivity]].
    destruct (build_rules_labels lower threshold ds rules H) as (labels & _ & _ & E & D).
    unfold rule_label. apply suffix_transformation_ok in T. rewrite T. cbn [bind]. unfold gget_default.
    destruct (gget rule_eqb (fst rules) r) as [i|] eqn:G; [|reflexivity]. exfalso. rewrite E in G.
    apply (obj2id_spec rule_eqb rule_equiv (snd rules) D) in G. destruct G as (_ & k & Hk & Ek). apply rule_eqb_eq in Ek. subst k.
    apply Hn. exact (nth_error_In _ _ Hk).
Qed.
