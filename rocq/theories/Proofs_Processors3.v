(* Proofs about composed processors and context management. *)
From Coq Require Import String Ascii ZArith NArith Bool Lia Permutation Sorted List.
From Verif Require Import Base BaseFacts Model_Datamodel Spec_Datamodel Model_Processors Spec_Processors
  Proofs_Processors Proofs_Processors2.
Import ListNotations.
Open Scope nat_scope.

(* induction over nested processors *)
Lemma processor_ind' (P : processor -> Prop) :
  (forall p, P (StubTagger p)) -> (forall r, P (StubParser r)) -> (forall m, P (UDPipe m)) ->
  (forall ps, Forall P ps -> P (ComplexProcessor ps)) -> forall p, P p.
Proof.
  intros H1 H2 H3 H4. fix IH 1. intros [p|r|m|ps]; [apply H1|apply H2|apply H3|]. apply H4.
  induction ps as [|p ps IHps]; constructor; auto.
Qed.

Lemma managed_ind' (P : managed -> Prop) :
  (forall n a b, P (Single n a b)) -> (forall ms, Forall P ms -> P (Several ms)) -> forall m, P m.
Proof.
  intros H1 H2. fix IH 1. intros [n a b|ms]; [apply H1|]. apply H2. induction ms; constructor; auto.
Qed.

(* ------------------------------------------------------------------ *)
(* composition *)

Lemma process_app ps qs it : process (ComplexProcessor (ps ++ qs)) it = process (ComplexProcessor qs) (process (ComplexProcessor ps) it).
Proof. cbn [process]. apply fold_left_app. Qed.

Lemma process_cons p ps it : process (ComplexProcessor (p :: ps)) it = process (ComplexProcessor ps) (process p it).
Proof. reflexivity. Qed.

Lemma chained_iff ps : forall it out, chained ps it out <-> out = process (ComplexProcessor ps) it.
Proof.
  induction ps as [|p ps IH]; intros it out; split.
  - intros H. inversion H; auto.
  - intros ->. constructor.
  - intros H. inversion H as [|? ? ? ? H']; subst. apply IH in H'. auto.
  - intros ->. constructor. apply IH. auto.
Qed.

Lemma process_singles p : forall it, process p it = process (ComplexProcessor (single_processors p)) it.
Proof.
  induction p as [p|r|m|ps IH] using processor_ind'; intros it; try reflexivity.
  cbn [single_processors]. revert it. induction IH as [|p ps Hp F IHps]; intros it; [reflexivity|].
  rewrite process_cons, Hp. cbn [map concat]. rewrite process_app. apply IHps.
Qed.

Theorem composition ps qs rs it :
  (forall out, chained ps it out <-> out = process (ComplexProcessor ps) it) /\
  process (ComplexProcessor (ps ++ ComplexProcessor qs :: rs)) it = process (ComplexProcessor (ps ++ qs ++ rs)) it /\
  (forall p, process p it = process (ComplexProcessor (single_processors p)) it).
Proof.
  split; [apply chained_iff|]. split; [|intros p; apply process_singles].
  rewrite !process_app. rewrite process_cons. auto.
Qed.

(* ------------------------------------------------------------------ *)
(* one document out for one document in *)

Definition preserves (f : document -> result document) : Prop :=
  forall d d', built d -> f d = Ok d' -> built d' /\ same_layout d d'.

Lemma same_layout_refl d : same_layout d d.
Proof. split; auto. split; auto. induction (dtokens d); constructor; auto. repeat split. Qed.

Lemma same_layout_trans a b c : same_layout a b -> same_layout b c -> same_layout a c.
Proof.
  intros (T1 & S1 & F1) (T2 & S2 & F2). split; [congruence|]. split; [congruence|].
  revert F2. generalize (dtokens c) as l. induction F1 as [|x y l1 l2 H F1 IH]; intros l F2; inversion F2; subst; constructor; auto.
  unfold same_word in *. intuition congruence.
Qed.

(* what one call of next() on the result does with what one call on the input gives *)
Fixpoint single_step (p : processor) (d : document) : result document :=
  match p with
  | StubTagger p => stub_tag p d
  | StubParser r => stub_parse r d
  | UDPipe run => ud_process run d
  | ComplexProcessor ps => fold_left (fun r q => bind r (single_step q)) ps (Ok d)
  end.

Definition step (p : processor) (o : outcome document) : outcome document :=
  match o with
  | Item d => match single_step p d with Ok d' => Item d' | Err e => Raise e end
  | Stop => Stop
  | Raise e => Raise e
  end.

Lemma steps_err ps e : fold_left (fun r q => bind r (single_step q)) ps (Err e) = Err e.
Proof. induction ps; auto. Qed.

Lemma process_step p : forall it k, process p it k = step p (it k).
Proof.
  induction p as [p|r|m|ps IH] using processor_ind'; intros it k; try reflexivity.
  cbn [process]. revert it. induction IH as [|p ps Hp F IHps]; intros it; cbn [fold_left].
  - unfold step. cbn [single_step fold_left]. destruct (it k); auto.
  - rewrite IHps. unfold step. rewrite Hp. unfold step at 1. destruct (it k) as [d| |e]; auto. cbn [single_step fold_left bind].
    destruct (single_step p d); auto. rewrite steps_err. auto.
Qed.

Lemma single_step_preserves p : models_keep_words p -> preserves (single_step p).
Proof.
  unfold models_keep_words. induction p as [p|r|m|ps IH] using processor_ind'; intros K d d' B E; cbn [single_step] in E.
  - destruct (stub_tagger p d B) as (x & Ex & Bx & L & _). assert (x = d') by congruence. subst. auto.
  - destruct (stub_parser r d B) as (x & Ex & Bx & L & _). assert (x = d') by congruence. subst. auto.
  - cbn [single_processors] in K. inversion K as [|? ? K1 _]; subst.
    destruct (ud_aligned m d B K1) as [(x & Ex & Bx & L & _)|(e & s & ws & Ex & _)]; [|congruence].
    assert (x = d') by congruence. subst. auto.
  - cbn [single_processors] in K. revert d B E. induction IH as [|p ps Hp F IHps]; intros d B E; cbn [fold_left bind] in E.
    + injection E as <-. split; auto. apply same_layout_refl.
    + cbn [map concat] in K. apply Forall_app in K. destruct K as [K1 K2].
      destruct (single_step p d) as [x|] eqn:Ex; [|rewrite steps_err in E; discriminate]. destruct (Hp K1 d x B Ex) as [Bx Lx].
      destruct (IHps K2 x Bx E) as [B' L']. split; auto. eapply same_layout_trans; eauto.
Qed.

Lemma single_step_succeeds p : no_models p -> forall d, built d -> exists d', single_step p d = Ok d'.
Proof.
  unfold no_models. induction p as [p|r|m|ps IH] using processor_ind'; intros K d B; cbn [single_step].
  - destruct (stub_tagger p d B) as (x & Ex & _). eauto.
  - destruct (stub_parser r d B) as (x & Ex & _). eauto.
  - inversion K. contradiction.
  - cbn [single_processors] in K. revert d B. induction IH as [|p ps Hp F IHps]; intros d B; cbn [fold_left bind]; [eauto|].
    cbn [map concat] in K. apply Forall_app in K. destruct K as [K1 K2]. destruct (Hp K1 d B) as (x & Ex). rewrite Ex.
    apply IHps; auto. eapply single_step_preserves; [|exact B|exact Ex].
    unfold models_keep_words. eapply Forall_impl; [|exact K1]. intros [ | | | ]; auto. contradiction.
Qed.

Theorem one_for_one p it k :
  (it k = Stop -> process p it k = Stop) /\
  (forall e, it k = Raise e -> process p it k = Raise e) /\
  (forall d, it k = Item d -> process p it k <> Stop) /\
  (forall d d', it k = Item d -> built d -> models_keep_words p -> process p it k = Item d' -> built d' /\ same_layout d d') /\
  (forall d, it k = Item d -> built d -> no_models p -> exists d', process p it k = Item d') /\
  (forall it', it' k = it k -> process p it' k = process p it k).
Proof.
  rewrite process_step. unfold step. split; [intros ->; auto|]. split; [intros e ->; auto|].
  split; [intros d ->; destruct (single_step p d); discriminate|]. split; [|split].
  - intros d d' -> B K E. destruct (single_step p d) as [x|] eqn:Ex; [|discriminate]. injection E as <-.
    eapply single_step_preserves; eauto.
  - intros d -> B N. destruct (single_step_succeeds p N d B) as (x & ->). eauto.
  - intros it' E. rewrite process_step, E. auto.
Qed.

(* ------------------------------------------------------------------ *)
(* context management *)

Lemma for_each_cons {A} (f : A -> list event * option exn) x l :
  for_each f (x :: l) = match f x with
                        | (es, Some e) => (es, Some e)
                        | (es, None) => let '(es', o) := for_each f l in (es ++ es', o)
                        end.
Proof. reflexivity. Qed.

Lemma for_each_app {A} (f : A -> list event * option exn) l1 l2 :
  for_each f (l1 ++ l2) = match for_each f l1 with
                          | (es, Some e) => (es, Some e)
                          | (es, None) => let '(es', o) := for_each f l2 in (es ++ es', o)
                          end.
Proof.
  induction l1 as [|x l1 IH]; cbn [app].
  - cbn. destruct (for_each f l2); auto.
  - rewrite !for_each_cons, IH. destruct (f x) as [es [e|]]; auto. 
    destruct (for_each f l1) as [es1 [e|]]; auto. destruct (for_each f l2). rewrite app_assoc. auto.
Qed.

(* a nested processor behaves like the list of its components *)
Lemma each_component (f : managed -> list event * option exn) m :
  (forall ms, f (Several ms) = for_each f ms) -> f m = for_each f (components m).
Proof.
  intros H. induction m as [n a b|ms IH] using managed_ind'.
  - cbn. destruct (f (Single n a b)) as [es [e|]]; auto. rewrite app_nil_r. auto.
  - rewrite H. cbn [components]. induction IH as [|m ms Hm F IHms]; [reflexivity|].
    cbn [map concat]. rewrite for_each_app, <- Hm, for_each_cons, IHms. auto.
Qed.

Lemma components_single m c : In c (components m) -> exists n a b, c = Single n a b.
Proof.
  induction m as [n a b|ms IH] using managed_ind'; cbn [components].
  - intros [<-|[]]. eauto.
  - intros H. apply in_concat in H. destruct H as (l & Hl & H). apply in_map_iff in Hl. destruct Hl as (m & <- & Hm).
    rewrite Forall_forall in IH. eapply IH; eauto.
Qed.

(* the list of the components up to the first that fails *)
Lemma each_prefix (f : managed -> list event * option exn) (ok : managed -> Prop) (ev : nat -> event) (l : list managed) :
  (forall c, In c l -> (ok c /\ f c = ([ev (number c)], None)) \/ (~ ok c /\ exists e, f c = ([], Some e))) ->
  (Forall ok l /\ for_each f l = (map (fun c => ev (number c)) l, None)) \/
  (exists pre c post e, l = pre ++ c :: post /\ Forall ok pre /\ ~ ok c /\ f c = ([], Some e) /\
     for_each f l = (map (fun c => ev (number c)) pre, Some e)).
Proof.
  induction l as [|c l IH]; intros H; [left; split; [constructor|reflexivity]|].
  rewrite for_each_cons. destruct (H c) as [[O E]|[N (e & E)]]; [left; auto| |].
  - rewrite E. destruct IH as [[F G]|(pre & c' & post & e & -> & F & N & E' & G)].
    + intros c' Hc'. apply H. right; auto.
    + left. rewrite G. split; [constructor; auto|reflexivity].
    + right. rewrite G. exists (c :: pre), c', post, e. repeat split; auto.
  - right. rewrite E. exists [], c, l, e. repeat split; auto.
Qed.

Lemma enter_component m c : In c (components m) ->
  (enters c /\ enter c = ([Entered (number c)], None)) \/ (~ enters c /\ exists e, enter c = ([], Some e)).
Proof. intros H. destruct (components_single _ _ H) as (n & [a|] & b & ->); cbn; [right|left]; eauto. Qed.

Lemma exit_component m c : In c (components m) ->
  (exits c /\ exit c = ([Exited (number c)], None)) \/ (~ exits c /\ exists e, exit c = ([], Some e)).
Proof. intros H. destruct (components_single _ _ H) as (n & a & [b|] & ->); cbn; [right|left]; eauto. Qed.

Theorem managed_run m body :
  (* somebody cannot be entered: nobody is exited *)
  (forall pre c post, components m = pre ++ c :: post -> Forall enters pre -> ~ enters c ->
     exists e, enter c = ([], Some e) /\ run_with m body = (map (fun x => Entered (number x)) pre, Some e)) /\
  (* all are entered: they are exited in order up to the first that raises *)
  (Forall enters (components m) ->
     (forall pre c post, components m = pre ++ c :: post -> Forall exits pre -> ~ exits c ->
        exists e, exit c = ([], Some e) /\
          run_with m body = (map (fun x => Entered (number x)) (components m) ++ map (fun x => Exited (number x)) pre, Some e)) /\
     (Forall exits (components m) ->
        run_with m body = (map (fun x => Entered (number x)) (components m) ++ map (fun x => Exited (number x)) (components m), body))).
Proof.
  assert (FU : forall (P : managed -> Prop) l pre c post pre' c' post', l = pre ++ c :: post -> l = pre' ++ c' :: post' ->
    Forall P pre -> ~ P c -> Forall P pre' -> ~ P c' -> pre = pre' /\ c = c').
  { intros P l pre. revert l. induction pre as [|x pre IH]; intros l c post [|y pre'] c' post' -> E F N F' N'; cbn in E.
    - injection E as -> ->. auto.
    - injection E as -> E. inversion F'; contradiction.
    - injection E as -> E. inversion F; contradiction.
    - injection E as -> E. inversion F; inversion F'; subst. destruct (IH _ c post pre' c' post' eq_refl E) as [-> ->]; auto. }
  unfold run_with. rewrite (each_component enter m), (each_component exit m) by reflexivity.
  split.
  - intros pre c post E F N. destruct (each_prefix enter enters Entered (components m) (enter_component m)) as [[G _]|(pre' & c' & post' & e & E' & F' & N' & Ec & G)].
    + exfalso. rewrite E in G. apply Forall_app in G. destruct G as [_ G]. inversion G. contradiction.
    + destruct (FU _ _ _ _ _ _ _ _ E E' F N F' N') as [-> ->]. exists e. split; auto. rewrite G. auto.
  - intros EN. destruct (each_prefix enter enters Entered (components m) (enter_component m)) as [[_ G]|(pre' & c' & post' & e & E' & F' & N' & _)].
    2:{ exfalso. rewrite E' in EN. apply Forall_app in EN. destruct EN as [_ EN]. inversion EN. contradiction. }
    rewrite G. split.
    + intros pre c post E F N. destruct (each_prefix exit exits Exited (components m) (exit_component m)) as [[X _]|(pre' & c' & post' & e & E' & F' & N' & Ec & X)].
      * exfalso. rewrite E in X. apply Forall_app in X. destruct X as [_ X]. inversion X. contradiction.
      * destruct (FU _ _ _ _ _ _ _ _ E E' F N F' N') as [-> ->]. exists e. split; auto. rewrite X. auto.
    + intros EX. destruct (each_prefix exit exits Exited (components m) (exit_component m)) as [[_ X]|(pre' & c' & post' & e & E' & F' & N' & _)].
      * rewrite X. auto.
      * exfalso. rewrite E' in EX. apply Forall_app in EX. destruct EX as [_ EX]. inversion EX. contradiction.
Qed.
