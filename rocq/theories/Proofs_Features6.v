(* Embedding files. *)
From Coq Require Import ZArith NArith Bool Lia Permutation List.
From Verif Require Import Base BaseFacts Model_Datamodel Model_Vocab Model_Features Spec_Datamodel Spec_Vocab Spec_Features
  Proofs_Conllu3 Proofs_Vocab Proofs_Lemma Proofs_Features Proofs_Features5.
Import ListNotations.
Open Scope Z_scope.

Section Embeddings.
Variables (V : Type) (to_float : str -> result V) (zero : V).

Lemma exists_last_or_nil {A} (l : list A) : l = [] \/ exists l' x, l = l' ++ [x].
Proof. destruct l; auto. right. destruct (exists_last (l := a :: l)) as (l' & x & E); [discriminate|]. eauto. Qed.

Definition last_in (lines : list str) (w : str) (vec : list V) : Prop :=
  exists before line after, lines = before ++ line :: after /\ vector_line to_float line w vec /\
    forall l, In l after -> hd_error (split_ws l) <> Some w.

Lemma last_in_snoc seen line w0 vec0 w vec : vector_line to_float line w0 vec0 ->
  (last_in (seen ++ [line]) w vec <-> if str_eqb w w0 then vec = vec0 else last_in seen w vec).
Proof.
  intros (nums & E & M). assert (H : str_eqb w w0 = true <-> w = w0) by apply str_eqb_eq.
  destruct (str_eqb w w0).
  - assert (w = w0) by tauto. subst w0. split.
    + intros (b & l & a & Eq & (n2 & E2 & M2) & Ha). destruct (exists_last_or_nil a) as [->|(a' & x & ->)].
      * apply app_inj_tail in Eq. destruct Eq as [_ <-]. rewrite E in E2. injection E2 as <-. congruence.
      * rewrite app_comm_cons, app_assoc in Eq. apply app_inj_tail in Eq. destruct Eq as [_ <-]. exfalso.
        apply (Ha line); [apply in_app_iff; right; left; auto|]. rewrite E. auto.
    + intros ->. exists seen, line, []. split; auto. split; [exists nums; auto|]. intros l [].
  - assert (N : w <> w0) by (intros X; apply H in X; discriminate). split.
    + intros (b & l & a & Eq & Hl & Ha). destruct (exists_last_or_nil a) as [->|(a' & x & ->)].
      * apply app_inj_tail in Eq. destruct Eq as [_ <-]. destruct Hl as (n2 & E2 & _). rewrite E in E2. congruence.
      * rewrite app_comm_cons, app_assoc in Eq. apply app_inj_tail in Eq. destruct Eq as [-> _]. exists b, l, a'.
        split; auto. split; auto. intros y Hy. apply Ha. apply in_app_iff; auto.
    + intros (b & l & a & -> & Hl & Ha). exists b, l, (a ++ [line]). split; [rewrite <- app_assoc; auto|]. split; auto.
      intros y Hy. apply in_app_iff in Hy. destruct Hy as [Hy|[<-|[]]]; auto. rewrite E. simpl. congruence.
Qed.

Record emb_inv (seen : list str) (s : emb_state V) : Prop := {
  ei_ok : dict_ok (e_vecs _ s);
  ei_get : forall w vec, dict_get (e_vecs _ s) w = Some vec <-> last_in seen w vec;
  ei_keys : forall w, In w (dict_keys (e_vecs _ s)) <-> exists line, In line seen /\ hd_error (split_ws line) = Some w;
  ei_size : match e_size _ s with
            | Some n => forall w vec, dict_get (e_vecs _ s) w = Some vec -> zlen vec = n
            | None => seen = []
            end }.

Lemma index0_ok {A} (l : list A) x : py_index l 0 = Ok x -> exists r, l = x :: r.
Proof. destruct l; [discriminate|]. rewrite py_index_nonneg by lia. simpl. intros H. injection H as ->. eauto. Qed.

Lemma from1 {A} (x : A) l : py_from (x :: l) 1 = l.
Proof. change (x :: l) with ([x] ++ l). exact (py_from_app [x] l). Qed.

Lemma read_vector seen s line s' : emb_inv seen s -> ((e_line _ s =? 0) && (zlen (split_ws line) =? 2) = false) ->
  read_line V to_float s line = Ok s' -> emb_inv (seen ++ [line]) s' /\ e_line _ s' = e_line _ s + 1 /\
  (exists w vec, vector_line to_float line w vec) /\ (e_size _ s <> None -> e_size _ s' = e_size _ s).
Proof.
  intros Inv C H. unfold read_line in H. rewrite C in H. apply bind_ok_iff in H. destruct H as (w & E & H).
  apply index0_ok in E. destruct E as (nums & E). rewrite E, from1 in H. apply bind_ok_iff in H. destruct H as (vec & M & H).
  assert (VL : vector_line to_float line w vec) by (exists nums; auto).
  assert (G : forall size, (forall w' vec', dict_get (dict_set (e_vecs V s) w vec) w' = Some vec' -> zlen vec' = size) ->
              emb_inv (seen ++ [line]) (mkEmb V (dict_set (e_vecs V s) w vec) (Some size) (e_line V s + 1))).
  { intros size Hs. destruct Inv as [O Get K Z]. split; cbn [e_vecs e_size]; auto.
    - apply dict_set_ok; auto.
    - intros w' vec'. rewrite dict_get_set, (last_in_snoc seen line w vec w' vec' VL). destruct (str_eqb w' w).
      + split; intros; congruence.
      + apply Get.
    - intros w'. rewrite dict_keys_set. assert (X : In w' (dict_keys (e_vecs V s)) \/ w' = w <-> exists l, In l (seen ++ [line]) /\ hd_error (split_ws l) = Some w').
      { rewrite K. split.
        - intros [(l & Hl & E')| ->]; [exists l; rewrite in_app_iff; auto|]. exists line. rewrite in_app_iff. simpl. rewrite E. auto.
        - intros (l & Hl & E'). apply in_app_iff in Hl. destruct Hl as [Hl|[<-|[]]]; [left; eauto|]. rewrite E in E'. simpl in E'.
          right. congruence. }
      rewrite <- X. destruct (dict_mem (e_vecs V s) w) eqn:Mm.
      + apply dict_mem_In in Mm. split; auto. intros [Y| ->]; auto.
      + rewrite in_app_iff. simpl. split; intros [Y|Y]; auto; destruct Y; auto; tauto. }
  destruct Inv as [O Get K Z]. destruct (e_size V s) as [n|] eqn:Es.
  - apply bind_ok_iff in H. destruct H as (u & R & H). injection H as <-.
    assert (L : zlen vec = n).
    { unfold raise_if in R. destruct (zlen vec =? n) eqn:Ez; [apply Z.eqb_eq in Ez; auto|discriminate]. }
    split; [|split; [|split]]; auto; [|eauto]. apply G. intros w' vec' Hg. rewrite dict_get_set in Hg.
    destruct (str_eqb w' w); [congruence|eauto].
  - injection H as <-. split; [|split; [|split]]; auto; [|eauto|congruence]. apply G. intros w' vec' Hg. rewrite dict_get_set in Hg.
    destruct (str_eqb w' w); [congruence|]. apply Get in Hg. destruct Hg as (b & l & a & Eq & _). rewrite Z in Eq. destruct b; discriminate.
Qed.

Lemma read_vectors : forall lines seen s s', emb_inv seen s -> 0 < e_line _ s -> foldM (read_line V to_float) s lines = Ok s' ->
  emb_inv (seen ++ lines) s' /\ Forall (fun line => exists w vec, vector_line to_float line w vec) lines /\
  (e_size _ s <> None -> e_size _ s' = e_size _ s).
Proof.
  induction lines as [|line lines IH]; intros seen s s' Inv P H; cbn [foldM] in H.
  - injection H as <-. rewrite app_nil_r. auto.
  - apply bind_ok_iff in H. destruct H as (s1 & E & H).
    assert (C : (e_line _ s =? 0) && (zlen (split_ws line) =? 2) = false).
    { apply andb_false_iff. left. apply Z.eqb_neq. lia. }
    destruct (read_vector _ _ _ _ Inv C E) as (Inv' & El & VL & Es).
    destruct (IH _ _ _ Inv' ltac:(lia) H) as (Inv2 & F & Es2). rewrite <- app_assoc in Inv2. split; auto. split; auto.
    intros N. rewrite Es2; auto. rewrite Es; auto.
Qed.

Lemma two_words line : (zlen (split_ws line) =? 2) = true <-> exists a b, split_ws line = [a; b].
Proof.
  rewrite Z.eqb_eq. split.
  - destruct (split_ws line) as [|a [|b [|c l]]]; unfold zlen; simpl; intros; try lia; eauto.
  - intros (a & b & ->). reflexivity.
Qed.

Lemma read_spec lines vecs size : read_embeddings V to_float lines = Ok (vecs, size) ->
  dict_ok vecs /\ (forall w vec, dict_get vecs w = Some vec <-> last_vector to_float lines w vec) /\
  (forall w, In w (dict_keys vecs) <-> exists line, In line (vector_lines lines) /\ hd_error (split_ws line) = Some w) /\
  (size = None <-> lines = []) /\ (forall n, size = Some n -> forall w vec, dict_get vecs w = Some vec -> zlen vec = n).
Proof.
  unfold read_embeddings. intros H. apply bind_ok_iff in H. destruct H as (s & H & E). injection E as <- <-.
  assert (I0 : forall size k, emb_inv [] (mkEmb V [] size k)).
  { intros size k. split; cbn [e_vecs e_size].
    - constructor.
    - intros w vec. simpl. split; [discriminate|]. intros (b & l & a & X & _). destruct b; discriminate.
    - intros w. simpl. split; [tauto|]. intros (l & [] & _).
    - destruct size; auto. intros w vec. discriminate. }
  assert (G : emb_inv (vector_lines lines) s /\ (e_size V s = None <-> lines = [])).
  { destruct lines as [|h rest]; cbn [foldM] in H.
    - injection H as <-. split; [apply I0|]. simpl. tauto.
    - apply bind_ok_iff in H. destruct H as (s1 & E & H). destruct (zlen (split_ws h) =? 2) eqn:T.
      + assert (T' := T). apply two_words in T'. destruct T' as (a & b & T'). unfold read_line in E. cbn [e_line e_vecs] in E.
        rewrite T in E. cbn [Z.eqb andb] in E. rewrite T' in E. change (py_index [a; b] 1) with (Ok b) in E. cbn [bind e_vecs] in E. apply bind_ok_iff in E. destruct E as (n & _ & E). injection E as <-.
        apply (read_vectors rest [] _ _ (I0 (Some n) 1)) in H; [|simpl; lia]. destruct H as (Inv & _ & Es).
        cbn [vector_lines]. rewrite T'. split; [exact Inv|]. split; [|discriminate]. intros X. cbn [e_size] in Es. rewrite Es in X by discriminate. discriminate.
      + assert (C : (e_line _ (mkEmb V [] None 0) =? 0) && (zlen (split_ws h) =? 2) = false) by (rewrite T; auto).
        destruct (read_vector _ _ _ _ (I0 None 0) C E) as (Inv & El & _ & _). cbn [e_line] in El.
        apply (read_vectors rest _ _ _ Inv) in H; [|lia]. destruct H as (Inv2 & _ & Es).
        assert (VLs : vector_lines (h :: rest) = h :: rest).
        { cbn [vector_lines]. destruct (split_ws h) as [|a [|b [|c l]]]; auto. discriminate T. }
        rewrite VLs. split; [exact Inv2|]. split; [|discriminate]. intros X. exfalso.
        assert (N1 : e_size V s1 <> None). { intros Y. destruct Inv as [_ _ _ Z]. rewrite Y in Z. discriminate. }
        rewrite Es in X by auto. contradiction. }
  destruct G as ([O Get K Z] & Sz). split; auto. split; [exact Get|]. split; [exact K|]. split; [exact Sz|].
  intros n En. rewrite En in Z. exact Z.
Qed.

(* vocabulary, matrix shape and initial rows *)
Lemma embeddings_spec first lines w2i height size rows : 2 <= first ->
  build_embeddings V to_float zero first lines = Ok (w2i, (height, size), rows) ->
  (forall w, dict_get w2i w <> None <-> exists line, In line (vector_lines lines) /\ hd_error (split_ws line) = Some w) /\
  (forall w i, dict_get w2i w = Some i -> first <= i < height) /\
  (forall w1 w2 i, dict_get w2i w1 = Some i -> dict_get w2i w2 = Some i -> w1 = w2) /\
  (lines = [] -> rows = Err EType) /\
  (lines <> [] -> exists n vs, size = Some n /\ rows = Ok ((Some 0, repeat zero (Z.to_nat n)) :: vs) /\ zlen vs = height - first /\
     (forall r vec, In (r, vec) vs -> zlen vec = n) /\
     (forall r vec, In (r, vec) vs <-> exists w i, r = Some i /\ dict_get w2i w = Some i /\ last_vector to_float lines w vec)).
Proof.
  intros F2 H. unfold build_embeddings in H. apply bind_ok_iff in H. destruct H as ([vecs sz] & R & H). injection H as <- <- <- <-.
  destruct (read_spec _ _ _ R) as (O & Get & K & Sz & Wd). cbn [fst snd].
  assert (Nv := number_numbered first (dict_keys vecs) O). set (w2i := number_from first (dict_keys vecs)) in *.
  split; [|split; [|split; [|split]]].
  - intros w. rewrite <- K. apply number_mem. exact O.
  - intros w i Hw. apply (nb_range _ _ Nv) in Hw. lia.
  - intros w1 w2 i. apply (nb_inj _ _ Nv).
  - intros E. apply Sz in E. subst sz. reflexivity.
  - intros Hne. destruct sz as [n|]; [|exfalso; apply Hne, Sz; auto]. eexists n, _. split; [reflexivity|]. split; [reflexivity|].
    assert (L : zlen w2i = zlen vecs).
    { unfold w2i. rewrite number_len by exact O. unfold zlen. rewrite dict_keys_length. auto. }
    split; [rewrite zlen_map; lia|].
    assert (G : forall r vec, In (r, vec) (map (fun wv => (dict_get w2i (fst wv), snd wv)) vecs) <->
       exists w i, r = Some i /\ dict_get w2i w = Some i /\ dict_get vecs w = Some vec).
    { intros r vec. rewrite in_map_iff. split.
      - intros ([w v] & E & Hin). cbn [fst snd] in E. injection E as <- <-.
        destruct (dict_get w2i w) as [i|] eqn:Ei.
        + exists w, i. split; auto. split; auto. apply In_dict_get; auto.
        + exfalso. apply (in_map fst) in Hin. apply (number_mem first (dict_keys vecs) w O) in Hin. apply Hin. exact Ei.
      - intros (w & i & -> & Hi & Hv). exists (w, vec). cbn [fst snd]. rewrite Hi. split; auto. apply dict_get_In. auto. }
    split.
    + intros r vec Hin. apply G in Hin. destruct Hin as (w & i & _ & _ & Hv). eapply Wd; eauto.
    + intros r vec. rewrite G. split; intros (w & i & -> & Hi & Hv); exists w, i; split; auto; split; auto; apply Get; auto.
Qed.

(* a file of vectors of one width is read *)
Lemma read_uniform lines n : (forall line, In line lines -> exists w vec, vector_line to_float line w vec /\ zlen vec = n) -> n <> 1 ->
  exists r, read_embeddings V to_float lines = Ok r.
Proof.
  intros H Hn. unfold read_embeddings.
  assert (G : forall lines s, (forall line, In line lines -> exists w vec, vector_line to_float line w vec /\ zlen vec = n) ->
     (e_size V s = None \/ e_size V s = Some n) -> exists s', foldM (read_line V to_float) s lines = Ok s').
  { clear lines H. induction lines as [|line lines IH]; intros s H Hs; cbn [foldM]; [eauto|].
    destruct (H line (or_introl eq_refl)) as (w & vec & (nums & E & M) & L).
    assert (Ln : zlen nums = n).
    { unfold zlen. assert (X := mapM_length _ _ _ M). unfold zlen in L. lia. }
    assert (R : exists s', read_line V to_float s line = Ok s' /\ e_size V s' = Some n).
    { unfold read_line. rewrite E, from1. rewrite zlen_cons. replace (zlen nums + 1 =? 2) with false by (symmetry; apply Z.eqb_neq; lia).
      rewrite andb_false_r. rewrite py_index_nonneg by lia. cbn [Z.to_nat nth_error of_option bind]. rewrite M. cbn [bind].
      destruct Hs as [-> | ->].
      - eexists. split; [reflexivity|]. cbn [e_size]. congruence.
      - rewrite L, Z.eqb_refl. cbn [negb raise_if bind]. eexists. split; reflexivity. }
    destruct R as (s1 & -> & E1). cbn [bind]. apply IH; auto. intros; apply H; right; auto. }
  destruct (G lines (mkEmb V [] None 0) H (or_introl eq_refl)) as (s' & ->). simpl. eauto.
Qed.
End Embeddings.
