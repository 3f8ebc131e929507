(* Command lines: what is accepted, the options of the grid, and the arguments of the programs. *)
From Coq Require Import String Ascii ZArith NArith QArith Bool Lia List Permutation.
From Verif Require Import Base BaseFacts Model_UDEval Model_Script Model_Cli Spec_Cli Proofs_Cli.
Import ListNotations.
Open Scope Z_scope.

Lemma then_started {A B} (r : started A) (f : A -> started B) b : then_ r f = Started b -> exists a, r = Started a /\ f a = Started b.
Proof. destruct r; try discriminate. eauto. Qed.

Lemma perform_places files a v ns ns' : perform files a v ns = Started ns' -> places ns' = places ns.
Proof.
  destruct a; cbn [perform]; try discriminate; try (intro E; injection E as <-; reflexivity).
  destruct (str_eqb v _); [discriminate|]. destruct (dict_mem files v); [|discriminate]. intro E. now injection E as <-.
Qed.
Lemma perform_all_places files l ns ns' : perform_all files l ns = Started ns' -> places ns' = places ns.
Proof.
  revert ns. induction l as [|a l IH]; intros ns E; cbn [perform_all] in E; [now injection E as <-|].
  destruct (perform files a [] ns) as [n1| | | |] eqn:P; try discriminate. rewrite (IH _ E). eapply perform_places; eauto.
Qed.

Definition fine (p : parser) (w : str) : Prop := classify p w = Plain \/ exists a n q e l last, classify p w = Known a n q e /\ consume p a n q e = Run l last.

Lemma scan_accepts p files args ns extra ns' : scan p files args ns extra = Started ns' -> (length (places ns) <= positionals p)%nat ->
  extra = false /\ Forall (fine p) args /\ length (places ns') = positionals p.
Proof.
  remember (length args) as k eqn:K. assert (Le : (length args <= k)%nat) by lia. clear K. revert args ns extra Le.
  induction k as [|k IH]; intros args ns extra Le E L.
  - destruct args; [|cbn in Le; lia]. cbn [scan] in E. destruct extra; [discriminate|]. cbn [orb] in E.
    destruct (Nat.ltb_spec (length (places ns)) (positionals p)); [discriminate|]. injection E as <-. split; auto. split; [constructor | lia].
  - destruct args as [|s rest].
    + cbn [scan] in E. destruct extra; [discriminate|]. cbn [orb] in E.
      destruct (Nat.ltb_spec (length (places ns)) (positionals p)); [discriminate|]. injection E as <-. split; auto. split; [constructor | lia].
    + cbn [scan] in E. cbn [length] in Le. destruct (classify p s) as [|a name q explicit| |] eqn:C.
      * destruct (Nat.ltb_spec (length (places ns)) (positionals p)).
        -- apply IH in E; [|lia | cbn [places]; rewrite app_length; cbn [length]; lia]. destruct E as (-> & F & H'). split; auto. split; auto. constructor; auto. now left.
        -- apply IH in E; [|lia | lia]. destruct E; discriminate.
      * assert (Fs : forall l last, consume p a name q explicit = Run l last -> fine p s) by (intros l last R; right; exists a, name, q, explicit, l, last; auto).
        destruct (consume p a name q explicit) as [|l|l [[a' [v|]]|]]; try discriminate; try specialize (Fs _ _ eq_refl).
        -- destruct (perform_all files l ns) as [n1| | | |] eqn:P1; try discriminate. apply perform_all_places in P1.
           apply IH in E; [|lia | rewrite P1; lia]. destruct E; discriminate.
        -- destruct (perform_all files l ns) as [n1| | | |] eqn:P1; try discriminate. destruct (perform files a' v n1) as [n2| | | |] eqn:P2; try discriminate.
           apply perform_all_places in P1. apply perform_places in P2. apply IH in E; [|lia | rewrite P2, P1; lia].
           destruct E as (-> & F & H'). split; auto.
        -- destruct rest as [|v rest']; [discriminate|]. cbn [length] in Le. destruct (classify p v) eqn:Cv; try discriminate.
           destruct (perform_all files l ns) as [n1| | | |] eqn:P1; try discriminate. destruct (perform files a' v n1) as [n2| | | |] eqn:P2; try discriminate.
           apply perform_all_places in P1. apply perform_places in P2. apply IH in E; [|lia | rewrite P2, P1; lia].
           destruct E as (-> & F & H'). split; auto. split; auto. constructor; auto. constructor; auto. now left.
        -- destruct (perform_all files l ns) as [n1| | | |] eqn:P1; try discriminate. apply perform_all_places in P1.
           apply IH in E; [|lia | rewrite P1; lia]. destruct E as (-> & F & H'). split; auto.
      * apply IH in E; [|lia | lia]. destruct E; discriminate.
      * discriminate.
Qed.

Lemma parse_scan p files args ns : parse p files args = Started ns -> scan p files args (mkNS [] [] []) false = Started ns.
Proof. unfold parse. destruct (existsb _ args); [discriminate|]. destruct (existsb _ args); [discriminate | auto]. Qed.

Lemma flat_single {A B} (f : A -> list B) l y z : (length (flat_map f l) <= 1)%nat -> In y l -> In z l -> f y <> [] -> f z <> [] -> y = z.
Proof.
  assert (X : forall l z, In z l -> f z <> [] -> (1 <= length (flat_map f l))%nat).
  { clear. induction l as [|a l IH]; intros z I Hz; [destruct I|]. cbn [flat_map]. rewrite app_length. destruct I as [-> | I].
    - destruct (f z); [contradiction | cbn; lia].
    - specialize (IH z I Hz). lia. }
  induction l as [|a l IH]; intros L Iy Iz Hy Hz; [destruct Iy|]. cbn [flat_map] in L. rewrite app_length in L. destruct Iy as [-> | Iy]; destruct Iz as [-> | Iz]; auto.
  - pose proof (X l z Iz Hz). destruct (f y); [contradiction | cbn in L; lia].
  - pose proof (X l y Iy Hy). destruct (f z); [contradiction | cbn in L; lia].
  - apply IH; auto. lia.
Qed.

Lemma cluster_run p k : forall done short eq a e l last, (length e <= k)%nat -> cluster p done short eq a e = Run l last ->
  takes_value a = true \/ eq = false /\ letters p e.
Proof.
  induction k as [|k IH]; intros done short eq a e l last Le E; (destruct e as [|c rest]; cbn [cluster length] in *; (destruct (takes_value a) eqn:T; [now left|]); [discriminate|]); [lia|].
  right. destruct (negb short || eq || N.eqb c chDASH) eqn:B; [discriminate|]. apply orb_false_iff in B. destruct B as [B _]. apply orb_false_iff in B. destruct B as [_ B].
  split; [exact B|]. destruct (dict_get (options p) [chDASH; c]) as [a'|] eqn:G; [|discriminate]. apply dict_get_In in G.
  destruct rest as [|d rest]; [eapply last_letter; eauto|]. destruct (takes_value a') eqn:T'; [eapply letter_value; eauto|]. cbn [length] in Le.
  destruct (N.eqb d chEQ).
  - apply IH in E; [|lia]. destruct E as [E | [E _]]; congruence.
  - apply IH in E; [|cbn [length]; lia]. destruct E as [E | [_ E]]; [congruence|]. eapply letter; eauto.
Qed.

Lemma candidate_option p c w a n q e l last : candidates p (chDASH :: c :: w) = [(a, n, q, e)] -> consume p a n q e = Run l last -> an_option p (chDASH :: c :: w).
Proof.
  intros C R. unfold candidates in C. destruct (N.eqb c chDASH).
  - assert (G : forall n0 e0, flat_map (fun o : str * action => if startswith (fst o) n0 then [(snd o, fst o, true, e0)] else []) (options p) = [(a, n, q, e)] ->
        one_option p n0 /\ exists tail, In (n, a) (options p) /\ n = n0 ++ tail /\ q = true /\ e = e0).
    { clear C. intros n0 e0 C. split.
      - intros n1 a1 t1 n2 a2 t2 I1 I2 E1 E2. enough (E : (n1, a1) = (n2, a2)) by congruence.
        eapply flat_single with (f := fun o : str * action => if startswith (fst o) n0 then [(snd o, fst o, true, e0)] else []); [rewrite C; cbn; lia | exact I1 | exact I2 | |];
          cbn [fst snd]; [assert (startswith n1 n0 = true) as -> by (apply starts_iff; eauto) | assert (startswith n2 n0 = true) as -> by (apply starts_iff; eauto)]; discriminate.
      - assert (I : In (a, n, q, e) [(a, n, q, e)]) by now left. rewrite <- C in I. apply in_flat_map in I. destruct I as ([n' a'] & I & J). cbn [fst snd] in J.
        destruct (startswith n' n0) eqn:St; [|contradiction]. apply starts_iff in St. destruct St as [r St]. destruct J as [J | []]. injection J as <- <- <- <-. exists r. auto. }
    destruct (split_eq (chDASH :: c :: w)) as [[a0 b0]|] eqn:S; apply G in C; destruct C as (U & tail & I & E & -> & ->); exists n, a; (split; [exact I|]).
    + right. right. right. exists a0, tail, b0. split; [now apply split_eq_some|]. split; [exact E|]. split; [|now right].
      cbn [consume] in R. eapply cluster_run in R; [|reflexivity]. destruct R as [R | [R _]]; [exact R | discriminate].
    + right. right. left. split; [exact U | eauto].
  - assert (I : In (a, n, q, e) [(a, n, q, e)]) by now left. rewrite <- C in I. apply in_flat_map in I. destruct I as ([n' a'] & I & J). cbn [fst snd] in J.
    destruct (str_eqb_spec n' [chDASH; c]) as [->|D].
    + destruct J as [J | []]. injection J as <- <- <- <-. exists [chDASH; c], a'. split; [exact I|]. right. left. exists (c :: w). split; [reflexivity|].
      cbn [consume] in R. destruct (takes_value a') eqn:T; [eapply letter_value; eauto|]. eapply cluster_run in R; [|reflexivity]. destruct R as [R | [_ R]]; [congruence|]. eapply letter; eauto.
    + destruct (startswith n' (chDASH :: c :: w)) eqn:St; [|contradiction]. apply starts_iff in St. destruct St as [r St].
      exists n', a'. split; [exact I|]. right. right. left. split; [|eauto].
      intros n1 a1 t1 n2 a2 t2 I1 I2 E1 E2. enough (E : (n1, a1) = (n2, a2)) by congruence.
      eapply flat_single; [rewrite C; cbn; lia | exact I1 | exact I2 | |]; cbn [fst snd].
      * destruct (str_eqb n1 [chDASH; c]); [discriminate|]. assert (startswith n1 (chDASH :: c :: w) = true) as -> by (apply starts_iff; eauto). discriminate.
      * destruct (str_eqb n2 [chDASH; c]); [discriminate|]. assert (startswith n2 (chDASH :: c :: w) = true) as -> by (apply starts_iff; eauto). discriminate.
Qed.

Lemma fine_dashed p w : fine p w -> dashed w -> an_option p w.
Proof.
  intros F ((c & rest & -> & Hd & Hp) & Hs).
  assert (R : classify_rest p (chDASH :: c :: rest) = Plain \/ (exists a n q e l last, classify_rest p (chDASH :: c :: rest) = Known a n q e /\ consume p a n q e = Run l last) ->
              an_option p (chDASH :: c :: rest)).
  { unfold classify_rest. destruct (candidates p (chDASH :: c :: rest)) as [|[[[a n] q] e] l] eqn:C.
    2: { destruct l as [|y l]; intros [H | (a' & n' & q' & e' & l' & last & H & H')]; try discriminate. injection H as <- <- <- <-. eapply candidate_option; eauto. }
    assert (N0 : negative_number (chDASH :: c :: rest) = false).
    { unfold negative_number. cbn [drop_while]. rewrite Hd. apply andb_false_iff. right. apply andb_false_iff. left. now apply N.eqb_neq. }
    rewrite N0. assert (M : mem_char 32%N (chDASH :: c :: rest) = false).
    { apply not_true_is_false. intro H. unfold mem_char in H. apply existsb_exists in H. destruct H as (x & I & E). apply N.eqb_eq in E. subst x. contradiction. }
    rewrite M. intros [H | (a & n & q & e & l & last & H & _)]; discriminate. }
  assert (G : forall n a, dict_get (options p) n = Some a -> In (n, a) (options p)) by (intros; now apply dict_get_In).
  unfold fine, classify in F. cbn [N.eqb chDASH Pos.eqb negb] in F.
  destruct (dict_get (options p) (chDASH :: c :: rest)) as [a|] eqn:E.
  - exists (chDASH :: c :: rest), a. split; [now apply G | now left].
  - destruct (split_eq (chDASH :: c :: rest)) as [[n v]|] eqn:S; [|exact (R F)].
    destruct (dict_get (options p) n) as [a|] eqn:E'; [|exact (R F)].
    exists n, a. split; [now apply G|]. right. right. right. exists n, [], v. split; [now apply split_eq_some|]. split; [now rewrite app_nil_r|]. split; [|now left].
    destruct F as [F | (a' & n' & q' & e' & l & last & F & F')]; [discriminate|]. injection F as <- <- <- <-.
    cbn [consume] in F'. eapply cluster_run in F'; [|reflexivity]. destruct F' as [F' | [F' _]]; [exact F' | discriminate].
Qed.

Lemma accepted p files args ns w : parse p files args = Started ns -> In w args -> dashed w -> an_option p w.
Proof.
  intros E I D. apply parse_scan in E. apply scan_accepts in E; [|cbn; lia]. destruct E as (_ & F & _). rewrite Forall_forall in F.
  apply fine_dashed; auto.
Qed.
Lemma accepted_places p files args ns : parse p files args = Started ns -> length (places ns) = positionals p.
Proof. intro E. apply parse_scan in E. apply scan_accepts in E; [|cbn; lia]. now destruct E as (_ & _ & H). Qed.

(* ---- the grid ---- *)

Definition grid_name : str := of_string "--grid".

Lemma get_grid n : n <> grid_name -> dict_get (options grid_parser) n = dict_get (options evaluation_parser) n.
Proof.
  intro H. assert (G : forall (d : dict action) k a, n <> k -> dict_get (d ++ [(k, a)]) n = dict_get d n).
  { induction d as [|[k' a'] d IH]; intros k a D; cbn [app dict_get].
    - destruct (str_eqb_spec n k); [contradiction | reflexivity].
    - destruct (str_eqb n k'); auto. }
  now apply G.
Qed.

Definition no_g (w : str) : Prop := forall r, w <> of_string "--g" ++ r.

Lemma classify_grid w : no_g w -> w <> [chDASH; chDASH] -> classify grid_parser w = classify evaluation_parser w.
Proof.
  intros H H2. unfold classify. destruct w as [|c s']; [reflexivity|]. destruct (N.eqb_spec c chDASH) as [->|]; [|reflexivity]. cbn [negb].
  rewrite get_grid by (intro E; apply (H (of_string "rid")); rewrite E; reflexivity).
  destruct (dict_get (options evaluation_parser) (chDASH :: s')) as [a|]; [reflexivity|]. destruct s' as [|d rest]; [reflexivity|].
  assert (R : classify_rest grid_parser (chDASH :: d :: rest) = classify_rest evaluation_parser (chDASH :: d :: rest)).
  { unfold classify_rest, candidates. destruct (N.eqb_spec d chDASH) as [->|Dd].
    - destruct (split_eq (chDASH :: chDASH :: rest)) as [[a0 b0]|] eqn:S.
      + apply split_eq_some in S. destruct a0 as [|x [|y a0]]; [discriminate S | discriminate S |]. cbn [app] in S. injection S as <- <- S.
        destruct a0 as [|z a0]; [reflexivity|].
        change (options grid_parser) with (options evaluation_parser ++ [(grid_name, Store (of_string "grid"))]). rewrite flat_map_app.
        assert (St : startswith grid_name (chDASH :: chDASH :: z :: a0) = false).
        { apply not_true_is_false. intro X. apply starts_iff in X. destruct X as [r X]. cbn in X. injection X as Ez _.
          apply (H (a0 ++ [chEQ] ++ b0)). rewrite S, <- Ez. reflexivity. }
        cbn [flat_map fst snd]. rewrite St. now rewrite app_nil_r.
      + destruct rest as [|z rest]; [now elim H2|].
        change (options grid_parser) with (options evaluation_parser ++ [(grid_name, Store (of_string "grid"))]). rewrite flat_map_app.
        assert (St : startswith grid_name (chDASH :: chDASH :: z :: rest) = false).
        { apply not_true_is_false. intro X. apply starts_iff in X. destruct X as [r X]. cbn in X. injection X as Ez _.
          apply (H rest). rewrite <- Ez. reflexivity. }
        cbn [flat_map fst snd]. rewrite St. now rewrite app_nil_r.
    - change (options grid_parser) with (options evaluation_parser ++ [(grid_name, Store (of_string "grid"))]). rewrite flat_map_app.
      assert (St : startswith grid_name (chDASH :: d :: rest) = false).
      { apply not_true_is_false. intro X. apply starts_iff in X. destruct X as [r X]. cbn in X. injection X as Ez _. now apply Dd. }
      cbn [flat_map fst snd]. rewrite St. destruct (str_eqb_spec grid_name [chDASH; d]) as [E|_]; [discriminate E|]. now rewrite app_nil_r. }
  destruct (split_eq (chDASH :: d :: rest)) as [[n v]|] eqn:S; [|exact R].
  rewrite get_grid; [now rewrite R|]. intros ->. apply split_eq_some in S. apply (H (of_string "rid" ++ [chEQ] ++ v)). rewrite S. reflexivity.
Qed.

Lemma cluster_grid done short q a e : cluster grid_parser done short q a e = cluster evaluation_parser done short q a e.
Proof.
  remember (length e) as k eqn:K. assert (Le : (length e <= k)%nat) by lia. clear K. revert e Le done short q a.
  induction k as [|k IH]; intros e Le done short q a; destruct e as [|c e]; try reflexivity; [cbn in Le; lia|].
  cbn [length] in Le. cbn [cluster]. rewrite get_grid by discriminate. destruct (takes_value a); [reflexivity|]. destruct (negb short || q || N.eqb c chDASH); [reflexivity|].
  destruct (dict_get (options evaluation_parser) [chDASH; c]) as [a'|]; [|reflexivity]. destruct e as [|d e]; [reflexivity|]. cbn [length] in Le.
  destruct (N.eqb d chEQ); apply IH; cbn [length]; lia.
Qed.

Lemma scan_grid files args ns extra : Forall (fun w => classify grid_parser w = classify evaluation_parser w) args ->
  scan grid_parser files args ns extra = scan evaluation_parser files args ns extra.
Proof.
  remember (length args) as k eqn:K. assert (Le : (length args <= k)%nat) by lia. clear K. revert args ns extra Le.
  induction k as [|k IH]; intros args ns extra Le F; destruct args as [|s rest]; try reflexivity; [cbn in Le; lia|].
  cbn [length] in Le. inversion F as [|? ? C F']; subst. cbn [scan]. rewrite C. change (positionals grid_parser) with (positionals evaluation_parser).
  destruct (classify evaluation_parser s) as [|a name q e| |]; try (rewrite !IH by (auto; lia); reflexivity).
  - assert (Cs : consume grid_parser a name q e = consume evaluation_parser a name q e) by (destruct e; [apply cluster_grid | reflexivity]).
    rewrite Cs. destruct (consume evaluation_parser a name q e) as [|l|l [[a' [v|]]|]]; try reflexivity.
    + destruct (perform_all files l ns); try reflexivity. apply IH; auto; lia.
    + destruct (perform_all files l ns); try reflexivity. destruct (perform files a' v a0); try reflexivity. apply IH; auto; lia.
    + destruct rest as [|v rest']; [reflexivity|]. cbn [length] in Le. inversion F' as [|? ? C' F'']; subst. rewrite C'.
      destruct (classify evaluation_parser v); try reflexivity.
      destruct (perform_all files l ns); try reflexivity. destruct (perform files a' v a0); try reflexivity. apply IH; auto; lia.
    + destruct (perform_all files l ns); try reflexivity. apply IH; auto; lia.
  - reflexivity.
Qed.

Lemma parse_grid files args : Forall no_g args -> parse grid_parser files args = parse evaluation_parser files args.
Proof.
  intro F. unfold parse. destruct (existsb (fun s => str_eqb s [chDASH; chDASH]) args) eqn:E; [reflexivity|].
  assert (A : Forall (fun w => classify grid_parser w = classify evaluation_parser w) args).
  { rewrite Forall_forall in *. intros w I. apply classify_grid; [now apply F|]. intros ->.
    enough (X : existsb (fun s => str_eqb s [chDASH; chDASH]) args = true) by congruence. apply existsb_exists. eexists. split; [exact I | apply str_eqb_refl]. }
  rewrite (scan_grid files args _ _ A).
  assert (X : existsb (fun s => match classify grid_parser s with Ambiguous => true | _ => false end) args =
              existsb (fun s => match classify evaluation_parser s with Ambiguous => true | _ => false end) args).
  { clear E F. induction A as [|w args C A IH]; [reflexivity|]. cbn [existsb]. now rewrite C, IH. }
  now rewrite X.
Qed.

(* ---- the programs ---- *)

Lemma switched_mem gs ns d : holds gs ns -> dict_mem (switched ns) d = negb (Nat.eqb (times d gs) 0).
Proof. intros (_ & _ & H). unfold dict_mem. rewrite H. now destruct (times d gs). Qed.

Section Programs.
Context {J : Type}.
Variable parse_json : str -> result J.

Lemma load_some (files : dict str) path text j : dict_get files path = Some text -> parse_json text = Ok j -> load_json parse_json files (Some path) = Ok j.
Proof. intros E P. unfold load_json. rewrite E. exact P. Qed.

Lemma arguments_read p files gss chunks s h ts th js jh : p = evaluation_parser \/ p = grid_parser -> Forall2 (says p files) gss chunks -> places_of (concat gss) = [] ->
  value_of (of_string "settings") (concat gss) = Some s -> value_of (of_string "hypers") (concat gss) = Some h ->
  dict_get files s = Some ts -> parse_json ts = Ok js -> dict_get files h = Some th -> parse_json th = Ok jh ->
  parse_arguments parse_json p files (concat chunks) =
    Started (mkArguments js (value_of (of_string "method") (concat gss)) jh (negb (Nat.eqb (times (of_string "delete_after") (concat gss)) 0))).
Proof.
  intros O F L Es Eh Fs Ps Fh Ph. destruct (understood p files gss chunks) as (ns & P & H); [destruct O as [-> | ->]; unfold ours; auto | exact F | rewrite L; destruct O as [-> | ->]; reflexivity |].
  unfold parse_arguments. rewrite P. cbn [then_]. pose proof (switched_mem (concat gss) ns (of_string "delete_after") H) as M. destruct H as (_ & H2 & _). rewrite !H2, Es, Eh.
  rewrite (load_some _ _ _ _ Fs Ps). cbn [bind]. rewrite (load_some _ _ _ _ Fh Ph). cbn [bind checked]. now rewrite M.
Qed.

Lemma grid_read files gss chunks s h g ts th tg js jh jg : Forall2 (says grid_parser files) gss chunks -> places_of (concat gss) = [] ->
  value_of (of_string "settings") (concat gss) = Some s -> value_of (of_string "hypers") (concat gss) = Some h -> value_of (of_string "grid") (concat gss) = Some g ->
  dict_get files s = Some ts -> parse_json ts = Ok js -> dict_get files h = Some th -> parse_json th = Ok jh -> dict_get files g = Some tg -> parse_json tg = Ok jg ->
  grid_arguments parse_json files (concat chunks) =
    Started (mkArguments js (value_of (of_string "method") (concat gss)) jh (negb (Nat.eqb (times (of_string "delete_after") (concat gss)) 0)), jg).
Proof.
  intros F L Es Eh Eg Fs Ps Fh Ph Fg Pg. destruct (understood grid_parser files gss chunks) as (ns & P & (_ & H2 & _)); [unfold ours; auto | exact F | now rewrite L |].
  unfold grid_arguments. rewrite P. cbn [then_]. rewrite H2, Eg, (load_some _ _ _ _ Fg Pg). cbn [checked then_].
  rewrite (arguments_read grid_parser files gss chunks s h ts th js jh) by auto. reflexivity.
Qed.

Lemma missing_option p files gss chunks : p = evaluation_parser \/ p = grid_parser -> Forall2 (says p files) gss chunks -> places_of (concat gss) = [] ->
  value_of (of_string "settings") (concat gss) = None -> parse_arguments parse_json p files (concat chunks) = Failed EType.
Proof.
  intros O F L Es. destruct (understood p files gss chunks) as (ns & P & (_ & H2 & _)); [destruct O as [-> | ->]; unfold ours; auto | exact F | rewrite L; destruct O as [-> | ->]; reflexivity |].
  unfold parse_arguments. rewrite P. cbn [then_]. now rewrite H2, Es.
Qed.

Lemma accepted_arguments p files args a w : parse_arguments parse_json p files args = Started a -> In w args -> dashed w -> an_option p w.
Proof. intro E. apply then_started in E. destruct E as (ns & E & _). eapply accepted; eauto. Qed.
End Programs.

Lemma script_read parse_float lower fixed2 files gss chunks g s : Forall2 (says script_parser files) gss chunks -> places_of (concat gss) = [g; s] ->
  script parse_float lower fixed2 files (concat chunks) =
    Started (main parse_float lower fixed2 files (mkArgs g s (value_of (of_string "weights") (concat gss)) (times (of_string "verbose") (concat gss)))).
Proof.
  intros F L. destruct (understood script_parser files gss chunks) as (ns & P & (H1 & H2 & H3)); [unfold ours; auto | exact F | now rewrite L |].
  unfold script. rewrite P. cbn [then_]. rewrite H1, L, H2, H3. destruct (times (of_string "verbose") (concat gss)); reflexivity.
Qed.

Lemma accepted_script parse_float lower fixed2 files args o w : script parse_float lower fixed2 files args = Started o -> In w args -> dashed w -> an_option script_parser w.
Proof. intro E. apply then_started in E. destruct E as (ns & E & _). eapply accepted; eauto. Qed.
