(* Command lines: how written options are understood. *)
From Coq Require Import String Ascii ZArith NArith QArith Bool Lia List Permutation.
From Verif Require Import Base BaseFacts Model_UDEval Model_Script Model_Cli Spec_Cli.
Import ListNotations.
Open Scope Z_scope.

Definition wf (p : parser) : Prop :=
  NoDup (map fst (options p)) /\
  Forall (fun o : str * action => exists c rest, fst o = chDASH :: c :: rest /\ (c = chDASH /\ rest <> [] \/ c <> chDASH /\ rest = []) /\ ~ In chEQ (fst o)) (options p).

Definition nodup_keys (l : list str) : bool :=
  (fix go l := match l with [] => true | x :: l' => negb (existsb (str_eqb x) l') && go l' end) l.
Lemma nodup_keys_ok l : nodup_keys l = true -> NoDup l.
Proof.
  induction l as [|x l IH]; intro H; [constructor|]. cbn in H. apply andb_prop in H. destruct H as [H1 H2]. constructor; [|now apply IH].
  intro I. assert (E : existsb (str_eqb x) l = true) by (apply existsb_exists; exists x; split; [exact I | apply str_eqb_refl]).
  now rewrite E in H1.
Qed.

Lemma ours_wf p : ours p -> wf p.
Proof.
  assert (L : forall o : str * action, (match fst o with
     | d :: c :: rest => N.eqb d chDASH && (if N.eqb c chDASH then match rest with [] => false | _ => true end else match rest with [] => true | _ => false end)
        && negb (existsb (N.eqb chEQ) (fst o))
     | _ => false end) = true ->
     exists c rest, fst o = chDASH :: c :: rest /\ (c = chDASH /\ rest <> [] \/ c <> chDASH /\ rest = []) /\ ~ In chEQ (fst o)).
  { intros [n a] H. cbn [fst] in *. destruct n as [|d [|c rest]]; try discriminate. apply andb_prop in H. destruct H as [H H3].
    apply andb_prop in H. destruct H as [H1 H2]. apply N.eqb_eq in H1. subst d. exists c, rest. split; [reflexivity|]. split.
    - destruct (N.eqb_spec c chDASH) as [E|E]; [left|right]; split; auto; destruct rest; congruence.
    - intro I. apply negb_true_iff in H3. enough (X : existsb (N.eqb chEQ) (chDASH :: c :: rest) = true) by congruence.
      apply existsb_exists. exists chEQ. split; [exact I | apply N.eqb_refl]. }
  intro O. split.
  - apply nodup_keys_ok. destruct O as [-> | [-> | ->]]; vm_compute; reflexivity.
  - apply Forall_forall. intros o I. apply L.
    assert (X : forallb (fun o : str * action => match fst o with
     | d :: c :: rest => N.eqb d chDASH && (if N.eqb c chDASH then match rest with [] => false | _ => true end else match rest with [] => true | _ => false end)
        && negb (existsb (N.eqb chEQ) (fst o))
     | _ => false end) (options p) = true) by (destruct O as [-> | [-> | ->]]; vm_compute; reflexivity).
    rewrite forallb_forall in X. now apply X.
Qed.

(* ---- lists and dictionaries ---- *)

Lemma flat_one {A B} (f : A -> list B) (l : list A) x y : NoDup l -> In x l -> f x = [y] -> (forall z, In z l -> z <> x -> f z = []) -> flat_map f l = [y].
Proof.
  induction l as [|z l IH]; intros N I E O; [destruct I|]. inversion N as [|? ? N1 N2]; subst. cbn [flat_map]. destruct I as [-> | I].
  - rewrite E. assert (X : flat_map f l = []).
    { clear - O N1. assert (H : forall z, In z l -> f z = []) by (intros z I; apply O; [now right | intros ->; contradiction]).
      clear O N1. induction l as [|z l IH]; [reflexivity|]. cbn [flat_map]. rewrite (H z); [|now left]. apply IH. intros; apply H; now right. }
    now rewrite X.
  - rewrite (O z); [|now left | intros ->; contradiction]. apply IH; auto. intros; apply O; auto. now right.
Qed.

Lemma In_get {V} (d : dict V) k v : NoDup (map fst d) -> In (k, v) d -> dict_get d k = Some v.
Proof. intros N I. now apply In_dict_get. Qed.

Lemma prefix_iff p l : prefixb N.eqb p l = true <-> exists r, l = p ++ r.
Proof.
  revert l. induction p as [|c p IH]; intros [|d l]; cbn [prefixb].
  - split; [intros _; now exists [] | reflexivity].
  - split; [intros _; now exists (d :: l) | reflexivity].
  - split; [discriminate | intros [r E]; discriminate].
  - rewrite andb_true_iff, N.eqb_eq, IH. split.
    + intros [-> [r ->]]. now exists r.
    + intros [r E]. injection E as -> ->. split; [reflexivity | now exists r].
Qed.
Lemma starts_iff s p : startswith s p = true <-> exists r, s = p ++ r.
Proof. apply prefix_iff. Qed.

Lemma split_eq_app n v : ~ In chEQ n -> split_eq (n ++ [chEQ] ++ v) = Some (n, v).
Proof.
  induction n as [|c n IH]; intro H; [reflexivity|]. cbn [split_eq app] in *. destruct (N.eqb_spec c chEQ) as [->|_]; [exfalso; apply H; now left|].
  rewrite IH; [reflexivity|]. intro I. apply H. now right.
Qed.
Lemma split_eq_none n : ~ In chEQ n -> split_eq n = None.
Proof.
  induction n as [|c n IH]; intro H; [reflexivity|]. cbn [split_eq]. destruct (N.eqb_spec c chEQ) as [->|_]; [exfalso; apply H; now left|].
  rewrite IH; [reflexivity|]. intro I. apply H. now right.
Qed.
Lemma split_eq_some s a b : split_eq s = Some (a, b) -> s = a ++ [chEQ] ++ b.
Proof.
  revert a b. induction s as [|c s IH]; intros a b E; [discriminate|]. cbn [split_eq] in E. destruct (N.eqb_spec c chEQ) as [->|_].
  - injection E as <- <-. reflexivity.
  - destruct (split_eq s) as [[a' b']|]; [|discriminate]. injection E as <- <-. cbn [app]. f_equal. now apply IH.
Qed.

Section Parser.
Variables (p : parser) (files : dict str).
Hypothesis W : wf p.

Lemma name_form n a : In (n, a) (options p) -> exists c rest, n = chDASH :: c :: rest /\ (c = chDASH /\ rest <> [] \/ c <> chDASH /\ rest = []) /\ ~ In chEQ n.
Proof. intro I. destruct W as [_ F]. rewrite Forall_forall in F. apply (F (n, a) I). Qed.

Lemma get_name n a : In (n, a) (options p) -> dict_get (options p) n = Some a.
Proof. apply In_get, W. Qed.

Lemma not_name n : ~ In n (map fst (options p)) -> dict_get (options p) n = None.
Proof. intro H. now apply dict_get_None. Qed.

Lemma options_nodup : NoDup (options p).
Proof. eapply NoDup_map_inv, W. Qed.

Lemma means_no_eq n a : means p n a -> ~ In chEQ n.
Proof.
  intros [I | (_ & _ & name & tail & I & E & _)].
  - now destruct (name_form n a I) as (_ & _ & _ & _ & H).
  - destruct (name_form name a I) as (_ & _ & _ & _ & H). intro J. apply H. rewrite E. apply in_or_app. now left.
Qed.

Lemma means_form n a : means p n a -> exists c rest, n = chDASH :: c :: rest /\ (c = chDASH -> rest <> []).
Proof.
  intros [I | ((c & rest & ->) & _)].
  - destruct (name_form n a I) as (c & rest & -> & [[-> H] | [H ->]] & _); eexists _, _; split; eauto; congruence.
  - exists chDASH, (c :: rest). split; [reflexivity | discriminate].
Qed.

Lemma abbreviated n a e : means p n a -> ~ In n (map fst (options p)) ->
  candidates p (n ++ match e with Some v => [chEQ] ++ v | None => [] end) =
  [(a, match find (fun o => startswith (fst o) n) (options p) with Some o => fst o | None => [] end, true, e)].
Proof.
  intros M NI. pose proof (means_no_eq n a M) as NE.
  destruct M as [I | ((c & rest & En) & _ & name & tail & I & E & U)]; [exfalso; apply NI; now apply (in_map fst) in I|].
  assert (F : find (fun o => startswith (fst o) n) (options p) = Some (name, a)).
  { destruct (find (fun o => startswith (fst o) n) (options p)) as [[name' a']|] eqn:Ef.
    - pose proof (find_some _ _ Ef) as [I' S']. cbn [fst] in S'. apply starts_iff in S'. destruct S' as [r S'].
      pose proof (U name' a' r I' S') as ->. pose proof (get_name name a I) as G. pose proof (get_name name a' I') as G'. congruence.
    - pose proof (find_none _ _ Ef _ I) as X. cbn [fst] in X. enough (startswith name n = true) by congruence. apply starts_iff. eauto. }
  rewrite F. cbn [fst].
  assert (C : candidates p (n ++ match e with Some v => [chEQ] ++ v | None => [] end) =
     flat_map (fun o => if startswith (fst o) n then [(snd o, fst o, true, e)] else []) (options p)).
  { unfold candidates. destruct (n ++ match e with Some v => [chEQ] ++ v | None => [] end) as [|c1 [|c2 r]] eqn:Es; try (subst n; discriminate).
    assert (c2 = chDASH) as -> by (subst n; cbn in Es; congruence). cbn [N.eqb chDASH Pos.eqb]. rewrite <- Es. destruct e as [v|].
    - rewrite split_eq_app by exact NE. reflexivity.
    - rewrite split_eq_none by (rewrite app_nil_r; exact NE). now rewrite app_nil_r. }
  rewrite C. apply flat_one with (x := (name, a)); [apply options_nodup | exact I | |].
  - cbn [fst snd]. assert (startswith name n = true) as -> by (apply starts_iff; eauto). reflexivity.
  - intros [name' a'] I' D. cbn [fst snd]. destruct (startswith name' n) eqn:S'; [|reflexivity]. exfalso. apply D.
    apply starts_iff in S'. destruct S' as [r S']. pose proof (U name' a' r I' S') as ->.
    pose proof (get_name name a I) as G. pose proof (get_name name a' I') as G'. congruence.
Qed.

Lemma no_eq_name n : In chEQ n -> dict_get (options p) n = None.
Proof.
  intro H. apply not_name. intro I. apply in_map_iff in I. destruct I as ([n' a] & E & I). cbn [fst] in E. subst n'.
  destruct (name_form n a I) as (_ & _ & _ & _ & X). contradiction.
Qed.

(* an option is recognized, with the value written behind it *)
Lemma classify_means n a e : means p n a -> exists name eq, classify p (n ++ match e with Some v => [chEQ] ++ v | None => [] end) = Known a name eq e.
Proof.
  intro M. destruct (means_form n a M) as (c & rest & En & Hr). pose proof (means_no_eq n a M) as NE.
  set (s := n ++ match e with Some v => [chEQ] ++ v | None => [] end).
  assert (Es : exists r, s = chDASH :: c :: r) by (unfold s; rewrite En; cbn [app]; eauto). destruct Es as [r Es].
  assert (X : classify p s = match dict_get (options p) s with
     | Some a => Known a s false None
     | None => match split_eq s with
               | Some (name, v) => match dict_get (options p) name with Some a => Known a name true (Some v) | None => classify_rest p s end
               | None => classify_rest p s
               end end) by (rewrite Es; reflexivity).
  rewrite X. clear X. destruct (in_dec (list_eq_dec N.eq_dec) n (map fst (options p))) as [I|NI].
  - assert (G : dict_get (options p) n = Some a).
    { destruct M as [J | (_ & N' & _)]; [now apply get_name | contradiction]. }
    destruct e as [v|]; unfold s.
    + rewrite no_eq_name by (apply in_or_app; right; now left). rewrite split_eq_app by exact NE. rewrite G. eauto.
    + rewrite app_nil_r, G. eauto.
  - pose proof (abbreviated n a e M NI) as C. fold s in C. pose proof (not_name n NI) as G. destruct e as [v|]; unfold s.
    + rewrite no_eq_name by (apply in_or_app; right; now left). rewrite split_eq_app by exact NE. rewrite G. unfold classify_rest. fold s. rewrite C. eauto.
    + rewrite app_nil_r, G, split_eq_none by exact NE. unfold classify_rest. unfold s in C. rewrite app_nil_r in C. rewrite C. eauto.
Qed.

Lemma classify_plain v : plain_word v -> classify p v = Plain.
Proof.
  intros [-> | [-> | (c & s' & -> & H)]]; [reflexivity | |].
  - unfold classify. cbn [N.eqb chDASH Pos.eqb negb]. rewrite not_name; [reflexivity|]. intro I. apply in_map_iff in I.
    destruct I as ([n a] & E & I). destruct (name_form n a I) as (c & rest & -> & _). discriminate.
  - unfold classify. destruct (N.eqb_spec c chDASH); [contradiction | reflexivity].
Qed.

Lemma classify_short c a v : In ([chDASH; c], a) (options p) -> v <> [] -> hd 0%N v <> chEQ -> classify p (chDASH :: c :: v) = Known a [chDASH; c] false (Some v).
Proof.
  intros I Hv He. destruct (name_form _ _ I) as (c' & rest & E & Hc & NE). injection E as <- <-.
  assert (Dc : c <> chDASH) by (destruct Hc as [[_ X] | [X _]]; [contradiction | exact X]).
  assert (L : forall n w, w <> [] -> n = chDASH :: c :: w -> ~ In n (map fst (options p))).
  { intros n w Hw -> J. apply in_map_iff in J. destruct J as ([n' a'] & E & J). cbn [fst] in E. subst n'.
    destruct (name_form _ _ J) as (c' & rest & E & [[-> X] | [X ->]] & _); injection E as -> ->; congruence. }
  unfold classify. cbn [N.eqb chDASH Pos.eqb negb]. rewrite (not_name (chDASH :: c :: v)) by (eapply L; eauto).
  assert (R : classify_rest p (chDASH :: c :: v) = Known a [chDASH; c] false (Some v)).
  { unfold classify_rest. assert (C : candidates p (chDASH :: c :: v) = [(a, [chDASH; c], false, Some v)]).
    { unfold candidates. destruct (N.eqb_spec c chDASH); [contradiction|].
      apply flat_one with (x := ([chDASH; c], a)); [apply options_nodup | exact I | cbn [fst snd]; now rewrite str_eqb_refl |].
      intros [n' a'] J D. cbn [fst snd]. destruct (str_eqb_spec n' [chDASH; c]) as [->|Dn].
      - exfalso. apply D. pose proof (get_name _ _ I). pose proof (get_name _ _ J). congruence.
      - destruct (startswith n' (chDASH :: c :: v)) eqn:S'; [|reflexivity]. exfalso. apply starts_iff in S'. destruct S' as [r S'].
        apply (L n' (v ++ r)); [destruct v; [contradiction | discriminate] | exact S' | now apply (in_map fst) in J]. }
    now rewrite C. }
  destruct (split_eq (chDASH :: c :: v)) as [[a0 b0]|] eqn:S0; [|exact R].
  apply split_eq_some in S0. destruct a0 as [|x [|y a0]].
  - cbn in S0. unfold chEQ, chDASH in S0. discriminate.
  - cbn in S0. injection S0 as _ S0 _. exfalso. apply NE. rewrite S0. right. now left.
  - cbn [app] in S0. injection S0 as <- <- S0.
    rewrite (not_name (chDASH :: c :: a0)); [exact R|]. apply (L _ a0); [|reflexivity]. intros ->. cbn in S0. subst v. now apply He.
Qed.

Definition apply_given (ns : namespace) (g : given) : namespace :=
  match g with
  | Value d v => mkNS (dict_set (stored ns) d v) (switched ns) (places ns)
  | Switched d => mkNS (stored ns) (dict_set (switched ns) d (S (match dict_get (switched ns) d with Some n => n | None => 0%nat end))) (places ns)
  | Place v => mkNS (stored ns) (switched ns) (places ns ++ [v])
  end.

Lemma cluster_value a d v done short eq : a = Store d \/ a = StoreFile d -> cluster p done short eq a v = Run done (Some (a, Some v)).
Proof. intros [-> | ->]; destruct v; reflexivity. Qed.

Lemma perform_file d v ns : v <> [chDASH] -> dict_get files v <> None -> perform files (StoreFile d) v ns = Started (apply_given ns (Value d v)).
Proof.
  intros H1 H2. cbn [perform apply_given]. destruct (str_eqb_spec v (of_string "-")) as [->|_]; [now elim H1|].
  unfold dict_mem. destruct (dict_get files v); [reflexivity | contradiction].
Qed.

Lemma scan_chunk g chunk rest ns extra : written p files g chunk -> (forall v, g = Place v -> (length (places ns) < positionals p)%nat) ->
  scan p files (chunk ++ rest) ns extra = scan p files rest (apply_given ns g) extra.
Proof.
  intros Wr Pl. destruct Wr as [v Hv | n d M | n d v M Hv | n d v M | n d v M Hv H1 H2 | n d v M H1 H2 | c d v I Hn H1 He H2]; cbn [app scan].
  - rewrite classify_plain by exact Hv. specialize (Pl v eq_refl). apply Nat.ltb_lt in Pl. now rewrite Pl.
  - destruct (classify_means n _ None M) as (name & eq & C). rewrite app_nil_r in C. rewrite C. reflexivity.
  - destruct (classify_means n _ None M) as (name & eq & C). rewrite app_nil_r in C. rewrite C. cbn [consume takes_value]. rewrite classify_plain by exact Hv. reflexivity.
  - destruct (classify_means n _ (Some v) M) as (name & eq & C). cbn [app] in C. rewrite C. cbn [consume]. rewrite cluster_value with (d := d) by auto. reflexivity.
  - destruct (classify_means n _ None M) as (name & eq & C). rewrite app_nil_r in C. rewrite C. cbn [consume takes_value]. rewrite classify_plain by exact Hv.
    cbn [perform_all]. now rewrite perform_file by assumption.
  - destruct (classify_means n _ (Some v) M) as (name & eq & C). cbn [app] in C. rewrite C. cbn [consume]. rewrite cluster_value with (d := d) by auto.
    cbn [perform_all]. now rewrite perform_file by assumption.
  - rewrite classify_short with (a := StoreFile d) by assumption. cbn [consume]. rewrite cluster_value with (d := d) by auto.
    cbn [perform_all]. now rewrite perform_file by assumption.
Qed.

Lemma chunk_words g chunk : written p files g chunk -> Forall (fun s => s <> [chDASH; chDASH] /\ classify p s <> Ambiguous) chunk.
Proof.
  assert (Pl : forall v, plain_word v -> v <> [chDASH; chDASH] /\ classify p v <> Ambiguous).
  { intros v Hv. split; [|rewrite classify_plain by exact Hv; discriminate]. destruct Hv as [-> | [-> | (c & s' & -> & H)]]; congruence. }
  assert (Me : forall n a e, means p n a -> n ++ match e with Some v => [chEQ] ++ v | None => [] end <> [chDASH; chDASH] /\
                               classify p (n ++ match e with Some v => [chEQ] ++ v | None => [] end) <> Ambiguous).
  { intros n a e M. split; [|destruct (classify_means n a e M) as (name & eq & ->); discriminate].
    destruct (means_form n a M) as (c & r & -> & H). intro E. cbn [app] in E. injection E as Ec Er. specialize (H Ec). destruct r; [contradiction | discriminate]. }
  intros Wr. destruct Wr as [v Hv | n d M | n d v M Hv | n d v M | n d v M Hv H1 H2 | n d v M H1 H2 | c d v I Hn H1 He H2];
    repeat (apply Forall_cons || apply Forall_nil); try (now apply Pl); try (specialize (Me _ _ None M); rewrite app_nil_r in Me; exact Me);
    try (exact (Me _ _ (Some v) M)).
  split; [destruct v; congruence | rewrite classify_short with (a := StoreFile d) by assumption; discriminate].
Qed.

(* ---- letters ---- *)

Lemma letter_form c a : In ([chDASH; c], a) (options p) -> c <> chDASH /\ c <> chEQ.
Proof.
  intro I. destruct (name_form _ _ I) as (c' & rest & E & Hc & NE). injection E as <- <-. split.
  - destruct Hc as [[_ X] | [X _]]; [contradiction | exact X].
  - intros ->. apply NE. right. now left.
Qed.

Lemma cluster_letters cs ds d0 done tail :
  Forall2 (fun c d => In ([chDASH; c], Switch d) (options p)) cs ds -> (cs <> [] \/ tail <> []) ->
  (tail = [] \/ exists c d v, tail = c :: v /\ In ([chDASH; c], StoreFile d) (options p) /\ hd 0%N v <> chEQ) ->
  cluster p done true false (Switch d0) (cs ++ tail) =
  Run (done ++ map Switch (d0 :: ds))
      (match tail with
       | [] => None
       | c :: v => match dict_get (options p) [chDASH; c] with Some a => Some (a, match v with [] => None | _ => Some v end) | None => None end
       end).
Proof.
  intro F. revert d0 done. induction F as [|c d cs ds I F IH]; intros d0 done Ne T.
  - destruct T as [-> | (c & d & v & -> & I & He)]; [now destruct Ne|]. destruct (letter_form _ _ I) as [Hd _]. cbn [app cluster takes_value negb orb].
    destruct (N.eqb_spec c chDASH); [contradiction|]. rewrite (get_name _ _ I). destruct v as [|x v]; [reflexivity|]. cbn [hd] in He.
    destruct (N.eqb_spec x chEQ); [contradiction|]. cbn [cluster takes_value]. reflexivity.
  - destruct (letter_form _ _ I) as [Hd _]. cbn [app cluster takes_value negb orb]. destruct (N.eqb_spec c chDASH); [contradiction|]. rewrite (get_name _ _ I).
    destruct (cs ++ tail) as [|x r] eqn:E.
    + apply app_eq_nil in E. destruct E as [-> ->]. inversion F; subst. reflexivity.
    + assert (Hx : x <> chEQ).
      { destruct cs as [|y cs]; cbn [app] in E.
        - destruct T as [-> | (c' & d' & v' & -> & I' & _)]; [discriminate|]. injection E as <- _. now apply (letter_form _ _ I').
        - injection E as -> _. inversion F as [|? d' ? ? I']; subst. now apply (letter_form _ _ I'). }
      destruct (N.eqb_spec x chEQ); [contradiction|]. rewrite <- E in IH |- *. rewrite IH; [|destruct cs; [right | left; discriminate] | exact T].
      * cbn [map]. rewrite <- app_assoc. reflexivity.
      * intros ->. discriminate E.
Qed.

Lemma perform_switches ds ns : perform_all files (map Switch ds) ns = Started (fold_left apply_given (map Switched ds) ns).
Proof. revert ns. induction ds as [|d ds IH]; intro ns; [reflexivity|]. cbn [map perform_all perform fold_left apply_given]. apply IH. Qed.

Lemma places_switches ds ns : places (fold_left apply_given (map Switched ds) ns) = places ns.
Proof. revert ns. induction ds as [|d ds IH]; intro ns; [reflexivity|]. cbn [map fold_left]. now rewrite IH. Qed.

Lemma scan_says gs chunk rest ns extra : says p files gs chunk -> (length (places ns) + length (places_of gs) <= positionals p)%nat ->
  scan p files (chunk ++ rest) ns extra = scan p files rest (fold_left apply_given gs ns) extra.
Proof.
  intros S L. destruct S as [g chunk Wr | cs ds Hl F | cs ds c d v Hc F I Hn H1 He H2 | cs ds c d v Hc F I Hv H1 H2].
  - cbn [fold_left]. apply scan_chunk; [exact Wr|]. intros v ->. cbn in L. lia.
  - destruct F as [|c0 d0 cs ds I0 F]; [cbn in Hl; lia|]. cbn [length] in Hl. cbn [app scan].
    rewrite classify_short with (a := Switch d0); [|exact I0 | intros ->; cbn in Hl; lia |].
    + unfold consume. cbn [is_short]. destruct (N.eqb_spec c0 chDASH); [now destruct (letter_form _ _ I0)|]. cbn [negb].
      rewrite <- (app_nil_r cs). rewrite (cluster_letters cs ds d0 [] []); auto.
      * cbn [app]. now rewrite perform_switches.
      * left. intros ->. cbn in Hl. lia.
    + destruct F as [|c1 d1 cs ds I1 F]; [cbn in Hl; lia|]. cbn [hd]. now apply (letter_form _ _ I1).
  - destruct F as [|c0 d0 cs ds I0 F]; [contradiction|]. cbn [app scan].
    assert (Hh : hd 0%N (cs ++ c :: v) <> chEQ).
    { destruct F as [|c1 d1 cs ds I1 F]; cbn [app hd]; [now apply (letter_form _ _ I) | now apply (letter_form _ _ I1)]. }
    rewrite classify_short with (a := Switch d0); [|exact I0 | destruct cs; discriminate | exact Hh].
    unfold consume. cbn [is_short]. destruct (N.eqb_spec c0 chDASH); [now destruct (letter_form _ _ I0)|]. cbn [negb].
    rewrite (cluster_letters cs ds d0 [] (c :: v)); [|exact F | right; discriminate | right; exists c, d, v; auto].
    rewrite (get_name _ _ I). destruct v as [|x v]; [contradiction|]. cbn [app]. rewrite perform_switches, perform_file by assumption.
    now rewrite fold_left_app.
  - destruct F as [|c0 d0 cs ds I0 F]; [contradiction|]. cbn [app scan].
    assert (Hh : hd 0%N (cs ++ [c]) <> chEQ).
    { destruct F as [|c1 d1 cs ds I1 F]; cbn [app hd]; [now apply (letter_form _ _ I) | now apply (letter_form _ _ I1)]. }
    rewrite classify_short with (a := Switch d0); [|exact I0 | destruct cs; discriminate | exact Hh].
    unfold consume. cbn [is_short]. destruct (N.eqb_spec c0 chDASH); [now destruct (letter_form _ _ I0)|]. cbn [negb].
    rewrite (cluster_letters cs ds d0 [] [c]); [|exact F | right; discriminate | right; exists c, d, []; repeat split; auto; discriminate].
    rewrite (get_name _ _ I). cbn [app]. rewrite classify_plain by exact Hv. rewrite perform_switches, perform_file by assumption.
    now rewrite fold_left_app.
Qed.

Lemma says_words gs chunk : says p files gs chunk -> Forall (fun s => s <> [chDASH; chDASH] /\ classify p s <> Ambiguous) chunk.
Proof.
  assert (Sh : forall c a v, In ([chDASH; c], a) (options p) -> v <> [] -> hd 0%N v <> chEQ ->
     chDASH :: c :: v <> [chDASH; chDASH] /\ classify p (chDASH :: c :: v) <> Ambiguous).
  { intros c a v I Hv He. split; [|rewrite classify_short with (a := a) by assumption; discriminate]. intro E. injection E as _ E. now subst v. }
  assert (Pl : forall v, plain_word v -> v <> [chDASH; chDASH] /\ classify p v <> Ambiguous).
  { intros v Hv. split; [|rewrite classify_plain by exact Hv; discriminate]. destruct Hv as [-> | [-> | (c & s' & -> & H)]]; congruence. }
  intro S. destruct S as [g chunk Wr | cs ds Hl F | cs ds c d v Hc F I Hn H1 He H2 | cs ds c d v Hc F I Hv H1 H2].
  - eapply chunk_words; eauto.
  - destruct F as [|c0 d0 cs ds I0 F]; [cbn in Hl; lia|]. cbn [length] in Hl. constructor; [|constructor]. eapply Sh; [exact I0 | intros ->; cbn in Hl; lia |].
    destruct F as [|c1 d1 cs ds I1 F]; [cbn in Hl; lia|]. cbn [hd]. now apply (letter_form _ _ I1).
  - destruct F as [|c0 d0 cs ds I0 F]; [contradiction|]. constructor; [|constructor]. cbn [app]. eapply Sh; [exact I0 | destruct cs; discriminate |].
    destruct F as [|c1 d1 cs ds I1 F]; cbn [app hd]; [now apply (letter_form _ _ I) | now apply (letter_form _ _ I1)].
  - destruct F as [|c0 d0 cs ds I0 F]; [contradiction|]. constructor; [|constructor; [now apply Pl | constructor]]. cbn [app]. eapply Sh; [exact I0 | destruct cs; discriminate |].
    destruct F as [|c1 d1 cs ds I1 F]; cbn [app hd]; [now apply (letter_form _ _ I) | now apply (letter_form _ _ I1)].
Qed.

Lemma places_of_app gs hs : places_of (gs ++ hs) = places_of gs ++ places_of hs.
Proof. induction gs as [|g gs IH]; [reflexivity|]. destruct g; cbn [app places_of]; now rewrite IH. Qed.

Lemma fold_places gs ns : places (fold_left apply_given gs ns) = places ns ++ places_of gs.
Proof.
  revert ns. induction gs as [|g gs IH]; intro ns; cbn [fold_left places_of]; [now rewrite app_nil_r|]. rewrite IH. destruct g; cbn [apply_given places]; auto.
  now rewrite <- app_assoc.
Qed.

Lemma scan_chunks gss chunks ns : Forall2 (says p files) gss chunks -> (length (places ns) + length (places_of (concat gss)) = positionals p)%nat ->
  scan p files (concat chunks) ns false = Started (fold_left apply_given (concat gss) ns).
Proof.
  intro F. revert ns. induction F as [|gs chunk gss chunks S F IH]; intros ns L; cbn [concat] in *.
  - cbn [places_of length] in L. rewrite Nat.add_0_r in L. cbn [scan orb fold_left]. now rewrite L, Nat.ltb_irrefl.
  - rewrite places_of_app, app_length in L. rewrite scan_says with (gs := gs); [|exact S | lia]. rewrite fold_left_app. apply IH.
    rewrite fold_places, app_length. lia.
Qed.

Lemma parse_chunks gss chunks : Forall2 (says p files) gss chunks -> length (places_of (concat gss)) = positionals p ->
  parse p files (concat chunks) = Started (fold_left apply_given (concat gss) (mkNS [] [] [])).
Proof.
  intros F L. unfold parse.
  assert (A : Forall (fun s => s <> [chDASH; chDASH] /\ classify p s <> Ambiguous) (concat chunks)).
  { clear L. induction F as [|g chunk gs chunks S F IH]; cbn [concat]; [constructor|]. apply Forall_app. split; [eapply says_words; eauto | exact IH]. }
  rewrite Forall_forall in A.
  assert (E1 : existsb (fun s => str_eqb s [chDASH; chDASH]) (concat chunks) = false).
  { apply not_true_is_false. intro H. apply existsb_exists in H. destruct H as (s & I & E). apply str_eqb_eq in E. destruct (A s I) as [X _]. exact (X E). }
  assert (E2 : existsb (fun s => match classify p s with Ambiguous => true | _ => false end) (concat chunks) = false).
  { apply not_true_is_false. intro H. apply existsb_exists in H. destruct H as (s & I & E). destruct (A s I) as [_ X]. destruct (classify p s); congruence. }
  rewrite E1, E2. now apply scan_chunks.
Qed.

End Parser.

Lemma get_set {V} (d : dict V) k v k' : dict_get (dict_set d k v) k' = if str_eqb k k' then Some v else dict_get d k'.
Proof. destruct (str_eqb_spec k k') as [->|D]; [apply dict_get_set_same | now apply dict_get_set_other]. Qed.

Lemma fold_holds gs ns :
  places (fold_left apply_given gs ns) = places ns ++ places_of gs /\
  (forall d, dict_get (stored (fold_left apply_given gs ns)) d = match value_of d gs with Some w => Some w | None => dict_get (stored ns) d end) /\
  forall d, dict_get (switched (fold_left apply_given gs ns)) d =
    match times d gs with O => dict_get (switched ns) d | n => Some (n + match dict_get (switched ns) d with Some m => m | None => 0 end)%nat end.
Proof.
  revert ns. induction gs as [|g gs IH]; intro ns; cbn [fold_left places_of value_of times]; [rewrite app_nil_r; auto|].
  destruct (IH (apply_given ns g)) as (H1 & H2 & H3). destruct g as [d0 v | d0 | v]; cbn [apply_given places stored switched] in *.
  - split; [exact H1|]. split; [|exact H3]. intro d. rewrite H2, get_set. destruct (value_of d gs); [reflexivity|]. now destruct (str_eqb d0 d).
  - split; [exact H1|]. split; [exact H2|]. intro d. rewrite H3, get_set. destruct (str_eqb_spec d0 d) as [->|D]; cbn [Nat.add].
    + destruct (times d gs) eqn:T; f_equal; lia.
    + reflexivity.
  - rewrite H1, <- app_assoc. auto.
Qed.

Lemma understood p files gss chunks : ours p -> Forall2 (says p files) gss chunks -> length (places_of (concat gss)) = positionals p ->
  exists ns, parse p files (concat chunks) = Started ns /\ holds (concat gss) ns.
Proof.
  intros O F L. eexists. split; [apply parse_chunks; [now apply ours_wf | exact F | exact L]|].
  destruct (fold_holds (concat gss) (mkNS [] [] [])) as (H1 & H2 & H3). split; [exact H1|]. split.
  - intro d. rewrite H2. now destruct (value_of d (concat gss)).
  - intro d. rewrite H3. cbn [switched dict_get]. destruct (times d (concat gss)); [reflexivity|]. f_equal. lia.
Qed.

Lemma value_of_in d gs v : value_of d gs = Some v -> In (Value d v) gs.
Proof.
  induction gs as [|g gs IH]; [discriminate|]. destruct g as [d0 v0 | d0 | v0]; cbn [value_of]; try (intro H; right; now apply IH).
  destruct (value_of d gs) as [w|]; [intro E; injection E as ->; right; now apply IH|].
  destruct (str_eqb_spec d0 d) as [->|]; [|discriminate]. intro E. injection E as ->. now left.
Qed.
Lemma value_of_none d gs v : value_of d gs = None -> ~ In (Value d v) gs.
Proof.
  induction gs as [|g gs IH]; [auto|]. destruct g as [d0 v0 | d0 | v0]; cbn [value_of]; try (intros H [E|I]; [discriminate | now apply IH]).
  destruct (value_of d gs) as [w|]; [discriminate|]. destruct (str_eqb_spec d0 d) as [->|D]; [discriminate|]. intros H [E|I]; [congruence | now apply IH].
Qed.

Lemma any_order gs gs' : Permutation gs gs' -> once gs -> places_of gs = places_of gs' ->
  (forall d, value_of d gs = value_of d gs') /\ (forall d, times d gs = times d gs').
Proof.
  intros P O _. split; intro d.
  - destruct (value_of d gs) as [v|] eqn:E; destruct (value_of d gs') as [w|] eqn:E'; auto.
    + apply value_of_in in E. apply value_of_in in E'. f_equal. apply (O d v w E). eapply Permutation_in; [apply Permutation_sym, P | exact E'].
    + exfalso. apply value_of_in in E. apply (value_of_none d gs' v E'). eapply Permutation_in; eauto.
    + exfalso. apply value_of_in in E'. apply (value_of_none d gs w E). eapply Permutation_in; [apply Permutation_sym, P | exact E'].
  - clear O. induction P as [|g l l' P IH | g h l | l l' l'' P IH P' IH']; auto.
    + destruct g; cbn [times]; auto.
    + destruct g; destruct h; cbn [times]; lia.
    + congruence.
Qed.
