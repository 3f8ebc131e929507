(* Command lines that are not accepted: how they end. *)
From Coq Require Import String Ascii ZArith NArith QArith Bool Lia List.
From Verif Require Import Base BaseFacts Model_Cli Spec_Cli Proofs_Cli Proofs_Cli2.
Import ListNotations.
Open Scope Z_scope.

(* no failure, and modelled if no option is a file *)
Definition proper {A} (p : parser) (r : started A) : Prop :=
  match r with Failed _ => False | Unmodelled => exists n d, In (n, StoreFile d) (options p) | _ => True end.
Definition of_parser (p : parser) (a : action) : Prop := exists n, In (n, a) (options p).

Lemma perform_proper p files a v ns : of_parser p a -> proper p (perform files a v ns).
Proof.
  intros [n I]. destruct a as [d|d|d|]; cbn [perform proper]; auto. destruct (str_eqb v _); [exists n, d; exact I|]. now destruct (dict_mem files v).
Qed.
Lemma perform_all_proper p files l ns : Forall (of_parser p) l -> proper p (perform_all files l ns).
Proof.
  intro F. revert ns. induction F as [|a l O F IH]; intro ns; cbn [perform_all]; [exact I|].
  pose proof (perform_proper p files a [] ns O) as X. destruct (perform files a [] ns); auto.
Qed.

Lemma cluster_actions p k : forall done short eq a e, (length e <= k)%nat -> Forall (of_parser p) done -> of_parser p a ->
  match cluster p done short eq a e with
  | Bad => True
  | Leftover l => Forall (of_parser p) l
  | Run l last => Forall (of_parser p) l /\ match last with Some (a', _) => of_parser p a' | None => True end
  end.
Proof.
  induction k as [|k IH]; intros done short eq a e Le F O; destruct e as [|c rest]; cbn [cluster length] in *; try lia; (destruct (takes_value a); [split; [exact F | exact O]|]); auto.
  destruct (negb short || eq || N.eqb c chDASH); [exact I|].
  assert (F1 : Forall (of_parser p) (done ++ [a])) by (apply Forall_app; auto).
  destruct (dict_get (options p) [chDASH; c]) as [a'|] eqn:G; [|exact F1]. assert (O' : of_parser p a') by (eexists; apply dict_get_In; eauto).
  destruct rest as [|d rest].
  - destruct (takes_value a'); [split; [exact F1 | exact O']|]. split; [|exact I]. apply Forall_app; auto.
  - cbn [length] in Le. destruct (N.eqb d chEQ); apply IH; auto; cbn [length]; lia.
Qed.

Lemma consume_actions p a n q e : of_parser p a ->
  match consume p a n q e with
  | Bad => True
  | Leftover l => Forall (of_parser p) l
  | Run l last => Forall (of_parser p) l /\ match last with Some (a', _) => of_parser p a' | None => True end
  end.
Proof.
  intro O. destruct e as [v|]; cbn [consume]; [eapply cluster_actions; [reflexivity | constructor | exact O]|]. destruct (takes_value a); auto.
Qed.

Lemma classify_action p s a n q e : classify p s = Known a n q e -> of_parser p a.
Proof.
  assert (R : classify_rest p s = Known a n q e -> of_parser p a).
  { unfold classify_rest. destruct (candidates p s) as [|[[[a0 n0] q0] e0] l] eqn:C.
    - destruct (negative_number s); [discriminate|]. destruct (mem_char 32%N s); discriminate.
    - destruct l as [|x l]; [|discriminate]. intro H. injection H as -> -> -> ->.
      assert (I : In (a, n, q, e) (candidates p s)) by (rewrite C; now left). clear C. unfold candidates in I. destruct s as [|c [|d rest]]; try contradiction.
      destruct (N.eqb d chDASH).
      + destruct (split_eq (c :: d :: rest)) as [[? ?]|]; apply in_flat_map in I; destruct I as ([n' a'] & I & J); cbn [fst snd] in J;
          destruct (startswith _ _) in J; try contradiction; destruct J as [J | []]; injection J as <- <- _ _; now exists n'.
      + apply in_flat_map in I. destruct I as ([n' a'] & I & J). cbn [fst snd] in J. destruct (str_eqb n' [c; d]); [|destruct (startswith _ _) in J; [|contradiction]];
          destruct J as [J | []]; injection J as <- _ _ _; now exists n'. }
  intro H. unfold classify in H. destruct s as [|c s]; [discriminate|]. destruct (negb (N.eqb c chDASH)); [discriminate|].
  destruct (dict_get (options p) (c :: s)) as [a0|] eqn:G; [injection H as <- _ _ _; eexists; apply dict_get_In; eauto|].
  destruct s as [|d s]; [discriminate|]. destruct (split_eq (c :: d :: s)) as [[name v]|]; [|exact (R H)].
  destruct (dict_get (options p) name) as [a0|] eqn:G'; [|exact (R H)]. injection H as <- _ _ _. eexists. apply dict_get_In. eauto.
Qed.

Lemma scan_proper p files k : forall args ns extra, (length args <= k)%nat -> proper p (scan p files args ns extra).
Proof.
  induction k as [|k IH]; intros args ns extra Le; destruct args as [|s rest]; cbn [length] in Le; try lia; cbn [scan];
    try (now destruct (extra || (length (places ns) <? positionals p)%nat)).
  destruct (classify p s) as [|a name q explicit| |] eqn:C.
  - destruct (length (places ns) <? positionals p)%nat; apply IH; lia.
  - apply classify_action in C. pose proof (consume_actions p a name q explicit C) as X.
    destruct (consume p a name q explicit) as [|l|l [[a' [v|]]|]]; [exact I| | | |].
    + pose proof (perform_all_proper p files l ns X) as Y. destruct (perform_all files l ns); auto. apply IH. lia.
    + destruct X as [X O]. pose proof (perform_all_proper p files l ns X) as Y. destruct (perform_all files l ns) as [n1| | | |]; auto.
      pose proof (perform_proper p files a' v n1 O) as Z0. destruct (perform files a' v n1); auto. apply IH. lia.
    + destruct X as [X O]. destruct rest as [|v rest]; [exact I|]. cbn [length] in Le. destruct (classify p v); try exact I.
      pose proof (perform_all_proper p files l ns X) as Y. destruct (perform_all files l ns) as [n1| | | |]; auto.
      pose proof (perform_proper p files a' v n1 O) as Z0. destruct (perform files a' v n1); auto. apply IH. lia.
    + destruct X as [X _]. pose proof (perform_all_proper p files l ns X) as Y. destruct (perform_all files l ns); auto. apply IH. lia.
  - apply IH. lia.
  - exact I.
Qed.

(* what is not accepted ends with a usage message or the help *)
Lemma parse_ends p files args : p = evaluation_parser \/ p = grid_parser -> ~ In [chDASH; chDASH] args ->
  (forall ns, parse p files args <> Started ns) -> parse p files args = Usage \/ parse p files args = Helped.
Proof.
  intros O N H. assert (X : proper p (parse p files args)).
  { unfold parse. match goal with |- proper _ (if existsb ?f args then _ else _) => destruct (existsb f args) eqn:E end.
    - exfalso. apply N. apply existsb_exists in E. destruct E as (s & I & Es). apply str_eqb_eq in Es. now subst s.
    - match goal with |- proper _ (if ?b then _ else _) => destruct b; [exact I | eapply scan_proper; reflexivity] end. }
  destruct (parse p files args) as [ns| | | |]; auto; [now destruct (H ns) | contradiction |].
  destruct X as (n & d & I). exfalso. destruct O as [-> | ->]; cbn in I; intuition discriminate.
Qed.

Lemma refused {J} (parse_json : str -> result J) files args w : In w args -> dashed w -> ~ In [chDASH; chDASH] args ->
  (~ an_option evaluation_parser w -> evaluation_arguments parse_json files args = Usage \/ evaluation_arguments parse_json files args = Helped) /\
  (~ an_option grid_parser w -> grid_arguments parse_json files args = Usage \/ grid_arguments parse_json files args = Helped).
Proof.
  intros I D N. split; intro A.
  - destruct (parse_ends evaluation_parser files args) as [E | E]; auto; [intros ns E; apply A; eapply accepted; eauto | |];
      unfold evaluation_arguments, parse_arguments; rewrite E; auto.
  - destruct (parse_ends grid_parser files args) as [E | E]; auto; [intros ns E; apply A; eapply accepted; eauto | |];
      unfold grid_arguments; rewrite E; auto.
Qed.
