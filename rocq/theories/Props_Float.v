(* Properties C129-C131: scores, comparisons and averages in floating point. *)
From Coq Require Import String Ascii ZArith NArith QArith Qabs Bool Lia Lqa List.
From Verif Require Import Base BaseFacts Model_Datamodel Model_Conllu Model_UDEval Model_Harness Model_Float
  Spec_UDEval Spec_Harness Spec_Float Props_Datamodel Props_Conllu Props_UDEval
  Proofs_Float Proofs_Float3 Proofs_Float4 Proofs_Float6 Proofs_Float7 Proofs_Float9.
Import ListNotations.
Open Scope Z_scope.

Local Notation total := Spec_UDEval.total.

(* ---- material for the concrete cases: a sentence of ten words, of which some have the tag N and some the lemma l ---- *)

Definition ex_ten (tags lemmas : nat) : str :=
  concat (map (fun i => join [chTAB]
    [print_Z (Z.of_nat i); of_string "a"; of_string (if Nat.leb i lemmas then "l" else "k"); of_string (if Nat.leb i tags then "N" else "V");
     of_string "_"; of_string "_"; of_string (if Nat.eqb i 1 then "0" else "1"); of_string "d"; of_string "_"; of_string "_"] ++ [chNL])
    (seq 1 10)) ++ ex_blank.

Definition ex_float (a b : str) : metric -> option score :=
  match fl_evaluate ascii_lower (ex_ud a) (ex_ud b) None with Ok f => f | Err _ => fun _ => None end.
Definition ex_exact (a b : str) : metric -> option score :=
  match evaluate ascii_lower (ex_ud a) (ex_ud b) None with Ok f => f | Err _ => fun _ => None end.
Definition ex_f1 (f : metric -> option score) (m : metric) : option Q := option_map (fun s => Qred (s_f1 s)) (f m).

(* ------------------------------------------------------------------ *)

(* the rounding of the model is the one of IEEE 754 *)
Theorem C129_rounding : forall q, ieee_double q (to_double q).
Proof. exact to_double_ieee. Qed.
Print Assumptions C129_rounding.

(* 1/10 and 3/10 are not doubles; 2^53 + 1 lies between two doubles *)
Example C129_rounding_case :
  (to_double (1 # 10) == 3602879701896397 # 36028797018963968)%Q /\
  (to_double (3 # 10) == 5404319552844595 # 18014398509481984)%Q /\
  (to_double 9007199254740993 == 9007199254740992)%Q /\ (to_double 9007199254740995 == 9007199254740996)%Q /\
  (to_double (-1 # 3) == - (6004799503160661 # 18014398509481984))%Q.
Proof. repeat match goal with |- _ /\ _ => split end; vm_compute; reflexivity. Qed.

Theorem C129_rounded_once : forall lower tg ts gold system weights,
  load_conllu tg = Ok gold -> load_conllu ts = Ok system ->
  match evaluate lower gold system weights, fl_evaluate lower gold system weights with
  | Ok fx, Ok f => forall m, match fx m, f m with
                             | Some scx, Some sc =>
                                 counts m = true \/
                                   weights_whole weights /\
                                   (total (metric_weight weights m) (u_words gold) + total (metric_weight weights m) (u_words system)
                                     <= inject_Z 9007199254740992)%Q ->
                                 rounded_score scx sc
                             | None, None => True
                             | _, _ => False
                             end
  | Err e, Err e' => e = e'
  | _, _ => False
  end.
Proof. exact outcomes. Qed.
Print Assumptions C129_rounded_once.

Example C129_rounded_once_case :
  ex_f1 (ex_exact (ex_ten 10 10) (ex_ten 1 3)) MUPOS = Some (1 # 10)%Q /\
  ex_f1 (ex_float (ex_ten 10 10) (ex_ten 1 3)) MUPOS = Some (3602879701896397 # 36028797018963968)%Q /\
  ex_f1 (ex_float (ex_ten 10 10) (ex_ten 1 3)) MLemmas = Some (5404319552844595 # 18014398509481984)%Q /\
  ex_f1 (ex_float (ex_ten 10 10) (ex_ten 1 3)) MWords = Some 1%Q /\
  ex_f1 (ex_float (ex_ten 10 10) (ex_ten 1 3)) MWeightedLAS = None.
Proof. repeat match goal with |- _ /\ _ => split end; vm_compute; reflexivity. Qed.

Theorem C129_well_formed : forall lower tg ts gold system weights f m sc,
  load_conllu tg = Ok gold -> load_conllu ts = Ok system -> weights_nonneg weights ->
  fl_evaluate lower gold system weights = Ok f -> f m = Some sc ->
  unit_interval (s_precision sc) /\ unit_interval (s_recall sc) /\ unit_interval (s_f1 sc) /\
  (forall q, s_aligned sc = Some q -> unit_interval q) /\ lies_between (s_precision sc) (s_recall sc) (s_f1 sc).
Proof. exact fl_evaluate_unit. Qed.
Print Assumptions C129_well_formed.

(* words are split differently: precision, F1 and recall differ *)
Example C129_well_formed_case :
  option_map (fun sc => (Qred (s_precision sc), Qred (s_recall sc), Qred (s_f1 sc), option_map Qred (s_aligned sc)))
    (ex_float ex_input ex_system MLAS) =
  Some ((3602879701896397 # 9007199254740992)%Q, (6004799503160661 # 18014398509481984)%Q, (3275345183542179 # 9007199254740992)%Q,
        Some (1 # 2)%Q).
Proof. vm_compute. reflexivity. Qed.

Theorem C129_self_perfect : forall lower text u weights, load_conllu text = Ok u -> weights_nonneg weights ->
  exists f, fl_evaluate lower u u weights = Ok f /\
    (forall m, f m = None <-> m = MWeightedLAS /\ weights = None) /\
    forall m sc, f m = Some sc -> ~ (metric_total weights u m == 0)%Q -> perfect sc.
Proof. exact fl_self_perfect. Qed.
Print Assumptions C129_self_perfect.

(* ten words of the weight 0.1, whose sum is not 1 *)
Example C129_self_perfect_case :
  let u := ex_ud (ex_ten 10 10) in
  match fl_evaluate ascii_lower u u (Some [(of_string "d", to_double (1 # 10))]) with
  | Ok f => option_map (fun sc => (Qred (s_precision sc), Qred (s_f1 sc), option_map Qred (s_aligned sc))) (f MWeightedLAS)
  | Err _ => None
  end = Some (1%Q, 1%Q, Some 1%Q) /\
  ~ (value (num_sum (fun w => Float (to_double (1 # 10))) (u_words u)) == 1)%Q.
Proof. split; vm_compute; [reflexivity | discriminate]. Qed.

(* ------------------------------------------------------------------ *)

(* Full statement: for a gold file and two outputs, comparing the sums of any metrics gives the same answer for the
   reported floating point numbers as for the exact scores.
   Correct tags 1 of 10 and lemmas 5 of 10 against 2 and 4 of 10: 0.1 + 0.5 < 0.2 + 0.4. *)
Theorem C130_same_choice_refuted : exists lower tg t1 t2 gold s1 s2 fx1 f1 fx2 f2 fields,
  load_conllu tg = Ok gold /\ load_conllu t1 = Ok s1 /\ load_conllu t2 = Ok s2 /\
  evaluate lower gold s1 None = Ok fx1 /\ fl_evaluate lower gold s1 None = Ok f1 /\
  evaluate lower gold s2 None = Ok fx2 /\ fl_evaluate lower gold s2 None = Ok f2 /\
  compare_scores fields AF1 (Some (table_of fx1)) (Some (table_of fx2)) = Ok false /\
  fl_compare_scores fields AF1 (Some (table_of f1)) (Some (table_of f2)) = Ok true.
Proof.
  exists ascii_lower, (ex_ten 10 10), (ex_ten 2 4), (ex_ten 1 5), (ex_ud (ex_ten 10 10)), (ex_ud (ex_ten 2 4)), (ex_ud (ex_ten 1 5)),
    (ex_exact (ex_ten 10 10) (ex_ten 2 4)), (ex_float (ex_ten 10 10) (ex_ten 2 4)),
    (ex_exact (ex_ten 10 10) (ex_ten 1 5)), (ex_float (ex_ten 10 10) (ex_ten 1 5)), (map metric_name [MUPOS; MLemmas]).
  do 8 (split; [vm_compute; reflexivity|]). vm_compute. reflexivity.
Qed.
Print Assumptions C130_same_choice_refuted.

(* Missing, against the full statement: more than one metric (see the next theorem), weighted metrics and CLAS, and
   files with more than 2^25 tokens, words or sentences. *)
Theorem C130_one_metric_partial : forall lower tg t1 t2 gold s1 s2 w1 w2 fx1 f1 fx2 f2 m a,
  load_conllu tg = Ok gold -> load_conllu t1 = Ok s1 -> load_conllu t2 = Ok s2 ->
  up_to 33554432 gold -> up_to 33554432 s1 -> up_to 33554432 s2 ->
  evaluate lower gold s1 w1 = Ok fx1 -> fl_evaluate lower gold s1 w1 = Ok f1 ->
  evaluate lower gold s2 w2 = Ok fx2 -> fl_evaluate lower gold s2 w2 = Ok f2 ->
  counts m = true -> (a = AAligned -> compared m <> None) ->
  exists b, compare_scores [metric_name m] a (Some (table_of fx1)) (Some (table_of fx2)) = Ok b /\
    fl_compare_scores [metric_name m] a (Some (table_of f1)) (Some (table_of f2)) = Ok b.
Proof. exact order_one. Qed.
Print Assumptions C130_one_metric_partial.

Definition ex_choice (a b : nat * nat) (ms : list metric) : result bool * result bool :=
  let t f p := Some (table_of (f (ex_ten 10 10) (ex_ten (fst p) (snd p)))) in
  (compare_scores (map metric_name ms) AF1 (t ex_exact a) (t ex_exact b), fl_compare_scores (map metric_name ms) AF1 (t ex_float a) (t ex_float b)).

Example C130_one_metric_case :
  up_to 33554432 (ex_ud (ex_ten 10 10)) /\
  ex_choice (2, 4)%nat (1, 5)%nat [MUPOS] = (Ok true, Ok true) /\ ex_choice (2, 4)%nat (1, 5)%nat [MLemmas] = (Ok false, Ok false) /\
  ex_choice (2, 4)%nat (2, 5)%nat [MUPOS] = (Ok false, Ok false).
Proof. unfold up_to. repeat match goal with |- _ /\ _ => split end; vm_compute; (reflexivity || discriminate). Qed.

(* Missing, against the full statement: what is answered if the exact sums are equal, outputs that are tokenized otherwise
   than the gold file, the metrics of spans, weighted metrics and CLAS, and files with 2^52 / (k * (k + 1)) words or more
   for k metrics. *)
Theorem C130_several_metrics_partial : forall lower tg t1 t2 gold s1 s2 w1 w2 fx1 f1 fx2 f2 ms a x1 x2,
  load_conllu tg = Ok gold -> load_conllu t1 = Ok s1 -> load_conllu t2 = Ok s2 ->
  same_tokenization gold s1 -> same_tokenization gold s2 ->
  evaluate lower gold s1 w1 = Ok fx1 -> fl_evaluate lower gold s1 w1 = Ok f1 ->
  evaluate lower gold s2 w2 = Ok fx2 -> fl_evaluate lower gold s2 w2 = Ok f2 ->
  Forall (fun m => counts m = true /\ compared m <> None) ms ->
  zlen ms * (zlen ms + 1) * zlen (u_words gold) < 4503599627370496 -> zlen ms <= 9007199254740992 ->
  score_sum (map metric_name ms) a (Some (table_of fx1)) = Ok x1 ->
  score_sum (map metric_name ms) a (Some (table_of fx2)) = Ok x2 ->
  ((x2 < x1)%Q -> fl_compare_scores (map metric_name ms) a (Some (table_of f1)) (Some (table_of f2)) = Ok true) /\
  ((x1 < x2)%Q -> fl_compare_scores (map metric_name ms) a (Some (table_of f1)) (Some (table_of f2)) = Ok false).
Proof. exact order_several. Qed.
Print Assumptions C130_several_metrics_partial.

Example C130_several_metrics_case :
  ex_choice (2, 4)%nat (1, 4)%nat [MUPOS; MLemmas; MLAS] = (Ok true, Ok true) /\
  ex_choice (1, 5)%nat (3, 4)%nat [MUPOS; MLemmas; MLAS] = (Ok false, Ok false) /\
  ex_choice (1, 5)%nat (2, 4)%nat [MUPOS; MLemmas] = (Ok false, Ok false).
Proof. repeat match goal with |- _ /\ _ => split end; vm_compute; reflexivity. Qed.

(* ------------------------------------------------------------------ *)

(* Full statement: each number of the average of reported tables lies between the lowest and the highest of the numbers
   it is the average of.  Three seeds with 1 of 10 correct tags: 0.1 + 0.1 + 0.1 is more than 0.3. *)
Definition ex_seed (tags : nat) : table := table_of (ex_float (ex_ten 10 10) (ex_ten tags 10)).
Lemma ex_seed_reported tags f : fl_evaluate ascii_lower (ex_ud (ex_ten 10 10)) (ex_ud (ex_ten tags 10)) None = Ok f ->
  load_conllu (ex_ten tags 10) = Ok (ex_ud (ex_ten tags 10)) -> fl_reported (ex_seed tags).
Proof.
  intros E L. exists ascii_lower, (ex_ten 10 10), (ex_ten tags 10), (ex_ud (ex_ten 10 10)), (ex_ud (ex_ten tags 10)), None, f.
  split; [vm_compute; reflexivity|]. split; [exact L|]. split; [intros d k q; discriminate|]. split; [exact E|].
  unfold ex_seed, ex_float. now rewrite E.
Qed.

Theorem C131_average_between_refuted : exists ts out vs r,
  Forall fl_reported ts /\ fl_average_scores [metric_name MUPOS] (map Some ts) = Ok out /\
  averaged AF1 (metric_name MUPOS) ts out vs r /\ ts <> [] /\ (forall v, In v vs -> v < r)%Q.
Proof.
  assert (R : fl_reported (ex_seed 1)) by (eapply ex_seed_reported; vm_compute; reflexivity).
  destruct (fl_average_scores [metric_name MUPOS] (map Some [ex_seed 1; ex_seed 1; ex_seed 1])) as [out|e] eqn:E; [|vm_compute in E; discriminate].
  destruct (dict_get (ex_seed 1) (metric_name MUPOS)) as [s|] eqn:Es; [|vm_compute in Es; discriminate].
  destruct (dict_get out (metric_name MUPOS)) as [t|] eqn:Et; [|vm_compute in E; injection E as <-; vm_compute in Et; discriminate].
  exists [ex_seed 1; ex_seed 1; ex_seed 1], out, [s_f1 s; s_f1 s; s_f1 s], (s_f1 t).
  split; [repeat constructor; exact R|]. split; [exact E|]. split; [|split; [discriminate|]].
  - exists [s; s; s], t. split; [repeat constructor; exact Es|]. split; [repeat constructor|]. split; [exact Et | constructor].
  - assert (L : (s_f1 s < s_f1 t)%Q).
    { vm_compute in Es. injection Es as <-. vm_compute in E. injection E as <-. vm_compute in Et. injection Et as <-. vm_compute. reflexivity. }
    intros v Iv. cbn [In] in Iv. destruct Iv as [<-|[<-|[<-|[]]]]; exact L.
Qed.
Print Assumptions C131_average_between_refuted.

(* Missing, against the full statement: for three seeds and more the average is only near to numbers between the lowest
   and the highest, namely to the exact mean; weighted LAS, and metrics without aligned accuracy, for which
   calculate_average_scores fails. *)
Theorem C131_average_near_partial : forall ms ts,
  NoDup ms -> ts <> [] -> zlen ts <= 9007199254740992 -> Forall fl_reported ts ->
  Forall (fun m => compared m <> None /\ m <> MWeightedLAS) ms ->
  exists out, fl_average_scores (map metric_name ms) (map Some ts) = Ok out /\
    forall m a, In m ms -> exists vs r, averaged a (metric_name m) ts out vs r /\
      unit_interval r /\
      (Forall (fun v => v == 1)%Q vs -> (r == 1)%Q) /\ (Forall (fun v => v == 0)%Q vs -> (r == 0)%Q) /\
      (zlen ts <= 2 -> forall lo hi, Forall (fun v => lo <= v <= hi)%Q vs -> (lo <= r <= hi)%Q) /\
      (Qabs (r - meanq vs) <= inject_Z (zlen ts + 2) / inject_Z 9007199254740992)%Q.
Proof. exact fl_average_numbers. Qed.
Print Assumptions C131_average_near_partial.

Definition ex_mean (tags : list nat) : option Q :=
  match fl_average_scores [metric_name MUPOS] (map (fun n => Some (ex_seed n)) tags) with
  | Ok out => option_map (fun s => Qred (s_f1 s)) (dict_get out (metric_name MUPOS))
  | Err _ => None
  end.

Example C131_average_near_case :
  ex_mean [1]%nat = Some (3602879701896397 # 36028797018963968)%Q /\
  ex_mean [1; 1]%nat = Some (3602879701896397 # 36028797018963968)%Q /\
  ex_mean [1; 1; 1]%nat = Some (7205759403792795 # 72057594037927936)%Q /\
  ex_mean [10; 10; 10]%nat = Some 1%Q /\ ex_mean [0; 0; 0]%nat = Some 0%Q /\
  ex_mean [1; 4; 10]%nat = Some (1 # 2)%Q.
Proof. repeat match goal with |- _ /\ _ => split end; vm_compute; reflexivity. Qed.

(* better scores do not make a worse average *)
Theorem C131_average_monotone : forall ms ts ts' out out' m a vs r ws r',
  NoDup ms -> ts <> [] -> zlen ts <= 9007199254740992 -> Forall fl_reported ts -> Forall fl_reported ts' ->
  Forall (fun m => compared m <> None /\ m <> MWeightedLAS) ms ->
  fl_average_scores (map metric_name ms) (map Some ts) = Ok out -> fl_average_scores (map metric_name ms) (map Some ts') = Ok out' ->
  In m ms -> averaged a (metric_name m) ts out vs r -> averaged a (metric_name m) ts' out' ws r' ->
  Forall2 Qle vs ws -> (r <= r')%Q.
Proof. exact fl_average_mono. Qed.
Print Assumptions C131_average_monotone.

Example C131_average_monotone_case :
  match ex_mean [1; 3; 7]%nat, ex_mean [2; 3; 7]%nat with Some x, Some y => (x < y)%Q | _, _ => False end.
Proof. vm_compute. reflexivity. Qed.
