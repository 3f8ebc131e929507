(* Properties C54-C56 and C72: model selection and averaging. *)
From Coq Require Import String Ascii ZArith NArith QArith Bool Lia Permutation List.
From Verif Require Import Base BaseFacts Model_UDEval Model_Harness Spec_Harness Proofs_Harness Proofs_Harness2 Proofs_Harness3
  Proofs_Harness4 Proofs_Harness5.
Import ListNotations.
Open Scope Z_scope.

Definition ex_score (q : Q) : score := mkScore q q q (Some q).
Definition ex_table (upos las : Q) : table := [(of_string "UPOS", ex_score upos); (of_string "LAS", ex_score las)].
Definition ex_fields : list str := [of_string "UPOS"; of_string "LAS"].

(* ---------------- C54 ---------------- *)

(* Whenever the search stops, regularly or with an exception, m candidates are finished; one of them is the best, and the
   disposal callback was called for each of the others exactly once and for no other candidate.  The evaluation of a
   candidate itself disposes of paths; none of them is a candidate's directory. *)
Theorem C54_search_every : forall (P M : Type) fields a (cs : list (P * (list str * result (M * option table)))) s e,
  params_search fields a cs = (s, e) -> Forall (fun c => forall j, ~ In (params_dir j) (fst (snd c))) cs ->
  exists m, (m <= length cs)%nat /\ (e = None <-> m = length cs) /\
    (m = 0%nat -> sel_best s = None /\ forall j, times (params_dir j) (sel_disposed s) = 0%nat) /\
    ((0 < m)%nat -> exists i p d mo sc, (i < m)%nat /\ nth_error cs i = Some (p, (d, Ok (mo, sc))) /\
       sel_best s = Some (p, mo, sc, params_dir i) /\
       forall j, times (params_dir j) (sel_disposed s) = if (j <? m)%nat && negb (j =? i)%nat then 1%nat else 0%nat).
Proof. exact @search_every. Qed.
Print Assumptions C54_search_every.

(* The moments before the end: what was disposed after the first candidates stays the beginning of what is disposed. *)
Theorem C54_search_moments : forall (P M : Type) fields a (cs1 cs2 : list (P * (list str * result (M * option table)))) s1 s e,
  params_search fields a cs1 = (s1, None) -> params_search fields a (cs1 ++ cs2) = (s, e) ->
  exists l, sel_disposed s = sel_disposed s1 ++ l.
Proof. exact @search_moments. Qed.
Print Assumptions C54_search_moments.

(* With comparable scores the search succeeds with the first candidate of maximal score. *)
Theorem C54_search_best : forall (P M : Type) fields a (cs : list (P * (list str * result (M * option table)))) qs, cs <> [] ->
  Forall2 (fun c q => exists m t, snd (snd c) = Ok (m, Some t) /\ worth fields a t q) cs qs ->
  exists s i p d mo sc, params_search fields a cs = (s, None) /\ first_best qs i /\
    nth_error cs i = Some (p, (d, Ok (mo, Some sc))) /\ sel_best s = Some (p, mo, Some sc, params_dir i).
Proof. exact @search_best. Qed.
Print Assumptions C54_search_best.

(* four candidates; the second and the third have the same sum, the second one is taken *)
Definition ex_cands : list (Z * (list str * result (Z * option table))) :=
  [(10, ([of_string "x"], Ok (100, Some (ex_table (1#4) (2#4)))));
   (11, ([], Ok (101, Some (ex_table (3#4) (1#4)))));
   (12, ([], Ok (102, Some (ex_table (2#4) (2#4)))));
   (13, ([], Ok (103, Some (ex_table (1#4) (1#4)))))].

Example C54_case :
  params_search ex_fields AF1 ex_cands =
    (mkSel (Some ((11, 101), Some (ex_table (3#4) (1#4)), of_string "params-1"))
           [of_string "x"; of_string "params-0"; of_string "params-2"; of_string "params-3"], None) /\
  Forall (fun c => forall j, ~ In (params_dir j) (fst (snd c))) ex_cands /\
  (exists s, params_search ex_fields AF1 (ex_cands ++ [(14, ([of_string "y"], Err EAttr))]) = (s, Some EAttr) /\
             option_map snd (sel_best s) = Some (of_string "params-1")).
Proof.
  split; [vm_compute; reflexivity|]. split.
  - repeat constructor; cbn [fst snd]; intros j H; try (destruct H; fail). destruct H as [H|[]]. discriminate.
  - eexists. split; vm_compute; reflexivity.
Qed.

(* ---------------- C55 ---------------- *)

(* With printable and comparable scores the first epoch of maximal score is returned with its tagger and scores, and the
   directories of the other epochs are disposed, each once, and no other path. *)
Theorem C55_best_epoch : forall (T : Type) metrics fields a dir seed (ys : list (table * T)) qs, plain dir -> ys <> [] ->
  Forall2 (fun y q => printable metrics (fst y) /\ worth fields a (fst y) q) ys qs ->
  exists i sc tagger d,
    evaluate_seed metrics fields a dir seed (ys, None) = (d, Ok (Some tagger, inside dir (print_Z seed), Some sc)) /\
    first_best qs i /\ nth_error ys i = Some (sc, tagger) /\
    Permutation (epoch_dir dir seed i :: d) (map (epoch_dir dir seed) (seq 0 (length ys))).
Proof. exact @seed_best. Qed.
Print Assumptions C55_best_epoch.

(* Whatever happens, exactly the directories of m epochs but one are disposed, and a returned tagger is the one left. *)
Theorem C55_any_outcome : forall (T : Type) metrics fields a dir seed (trained : list (table * T) * option exn) d r, plain dir ->
  evaluate_seed metrics fields a dir seed trained = (d, r) ->
  (fst trained = [] -> d = []) /\
  (forall tagger path scores, r = Ok (tagger, path, scores) -> path = inside dir (print_Z seed) /\
     ((fst trained = [] /\ tagger = None /\ scores = None) \/
      exists i sc t, nth_error (fst trained) i = Some (sc, t) /\ tagger = Some t /\ scores = Some sc /\
        Permutation (epoch_dir dir seed i :: d) (map (epoch_dir dir seed) (seq 0 (length (fst trained)))))) /\
  (d = [] \/ exists m i, (i < m)%nat /\ (m <= length (fst trained))%nat /\
     Permutation (epoch_dir dir seed i :: d) (map (epoch_dir dir seed) (seq 0 m))).
Proof.
  intros T metrics fields a dir seed trained d r PL H. destruct (seed_any _ _ _ _ _ _ _ _ PL H) as (m & best & L & K & R).
  destruct best as [[x sc]|]; cbn [kept_epoch] in K.
  - destruct K as (i & Li & EI & PM). split; [intros E; rewrite E in L; cbn in L; lia|]. split.
    + intros tagger path scores E. destruct (R _ _ _ E) as (-> & -> & -> & ->). split; auto. right. exists i, sc, x. auto.
    + right. exists m, i. auto.
  - destruct K as [-> ->]. split; auto. split; auto.
    intros tagger path scores E. destruct (R _ _ _ E) as (L0 & -> & -> & ->). split; auto. left.
    symmetry in L0. apply length_zero_iff_nil in L0. auto.
Qed.
Print Assumptions C55_any_outcome.

(* The directory that is removed for an epoch is the one the trainer saved the epoch's model in. *)
Theorem C55_removes_saved : forall base dir seed e, plain dir ->
  save_path base dir seed (Z.of_nat e) = based base (epoch_dir dir seed e) /\
  removed_path base (epoch_dir dir seed e) = based base (epoch_dir dir seed e).
Proof. exact save_is_removed. Qed.
Print Assumptions C55_removes_saved.

Definition ex_epochs : list (table * Z) :=
  [(ex_table (1#4) (1#4), 1); (ex_table (2#4) (3#4), 2); (ex_table (3#4) (2#4), 3)].

Example C55_case :
  evaluate_seed ex_fields ex_fields AAligned (of_string "params-7") 42 (ex_epochs, None) =
    ([of_string "params-7/42/epoch-0"; of_string "params-7/42/epoch-2"],
     Ok (Some 2, of_string "params-7/42", Some (ex_table (2#4) (3#4)))) /\
  evaluate_seed ex_fields ex_fields AAligned [] 42 (ex_epochs, Some EIndex) = ([of_string "42/epoch-0"; of_string "42/epoch-2"], Err EIndex) /\
  save_path (of_string "models") (of_string "params-7") 42 2 = of_string "models/params-7/42/epoch-2".
Proof. split; [|split]; vm_compute; reflexivity. Qed.

(* ---------------- C56 ---------------- *)

(* The averager raises a TypeError for every metric list with Tokens, Sentences or Words, for whatever was reported. *)
Theorem C56_every_metric_refuted : forall metrics ts m,
  Forall reported ts -> Forall (fun k => exists m, m <> MWeightedLAS /\ k = metric_name m) metrics ->
  In m [MTokens; MSentences; MWords] -> In (metric_name m) metrics ->
  average_scores metrics (map Some ts) = Err EType.
Proof.
  intros metrics ts m R F I IM. rewrite Forall_forall in R, F.
  assert (N : m <> MWeightedLAS /\ aligned_metric m = false).
  { cbn in I. destruct I as [<-|[<-|[<-|[]]]]; split; (discriminate || reflexivity). }
  destruct N as [N A]. apply (averages_unaligned metrics ts (metric_name m)); auto.
  - intros t k It Ik. destruct (F k Ik) as (m' & N' & ->). destruct (reported_get t m' (R t It) N') as (s & Es & _). eauto.
  - intros t s It Es. destruct (reported_get t m (R t It) N) as (s' & Es' & AL). rewrite A in AL. congruence.
Qed.
Print Assumptions C56_every_metric_refuted.

(* For the other metrics the averager gives the means; Tokens, Sentences and Words are missing. *)
Theorem C56_means_partial : forall metrics ts, ts <> [] -> Forall reported ts -> NoDup metrics ->
  Forall (fun k => exists m, In m [MUPOS; MXPOS; MFeats; MAllTags; MLemmas; MUAS; MLAS; MCLAS] /\ k = metric_name m) metrics ->
  exists out, average_scores metrics (map Some ts) = Ok out /\ map fst out = metrics /\
    forall k, In k metrics -> exists ss s, scores_for k ts ss /\ dict_get out k = Some s /\ mean_score ss s.
Proof.
  intros metrics ts NE R ND F. rewrite Forall_forall in R, F.
  destruct (averages metrics ts NE) as (out & E & _ & K & G).
  - intros t k It Ik. destruct (F k Ik) as (m & Im & ->).
    assert (N : m <> MWeightedLAS /\ aligned_metric m = true).
    { cbn in Im. repeat (destruct Im as [<-|Im]; [split; (discriminate || reflexivity)|]). destruct Im. }
    destruct N as [N A]. destruct (reported_get t m (R t It) N) as (s & Es & AL). rewrite A in AL. destruct AL as (q & EQ). eauto.
  - exists out. split; auto. split; auto. intros k Ik. destruct (G k Ik) as (ss & s & SF & Eo & MT). exists ss, s. split; auto. split; auto.
    apply mean_once. replace 1%nat with (times k metrics); auto. apply (proj1 (NoDup_count_occ' (list_eq_dec N.eq_dec) metrics)); auto.
Qed.
Print Assumptions C56_means_partial.

(* The exact result for all lists of tables with an aligned accuracy for every metric: the mean, multiplied by the number
   of times the metric is listed. *)
Theorem C56_any_list : forall metrics ts, ts <> [] ->
  (forall t k, In t ts -> In k metrics -> exists s q, dict_get t k = Some s /\ s_aligned s = Some q) ->
  exists out, average_scores metrics (map Some ts) = Ok out /\ (forall k, In k (map fst out) <-> In k metrics) /\
    forall k, In k metrics -> exists ss s, scores_for k ts ss /\ dict_get out k = Some s /\ mean_times (times k metrics) ss s.
Proof.
  intros metrics ts NE H. destruct (averages metrics ts NE H) as (out & E & K & _ & G). exists out. auto.
Qed.
Print Assumptions C56_any_list.

Definition ex_ud : ud := mkUD [] [] [] [].

Example C56_case :
  (exists out p l, average_scores ex_fields (map Some [ex_table (1#4) (1#2); ex_table (3#4) (1#4); ex_table (2#4) (3#4)]) = Ok out /\
     map fst out = ex_fields /\ dict_get out (of_string "UPOS") = Some p /\ s_f1 p == 1#2 /\
     dict_get out (of_string "LAS") = Some l /\ s_recall l == 1#2) /\
  (exists out p, average_scores [of_string "UPOS"; of_string "UPOS"] (map Some [ex_table (1#4) (1#2); ex_table (3#4) (1#4)]) = Ok out /\
     dict_get out (of_string "UPOS") = Some p /\ s_f1 p == 1) /\
  (exists t, reported t /\ average_scores [of_string "UPOS"; of_string "Words"] [Some t] = Err EType /\
     exists out, average_scores [of_string "UPOS"; of_string "CLAS"] [Some t] = Ok out).
Proof.
  split; [|split].
  - do 3 eexists. split; [vm_compute; reflexivity|]. split; [reflexivity|]. split; [reflexivity|]. split; [reflexivity|]. split; reflexivity.
  - do 2 eexists. split; [vm_compute; reflexivity|]. split; reflexivity.
  - destruct (evaluate (fun s => s) ex_ud ex_ud None) as [f|e] eqn:E; [|discriminate]. exists (table_of f).
    injection E as <-. split; [exists (fun s => s), ex_ud, ex_ud, None; eexists; split; reflexivity|].
    split; [vm_compute; reflexivity|]. eexists. vm_compute. reflexivity.
Qed.

(* ---------------- C72 ---------------- *)

(* After a search with the evaluators that are built from the settings, for every base directory of the models: of the
   winning candidate exactly one epoch per seed is left, the one whose tagger is tested; of the other candidates nothing. *)
Theorem C72_only_winners_left : forall (P T : Type) metrics fields a base (cands : list (P * seeding (Z * (list (table * T) * option exn)))) s,
  search metrics fields a cands = (s, None) -> cands <> [] ->
  Forall (fun c => NoDup (map fst (runs_of (snd c)))) cands ->
  exists k params runs models scores,
    nth_error cands k = Some (params, runs) /\
    sel_best s = Some (params, models, scores, params_dir k) /\
    Forall2 (fun run m =>
      snd m = inside (params_dir k) (print_Z (fst run)) /\
      ((fst (snd run) = [] /\ fst m = None) \/
       exists i sc t, nth_error (fst (snd run)) i = Some (sc, t) /\ fst m = Some t /\
         forall e, (e < length (fst (snd run)))%nat ->
           (gone base (sel_disposed s) (based base (epoch_dir (params_dir k) (fst run) e)) <-> e <> i)))
      (runs_of runs) models /\
    forall j seed e, (j < length cands)%nat -> j <> k ->
      gone base (sel_disposed s) (based base (epoch_dir (params_dir j) seed e)).
Proof. exact @search_left. Qed.
Print Assumptions C72_only_winners_left.

(* two candidates with two seeds each *)
Definition ex_search : list (Z * seeding (Z * (list (table * Z) * option exn))) :=
  [(10, ManySeeds [(1, (ex_epochs, None)); (2, (ex_epochs, None))]);
   (11, ManySeeds [(1, (ex_epochs, None)); (2, (rev ex_epochs ++ [(ex_table 1 1, 4)], None))])].

Example C72_case :
  Forall (fun c => NoDup (map fst (runs_of (snd c)))) ex_search /\
  exists s sc, search ex_fields ex_fields AF1 ex_search = (s, None) /\
    sel_best s = Some (11, [(Some 2, of_string "params-1/1"); (Some 4, of_string "params-1/2")], sc, of_string "params-1") /\
    sel_disposed s = [of_string "params-0/1/epoch-0"; of_string "params-0/1/epoch-2"; of_string "params-0/2/epoch-0";
                      of_string "params-0/2/epoch-2"; of_string "params-1/1/epoch-0"; of_string "params-1/1/epoch-2";
                      of_string "params-1/2/epoch-1"; of_string "params-1/2/epoch-2"; of_string "params-1/2/epoch-0";
                      of_string "params-0"].
Proof.
  split.
  - repeat constructor; cbn; intuition discriminate.
  - do 2 eexists. split; [vm_compute; reflexivity|]. split; vm_compute; reflexivity.
Qed.
