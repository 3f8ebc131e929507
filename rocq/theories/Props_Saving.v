(* Properties C108-C111: saving and loading taggers. *)
From Coq Require Import String Ascii ZArith NArith Bool List Lia.
From Verif Require Import Base BaseFacts Model_Harness Spec_Harness Model_Network Spec_Network Proofs_Network3
  Model_Saving Spec_Saving Proofs_Saving Proofs_Saving2 Proofs_Saving3.
Import ListNotations.
Open Scope Z_scope.

(* ------------------------------------------------------------------ *)
(* an example: tensors and operations are numbers, a byte is a whole value *)

Inductive ex_byte :=
| BPair (p : Z * Z)
| BMapping (m : network str str)
| BGraph (g : graph Z Z)
| BValues (v : dict Z)
| BPath (s : str)
| BStop.
Definition ex_pair : codec ex_byte (Z * Z) := mkCodec (fun p => [BPair p; BStop]) (fun c => match c with [BPair p; BStop] => Ok p | _ => Err EExc end).
Definition ex_mapping : codec ex_byte (network str str) :=
  mkCodec (fun p => [BMapping p; BStop]) (fun c => match c with [BMapping p; BStop] => Ok p | _ => Err EExc end).
Definition ex_meta : codec ex_byte (graph Z Z) := mkCodec (fun p => [BGraph p; BStop]) (fun c => match c with [BGraph p; BStop] => Ok p | _ => Err EExc end).
Definition ex_values_eqb : dict Z -> dict Z -> bool := list_eqb (fun a b => str_eqb (fst a) (fst b) && (snd a =? snd b)).
Definition ex_formats : formats ex_byte Z Z Z Z Z :=
  mkFormats ex_pair ex_mapping ex_meta (fun v => [BValues v; BStop]) (fun v => [BValues v; BStop])
    (fun i d => match i, d with [BValues v; BStop], [BValues w; BStop] => if ex_values_eqb v w then Ok v else Err EExc | _, _ => Err EExc end)
    (fun s => [BPath s; BStop]).

Lemma ex_values_refl v : ex_values_eqb v v = true.
Proof. induction v as [|(k & x) v IH]; cbn; auto. rewrite str_eqb_refl, Z.eqb_refl. exact IH. Qed.
Lemma two_bytes {A} (x y : A) p q : [x; y] = p ++ q -> q <> [] -> p = [] \/ p = [x].
Proof.
  destruct p as [|a [|b p]]; intros H N; [auto|right; injection H as -> _; reflexivity|]. exfalso. injection H as _ _ H.
  destruct p; [cbn in H; congruence|discriminate].
Qed.
Example ex_good : good_formats ex_formats.
Proof.
  repeat split; cbn [f_pair f_mapping f_graph f_values f_index f_data ex_formats];
    try (intros a p q E N; destruct (two_bytes _ _ _ _ E N) as [-> | ->]; cbn; eauto).
  intros v. rewrite ex_values_refl. reflexivity.
Qed.
Example ex_checked : checked_values ex_formats.
Proof.
  intros v w d i u _ Hi. cbn [f_values f_index ex_formats] in *. assert (i = [BValues v; BStop] \/ i = [] \/ i = [BValues w] \/ i = [BValues w; BStop]) as H.
  { destruct Hi as [->|(r & E)]; auto. destruct r as [|x r].
    - rewrite app_nil_r in E. auto.
    - destruct (two_bytes _ _ _ _ E) as [->| ->]; [discriminate|auto|auto]. }
  clear Hi. destruct H as [->|[->|[->| ->]]]; try discriminate;
    (destruct d as [|[| | |y| |] [|[| | | | |] [|? ?]]]; try discriminate; destruct (ex_values_eqb _ y); try discriminate;
     intros E; injection E as <-; auto).
Qed.

Definition ex_tensor (i : Z) : str := of_string "t" ++ print_Z i.
Definition ex_operation (i : Z) : str := of_string "op" ++ print_Z i.
Definition ex_network : network Z Z :=
  mkNetwork [(of_string "words", 3)] [(of_string "pos", 5)] [(of_string "pos", 4); (of_string "learning_rate", 2)] 7 6 [IGlobal 8].
Definition ex_graph : graph Z Z := mkGraph [1; 2; 3; 4; 5; 6] [7; 8] [of_string "matrix"; of_string "bias"].
Definition ex_tagger (x i m b : Z) : tagger Z Z Z Z Z :=
  mkTagger x i ex_network ex_graph [(of_string "bias", b); (of_string "global_step", 100); (of_string "matrix", m)].
Definition ex_loaded (x i m b : Z) : tagger Z Z Z Z Z :=
  mkTagger x i ex_network ex_graph [(of_string "matrix", m); (of_string "bias", b)].
Example ex_sound x i m b : sound_tagger ex_tensor ex_operation (ex_tagger x i m b).
Proof.
  split; [vm_compute; repeat (constructor; [simpl; intuition discriminate|]); constructor|].
  split; [vm_compute; repeat (constructor; [simpl; intuition discriminate|]); constructor|].
  split; [intros z; vm_compute; intuition|]. split; [intros z; vm_compute; intuition|]. split; [discriminate|].
  intros v [<-|[<-|[]]]; [exists m|exists b]; reflexivity.
Qed.
(* only the home directory exists *)
Definition ex_home : place := [of_string "home"].
Definition ex_disk : files ex_byte := fun p => match p with [] => Some Folder | [h] => if str_eqb h (of_string "home") then Some Folder else None | _ => None end.
Definition ex_save := save ex_tensor ex_operation ex_formats ex_home.
Definition ex_load := load ex_tensor ex_operation ex_formats ex_home.
Definition ex_path : str := of_string "models/params-0/7/epoch-3".

Example ex_tree : tree ex_disk.
Proof.
  split; [reflexivity|]. intros p name H. destruct p as [|h [|x p]]; cbn in *; try congruence.
Qed.
Example ex_free : free_path ex_home ex_disk ex_path.
Proof.
  split; [discriminate|]. split.
  - intros p q c _. destruct p as [|h [|x p]]; cbn; try congruence. destruct (str_eqb h _); congruence.
  - intros name _. vm_compute. discriminate.
Qed.

(* ------------------------------------------------------------------ *)
(* C108 *)

(* What was saved is loaded, whatever was at the path before. *)
Theorem C108_round_trip : forall (B X I T O V : Type) (tname : T -> str) (oname : O -> str) (f : formats B X I T O V)
  (cwd : place) (fs fs' : files B) (t : tagger X I T O V) (path : str),
  good_formats f -> sound_tagger tname oname t -> save tname oname f cwd fs t path = (fs', None) ->
  exists t', load tname oname f cwd fs' path = Ok t' /\ same_tagger t t'.
Proof. intros B X I T O V tname oname f cwd fs fs' t path. exact (round_trip tname oname f cwd fs t path fs'). Qed.
Print Assumptions C108_round_trip.

(* So the loaded tagger predicts what the saved one predicted. *)
Theorem C108_predictions : forall (B X I T O V W U : Type) (tname : T -> str) (oname : O -> str) (f : formats B X I T O V)
  (cwd : place) (fs fs' : files B) (t : tagger X I T O V) (path : str) (teqb : T -> T -> bool)
  (run : graph T O -> dict V -> dict T -> feed T W -> result U),
  (forall g s s' outputs feed, same_values (g_variables g) s s' -> run g s outputs feed = run g s' outputs feed) ->
  good_formats f -> sound_tagger tname oname t -> save tname oname f cwd fs t path = (fs', None) ->
  exists t', load tname oname f cwd fs' path = Ok t' /\ t_extractor t' = t_extractor t /\ t_interpreter t' = t_interpreter t
    /\ forall features, model_predict teqb (run (t_graph t')) (t_network t') (t_session t') features
                        = model_predict teqb (run (t_graph t)) (t_network t) (t_session t) features.
Proof.
  intros B X I T O V W U tname oname f cwd fs fs' t path teqb run R good So E.
  destruct (round_trip tname oname f cwd fs t path fs' good So E) as (t' & L & Ex & Ei & En & Eg & Es).
  exists t'. split; auto. split; auto. split; auto. intros features. rewrite En, Eg. unfold model_predict.
  destruct (get_feed_dict teqb (t_network t) features None); auto. cbn [bind]. symmetry. apply R. exact Es.
Qed.
Print Assumptions C108_predictions.

(* Saving works where nothing is in the way; missing folders are made. *)
Theorem C108_saves : forall (B X I T O V : Type) (tname : T -> str) (oname : O -> str) (f : formats B X I T O V)
  (cwd : place) (fs : files B) (t : tagger X I T O V) (path : str),
  tree fs -> free_path cwd fs path -> sound_tagger tname oname t -> snd (save tname oname f cwd fs t path) = None.
Proof. intros B X I T O V tname oname f cwd fs t path. exact (saves tname oname f cwd fs t path). Qed.
Print Assumptions C108_saves.

Example C108_case :
  snd (ex_save ex_disk (ex_tagger 11 12 13 14) ex_path) = None
  /\ ex_load (fst (ex_save ex_disk (ex_tagger 11 12 13 14) ex_path)) ex_path = Ok (ex_loaded 11 12 13 14)
  /\ ex_load ex_disk ex_path = Err EExc
  (* an empty path, a variable without a value, a graph without variables *)
  /\ snd (ex_save ex_disk (ex_tagger 11 12 13 14) []) = Some EExc
  /\ snd (ex_save ex_disk (mkTagger 11 12 ex_network ex_graph [(of_string "bias", 1)]) ex_path) = Some EExc
  /\ snd (ex_save ex_disk (mkTagger 11 12 ex_network (mkGraph [1; 2; 3; 4; 5; 6] [7; 8] []) []) ex_path) = Some EValue.
Proof. split; [|split; [|split; [|split; [|split]]]]; vm_compute; reflexivity. Qed.

(* ------------------------------------------------------------------ *)
(* C109 *)

(* Saving elsewhere, even if it is interrupted, changes no saved tagger. *)
Theorem C109_other_path : forall (B X I T O V : Type) (tname : T -> str) (oname : O -> str) (f : formats B X I T O V)
  (cwd : place) (fs : files B) (t t' : tagger X I T O V) (path path' : str) (k : nat),
  resolve cwd path <> resolve cwd path' -> load tname oname f cwd fs path' = Ok t' ->
  load tname oname f cwd (interrupted tname oname f cwd fs t path k) path' = Ok t'.
Proof. intros B X I T O V tname oname f cwd fs t t' path path' k. exact (other_path tname oname f cwd fs t path k path' t'). Qed.
Print Assumptions C109_other_path.

(* After training the tagger of every epoch is loaded as it was after that epoch. *)
Theorem C109_epochs : forall (B X I T O V : Type) (tname : T -> str) (oname : O -> str) (f : formats B X I T O V)
  (cwd : place) (fs fs' : files B) (model_dir : str) (taggers : list (tagger X I T O V)),
  good_formats f -> Forall (sound_tagger tname oname) taggers ->
  save_epochs tname oname f cwd model_dir 0 taggers fs = (fs', None) ->
  forall i t, nth_error taggers i = Some t ->
  exists t', load tname oname f cwd fs' (epoch_at model_dir i) = Ok t' /\ same_tagger t t'.
Proof.
  intros B X I T O V tname oname f cwd fs fs' model_dir taggers good So E i t N. rewrite epoch_at_join.
  exact (epochs_saved tname oname f cwd model_dir taggers good So 0 fs fs' E i t N).
Qed.
Print Assumptions C109_epochs.

Example C109_case :
  let (fs, e) := save_epochs ex_tensor ex_operation ex_formats ex_home (of_string "models/") 0
                   [ex_tagger 1 2 10 20; ex_tagger 1 2 11 21; ex_tagger 1 2 12 22] ex_disk in
  e = None
  /\ ex_load fs (of_string "models/epoch-0") = Ok (ex_loaded 1 2 10 20)
  /\ ex_load fs (of_string "./models//epoch-1/") = Ok (ex_loaded 1 2 11 21)
  /\ ex_load fs (of_string "/home/models/epoch-2") = Ok (ex_loaded 1 2 12 22)
  /\ ex_load fs (of_string "models/epoch-3") = Err EExc.
Proof. vm_compute. repeat split. Qed.

(* ------------------------------------------------------------------ *)
(* C110 *)

(* False: what is loaded after an interrupted saving was saved as a whole.  Over an older tagger the interruption may leave
   the new extractor and interpreter with the old network and values. *)
Theorem C110_whole_refuted : forall (B X I T O V : Type) (tname : T -> str) (oname : O -> str) (f : formats B X I T O V)
  (cwd : place) (fs0 fs : files B) (old new : tagger X I T O V) (path : str),
  good_formats f -> sound_tagger tname oname old -> save tname oname f cwd fs0 old path = (fs, None) ->
  exists k t', load tname oname f cwd (interrupted tname oname f cwd fs new path k) path = Ok t'
    /\ t_extractor t' = t_extractor new /\ t_interpreter t' = t_interpreter new
    /\ t_network t' = t_network old /\ t_graph t' = t_graph old
    /\ same_values (g_variables (t_graph old)) (t_session old) (t_session t').
Proof. intros B X I T O V tname oname f cwd fs0 fs old new path. exact (mixture tname oname f cwd fs0 fs old new path). Qed.
Print Assumptions C110_whole_refuted.

(* Where there was no tagger before, a tagger is loaded only if it was saved completely, and it is that tagger. *)
Theorem C110_fresh_partial : forall (B X I T O V : Type) (tname : T -> str) (oname : O -> str) (f : formats B X I T O V)
  (cwd : place) (fs : files B) (t t' : tagger X I T O V) (path : str) (k : nat),
  good_formats f -> sound_tagger tname oname t -> fs (resolve cwd path ++ [of_string "mapping"]) = None ->
  load tname oname f cwd (interrupted tname oname f cwd fs t path k) path = Ok t' ->
  (length (save_steps tname oname f cwd fs t path) <= k)%nat /\ snd (save tname oname f cwd fs t path) = None /\ same_tagger t t'.
Proof. intros B X I T O V tname oname f cwd fs t t' path k. exact (fresh tname oname f cwd fs t path k t'). Qed.
Print Assumptions C110_fresh_partial.

(* Over an older tagger with the same extractor, interpreter and network one of the two is loaded. *)
Theorem C110_retrained_partial : forall (B X I T O V : Type) (tname : T -> str) (oname : O -> str) (f : formats B X I T O V)
  (cwd : place) (fs0 fs : files B) (old new t' : tagger X I T O V) (path : str) (k : nat),
  good_formats f -> checked_values f -> sound_tagger tname oname old -> sound_tagger tname oname new ->
  t_extractor new = t_extractor old -> t_interpreter new = t_interpreter old ->
  t_network new = t_network old -> t_graph new = t_graph old ->
  save tname oname f cwd fs0 old path = (fs, None) ->
  load tname oname f cwd (interrupted tname oname f cwd fs new path k) path = Ok t' ->
  same_tagger old t' \/ same_tagger new t'.
Proof. intros B X I T O V tname oname f cwd fs0 fs old new t' path k. exact (retrained tname oname f cwd fs0 fs old new path k t'). Qed.
Print Assumptions C110_retrained_partial.

(* the number of steps of the first saving is 22; of the second, with the folders there, 18 *)
Definition ex_old : files ex_byte := fst (ex_save ex_disk (ex_tagger 1 2 10 20) ex_path).
Definition ex_cut (fs : files ex_byte) t (k : nat) := ex_load (interrupted ex_tensor ex_operation ex_formats ex_home fs t ex_path k) ex_path.
Example C110_case :
  map (ex_cut ex_disk (ex_tagger 3 4 11 21)) (seq 0 24)
    = map (fun k => if (k <? 22)%nat then Err EExc else Ok (ex_loaded 3 4 11 21)) (seq 0 24)
  /\ ex_cut ex_old (ex_tagger 3 4 11 21) 0 = Ok (ex_loaded 1 2 10 20)
  /\ ex_cut ex_old (ex_tagger 3 4 11 21) 1 = Err EExc
  /\ ex_cut ex_old (ex_tagger 3 4 11 21) 3 = Ok (ex_loaded 3 4 10 20)
  /\ ex_cut ex_old (ex_tagger 3 4 11 21) 18 = Ok (ex_loaded 3 4 11 21)
  /\ ex_cut ex_old (ex_tagger 1 2 11 21) 3 = Ok (ex_loaded 1 2 10 20)
  /\ ex_cut ex_old (ex_tagger 1 2 11 21) 6 = Err EExc
  /\ ex_cut ex_old (ex_tagger 1 2 11 21) 9 = Ok (ex_loaded 1 2 11 21)
  /\ ~ same_tagger (ex_tagger 1 2 10 20) (ex_loaded 3 4 10 20) /\ ~ same_tagger (ex_tagger 3 4 11 21) (ex_loaded 3 4 10 20).
Proof.
  split; [vm_compute; reflexivity|]. do 7 (split; [vm_compute; reflexivity|]). split.
  - intros (H & _). vm_compute in H. discriminate.
  - intros (_ & _ & _ & _ & H). specialize (H (of_string "bias")). vm_compute in H. discriminate H. auto.
Qed.

(* ------------------------------------------------------------------ *)
(* C111 *)

(* False: after training the taggers that PretrainedTaggerTrainer finds are those of this training.  If there were more epochs
   in an earlier training with the same model_dir, the taggers of its last epochs are found too, as they were saved then. *)
Theorem C111_this_training_refuted : forall (B X I T O V : Type) (tname : T -> str) (oname : O -> str) (f : formats B X I T O V)
  (cwd : place) (fs fs0 fs1 : files B) (model_dir : str) (old new : list (tagger X I T O V)),
  good_formats f -> Forall (sound_tagger tname oname) old ->
  save_epochs tname oname f cwd model_dir 0 old fs = (fs0, None) ->
  save_epochs tname oname f cwd model_dir 0 new fs0 = (fs1, None) ->
  forall i t, (length new <= i)%nat -> nth_error old i = Some t ->
  (exists t', load tname oname f cwd fs1 (epoch_at model_dir i) = Ok t' /\ same_tagger t t')
  /\ forall (R : Type) (d : dir) (test : str -> result R) ys, walked cwd fs1 model_dir d ->
     pretrained_train model_dir d (Some test) = (ys, None) -> In (epoch_at model_dir i) (map snd ys).
Proof.
  intros B X I T O V tname oname f cwd fs fs0 fs1 model_dir old new good So E0 E1 i t Le N. split.
  - destruct (epochs_saved tname oname f cwd model_dir old good So 0 fs fs0 E0 i t N) as (t' & L & Sa). exists t'. split; auto.
    rewrite epoch_at_join. eapply epochs_other; [exact E1| |exact L]. intros j Hj. rewrite epoch_place. intros Q.
    apply app_inj_tail in Q. destruct Q as (_ & Q). apply epoch_name_inj' in Q. lia.
  - intros R d test ys W H. apply (pretrained_paths cwd fs1 model_dir d test ys W H).
    exists [epoch_name (Z.of_nat i)]. split; [discriminate|]. split.
    + eapply epochs_folders; [exact E1|].
      apply (epochs_made tname oname f cwd model_dir old 0 fs fs0 E0 i). apply nth_error_Some. congruence.
    + reflexivity.
Qed.
Print Assumptions C111_this_training_refuted.

(* With nothing below the directory before, they are exactly the taggers of this training. *)
Theorem C111_empty_partial : forall (B X I T O V : Type) (tname : T -> str) (oname : O -> str) (f : formats B X I T O V)
  (cwd : place) (fs fs' : files B) (model_dir : str) (taggers : list (tagger X I T O V)),
  good_formats f -> Forall (sound_tagger tname oname) taggers ->
  (forall q, q <> [] -> fs (resolve cwd model_dir ++ q) = None) ->
  save_epochs tname oname f cwd model_dir 0 taggers fs = (fs', None) ->
  forall (R : Type) (d : dir) (test : str -> result R) ys, walked cwd fs' model_dir d ->
  pretrained_train model_dir d (Some test) = (ys, None) ->
  forall x, In x (map snd ys) <-> exists i, (i < length taggers)%nat /\ x = epoch_at model_dir i.
Proof.
  intros B X I T O V tname oname f cwd fs fs' model_dir taggers good So Em E R d test ys W H x.
  rewrite (pretrained_paths cwd fs' model_dir d test ys W H). split.
  - intros (q & Nq & Fq & ->).
    destruct (epochs_only tname oname f cwd model_dir (fun _ => False) taggers So 0 fs fs' E) with (q := q) as [[]|(i & Hi & ->)]; auto.
    + intros q' N' F'. rewrite Em in F' by auto. discriminate.
    + exists (Z.to_nat i). split; [lia|]. unfold epoch_at. rewrite Z2Nat.id by lia. reflexivity.
  - intros (i & Hi & ->). exists [epoch_name (Z.of_nat i)]. split; [discriminate|]. split; [|reflexivity].
    exact (epochs_made tname oname f cwd model_dir taggers 0 fs fs' E i Hi).
Qed.
Print Assumptions C111_empty_partial.

Definition ex_long : files ex_byte :=
  fst (save_epochs ex_tensor ex_operation ex_formats ex_home (of_string "m") 0 [ex_tagger 1 2 10 20; ex_tagger 1 2 11 21] ex_disk).
Definition ex_short : files ex_byte :=
  fst (save_epochs ex_tensor ex_operation ex_formats ex_home (of_string "m") 0 [ex_tagger 5 6 15 25] ex_long).
Example C111_case :
  snd (save_epochs ex_tensor ex_operation ex_formats ex_home (of_string "m") 0 [ex_tagger 5 6 15 25] ex_long) = None
  /\ ex_load ex_short (of_string "m/epoch-0") = Ok (ex_loaded 5 6 15 25)
  /\ ex_load ex_short (of_string "m/epoch-1") = Ok (ex_loaded 1 2 11 21)
  /\ pretrained_train (of_string "m") (epochs_of [1; 0]%nat) (Some (fun p => do t <- ex_load ex_short p; Ok (t_extractor t)))
     = ([(5, of_string "m/epoch-0"); (1, of_string "m/epoch-1")], None).
Proof. split; [|split; [|split]]; vm_compute; reflexivity. Qed.

(* what os.walk finds there; not vacuous *)
Example C111_walked : walked ex_home ex_short (of_string "m") (epochs_of [1; 0]%nat).
Proof.
  assert (A : snd (save_epochs ex_tensor ex_operation ex_formats ex_home (of_string "m") 0 [ex_tagger 1 2 10 20; ex_tagger 1 2 11 21] ex_disk) = None)
    by (vm_compute; reflexivity).
  assert (A' : snd (save_epochs ex_tensor ex_operation ex_formats ex_home (of_string "m") 0 [ex_tagger 5 6 15 25] ex_long) = None)
    by (vm_compute; reflexivity).
  split.
  { unfold epochs_of. constructor.
    - vm_compute. repeat (constructor; [simpl; intuition discriminate|]). constructor.
    - apply Forall_forall. intros (name & d) J. apply in_map_iff in J. destruct J as (i & E & _). injection E as <- <-.
      cbn [fst snd]. split; [apply epoch_simple|]. constructor; constructor. }
  intros q. split.
  - intros H. assert (q = [of_string "epoch-1"] \/ q = [of_string "epoch-0"]) as [-> | ->].
    { unfold epochs_of in H. cbn [map] in H. inversion H as [? name d J|? name d p J Bd]; subst.
      - destruct J as [J|[J|[]]]; injection J as <- _; auto.
      - assert (d = Dir []) as -> by (destruct J as [J|[J|[]]]; congruence). inversion Bd as [? ? ? Z|? ? ? ? Z]; destruct Z. }
    + split; [discriminate|]. vm_compute. reflexivity.
    + split; [discriminate|]. vm_compute. reflexivity.
  - intros (N & F).
    assert (So : Forall (sound_tagger ex_tensor ex_operation) [ex_tagger 1 2 10 20; ex_tagger 1 2 11 21])
      by (apply Forall_forall; intros t [<-|[<-|[]]]; apply ex_sound).
    assert (So' : Forall (sound_tagger ex_tensor ex_operation) [ex_tagger 5 6 15 25]) by (apply Forall_forall; intros t [<-|[]]; apply ex_sound).
    assert (L : forall q, q <> [] -> ex_long (resolve ex_home (of_string "m") ++ q) = Some Folder -> exists i, 0 <= i < 2 /\ q = [epoch_name i]).
    { intros q' N' F'. unfold ex_long in F'.
      destruct (save_epochs ex_tensor ex_operation ex_formats ex_home (of_string "m") 0 [ex_tagger 1 2 10 20; ex_tagger 1 2 11 21] ex_disk) as (fs & e) eqn:E.
      cbn [snd fst] in *. subst e.
      destruct (epochs_only _ _ _ _ _ (fun _ => False) _ So 0 _ _ E) with (q := q') as [[]|H]; auto.
      intros q2 N2 F2. destruct q2; [congruence|]. cbn in F2. discriminate. }
    unfold ex_short in F.
    destruct (save_epochs ex_tensor ex_operation ex_formats ex_home (of_string "m") 0 [ex_tagger 5 6 15 25] ex_long) as (fs & e) eqn:E.
    cbn [snd fst] in *. subst e.
    destruct (epochs_only _ _ _ _ _ _ _ So' 0 _ _ E L) with (q := q) as [(i & Hi & ->)|(i & Hi & ->)]; auto; cbn [length] in Hi.
    + assert (i = 0 \/ i = 1) as [-> | ->] by lia; [eapply BelowHere; right; left; reflexivity|eapply BelowHere; left; reflexivity].
    + assert (i = 0) as -> by lia. eapply BelowHere. right. left. reflexivity.
Qed.
