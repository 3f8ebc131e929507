(* Property C70: Pos and TokenExtras cannot be changed from outside. *)
From Coq Require Import String Ascii ZArith NArith Bool Lia List.
From Verif Require Import Base BaseFacts Model_Heap Spec_Heap Proofs_Heap2 Proofs_Heap3.
Import ListNotations.

(* ---- material for the concrete cases ---- *)

Definition k_a : str := of_string "a".
Definition k_b : str := of_string "b".
(* d = {"a": "1"}; pos = Pos("X", None, d); l = []; e = {"b": l}; l.append(e); extras = TokenExtras(e) *)
Definition ex_setup : list op :=
  [ODict; OAtom (AStr (of_string "1")); OSetKey 0 k_a 1; OPos (AStr (of_string "X")) ANone 0;
   OList; ODict; OSetKey 3 k_b 2; OAppend 2 3; OExtras 3].
(* d.clear(); f = pos.feats; f["a"] = l; l.append(d); g = extras["b"]; g.pop(); extras.as_dict().clear() *)
Definition ex_attack : list op :=
  [OClear 0; OFeats 0; OSetKey 4 k_a 2; OAppend 2 0; OExtrasGet 0 k_b; OPop 5; OExtrasDict 0; OClear 6; OExtrasUpdate 0 4].
Definition ex_world : world := Eval vm_compute in run empty_world ex_setup.

Ltac typed_by_value := cbn [typed ex_setup ex_attack well_typed]; repeat split; auto;
  try (intros fv a d k v H1 H2 H3 H4; vm_compute in H1; injection H1 as <-; injection H2 as <-;
       vm_compute in H3; injection H3 as <-; destruct H4 as [H4|H4]; [injection H4 as _ <-; eauto|destruct H4]).

Example ex_reached : reached ex_world /\ length (w_poses ex_world) = 1 /\ length (w_extras ex_world) = 1.
Proof. split; [|vm_compute; auto]. exists ex_setup. split; [typed_by_value|vm_compute; reflexivity]. Qed.

(* ------------------------------------------------------------------ *)

(* No continuation of a program changes what is seen of the Pos and TokenExtras there are. *)
Theorem C70_frozen : forall w ops, reached w -> typed w ops ->
  (forall i p, nth_error (w_poses w) i = Some p -> nth_error (w_poses (run w ops)) i = Some p /\
     forall path, look (w_heap (run w ops)) (hp_feats p) path = look (w_heap w) (hp_feats p) path) /\
  (forall i e, nth_error (w_extras w) i = Some e -> nth_error (w_extras (run w ops)) i = Some e /\
     forall path, look (w_heap (run w ops)) e path = look (w_heap w) e path).
Proof. exact frozen. Qed.
Print Assumptions C70_frozen.

(* What a new Pos or TokenExtras shows is what was passed to it. *)
Theorem C70_pos_created : forall w u x f fv w', reached w -> nth_error (w_vars w) f = Some fv -> attempt w (OPos u x f) = Ok w' ->
  exists p, w_poses w' = w_poses w ++ [p] /\ hp_upos p = u /\ hp_xpos p = x /\ w_vars w' = w_vars w /\
    forall path, look (w_heap w') (hp_feats p) path =
      match fv with HAtom ANone => match path with [] => Some (ShDict []) | _ => None end | _ => look (w_heap w) fv path end.
Proof. exact pos_created. Qed.
Print Assumptions C70_pos_created.

Theorem C70_extras_created : forall w f fv, reached w -> nth_error (w_vars w) f = Some fv ->
  exists w' e, attempt w (OExtras f) = Ok w' /\ w_extras w' = w_extras w ++ [e] /\ w_vars w' = w_vars w /\
    forall path, look (w_heap w') e path = look (w_heap w) fv path.
Proof. exact extras_created. Qed.
Print Assumptions C70_extras_created.

(* What they report is what they show. *)
Theorem C70_feats_reported : forall w i p, reached w -> nth_error (w_poses w) i = Some p ->
  exists w' v, attempt w (OFeats i) = Ok w' /\ w_vars w' = w_vars w ++ [v] /\
    forall path, look (w_heap w') v path = look (w_heap w) (hp_feats p) path.
Proof. exact feats_reported. Qed.
Print Assumptions C70_feats_reported.

Theorem C70_feature_reported : forall w i p k, reached w -> nth_error (w_poses w) i = Some p ->
  exists v, attempt w (OFeature i k) = Ok (push w (w_heap w, v)) /\
    v = match inside (w_heap w) (hp_feats p) (AtKey k) with Some v => v | None => HAtom ANone end /\ exists x, v = HAtom x.
Proof. exact feature_reported. Qed.
Print Assumptions C70_feature_reported.

Theorem C70_extras_reported : forall w i e, reached w -> nth_error (w_extras w) i = Some e ->
  exists w' v, attempt w (OExtrasDict i) = Ok w' /\ w_vars w' = w_vars w ++ [v] /\
    forall path, look (w_heap w') v path = look (w_heap w) e path.
Proof. exact extras_reported. Qed.
Print Assumptions C70_extras_reported.

Theorem C70_item_reported : forall w i e k v, reached w -> nth_error (w_extras w) i = Some e -> inside (w_heap w) e (AtKey k) = Some v ->
  exists w' v', attempt w (OExtrasGet i k) = Ok w' /\ w_vars w' = w_vars w ++ [v'] /\
    forall path, look (w_heap w') v' path = look (w_heap w) e (AtKey k :: path).
Proof. exact item_reported. Qed.
Print Assumptions C70_item_reported.

(* update makes another TokenExtras with the entries of both, the new ones win. *)
Theorem C70_extras_updated : forall w i e f fv w', reached w -> nth_error (w_extras w) i = Some e -> nth_error (w_vars w) f = Some fv ->
  attempt w (OExtrasUpdate i f) = Ok w' ->
  exists e', w_extras w' = w_extras w ++ [e'] /\ w_vars w' = w_vars w /\
    forall k path, look (w_heap w') e' (AtKey k :: path) =
      match inside (w_heap w) fv (AtKey k) with
      | Some _ => look (w_heap w) fv (AtKey k :: path)
      | None => look (w_heap w) e (AtKey k :: path)
      end.
Proof. exact extras_updated. Qed.
Print Assumptions C70_extras_updated.

(* With features that are not strings a Pos can be changed: feats is copied one level deep only. *)
Theorem C70_typing_needed : exists ops ops' p path, nth_error (w_poses (run empty_world ops)) 0 = Some p /\
  look (w_heap (run (run empty_world ops) ops')) (hp_feats p) path <> look (w_heap (run empty_world ops)) (hp_feats p) path.
Proof.
  exists [ODict; OList; OSetKey 0 k_a 1; OPos ANone ANone 0], [OAppend 1 1]. do 2 eexists. split; [vm_compute; reflexivity|].
  instantiate (1 := [AtKey k_a]). vm_compute. discriminate.
Qed.
Print Assumptions C70_typing_needed.

Example C70_case :
  typed ex_world ex_attack /\
  (exists p, nth_error (w_poses ex_world) 0 = Some p /\ look (w_heap ex_world) (hp_feats p) [AtKey k_a] = Some (ShAtom (AStr (of_string "1")))) /\
  (exists e, nth_error (w_extras ex_world) 0 = Some e /\
     look (w_heap ex_world) e [AtKey k_b; AtIndex 0; AtKey k_b] = Some (ShList 1) /\
     look (w_heap (run ex_world ex_attack)) e [AtKey k_b; AtIndex 0; AtKey k_b] = Some (ShList 1)) /\
  (exists f, nth_error (w_vars (run ex_world ex_attack)) 4 = Some f /\
     look (w_heap (run ex_world ex_attack)) f [AtKey k_a] = Some (ShList 2)) /\
  length (w_extras (run ex_world ex_attack)) = 2.
Proof.
  split; [typed_by_value|]. split; [eexists; split; vm_compute; reflexivity|].
  split; [eexists; split; [|split]; vm_compute; reflexivity|]. split; [eexists; split; vm_compute; reflexivity|vm_compute; reflexivity].
Qed.
