(* What the statements about files and sessions mean.  No proofs. *)
From Coq Require Import String Ascii ZArith NArith Bool Permutation List.
From Verif Require Import Base Model_Resources.
Import ListNotations.

(* numbers of what is open are different and were given out before *)
Definition orderly (w : world) : Prop :=
  NoDup (map snd (opened w)) /\ Forall (fun r => (snd r < next_number w)%nat) (opened w).

(* the sessions, the files *)
Definition sessions (l : list resource) : list resource := filter (fun r => match fst r with Session => true | File => false end) l.
Definition files (l : list resource) : list resource := filter (fun r => match fst r with Session => false | File => true end) l.

(* no loading is interrupted by something that is not an Exception *)
Definition calm (o : loading) : Prop :=
  l_open_extractor o <> Some Interrupt /\ l_read_extractor o <> Some Interrupt /\ l_session o <> Some Interrupt /\ l_graph o <> Some Interrupt /\
  l_open_mapping o <> Some Interrupt /\ l_read_mapping o <> Some Interrupt /\ l_attach o <> Some Interrupt.
Definition calm_action {S} (a : action S) : Prop := match a with CallTag _ o _ => calm o | _ => True end.

(* nothing is raised while loading *)
Definition loads (o : loading) : Prop := o = mkLoading None None None None None None None.

(* what the generators that are suspended at a yield hold *)
Definition in_use {S} (gs : list (generator S)) : list resource :=
  flat_map (fun g => match g with Suspended _ r _ => [r] | _ => [] end) gs.

Section Runs.
Variables (V S : Type) (proceed : S -> progress V S).

(* what n calls of next give *)
Fixpoint plays (n : nat) (s : S) : list (outcome V) :=
  match n with
  | O => []
  | Datatypes.S n' => match proceed s with
                      | Yields _ _ v s' => Yielded _ v :: plays n' s'
                      | Stops _ _ => Stopped _ :: repeat (Stopped _) n'
                      | Raises _ _ r => Raised _ r :: repeat (Stopped _) n'
                      end
  end.

(* the outcomes of the calls next(g) for generator i *)
Definition nexts (i : nat) (actions : list (action S)) (os : list (outcome V)) : list (outcome V) :=
  map snd (filter (fun ao => match fst ao with Next _ j => (j =? i)%nat | _ => false end) (combine actions os)).
Definition leaves (i : nat) (a : action S) : Prop := exists e, a = Leave _ i e.

(* the world after a program *)
Definition reached (w : world) (before : list (action S)) (m : machine S) : Prop :=
  orderly w /\ fst (run V S proceed (mkMachine _ [] w) before) = m.
End Runs.
