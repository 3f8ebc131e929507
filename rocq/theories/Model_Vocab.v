(* Model of the vocabulary helpers of babylondigger/features/extractors.py:591-624.  Definitions only. *)
From Coq Require Import ZArith NArith Bool List.
From Verif Require Import Base Model_Datamodel.
Import ListNotations.
Open Scope Z_scope.

(* ------------------------------------------------------------------ *)
(* Dictionaries with keys of any type, in insertion order              *)

Section Dict.
Variables (K V : Type) (eqb : K -> K -> bool).

(* d.get(k) *)
Fixpoint gget (d : list (K * V)) (k : K) : option V :=
  match d with
  | [] => None
  | (k', v) :: d' => if eqb k k' then Some v else gget d' k
  end.

(* d[k] = v: a key that is present keeps its place and its first object *)
Fixpoint gset (d : list (K * V)) (k : K) (v : V) : list (K * V) :=
  match d with
  | [] => [(k, v)]
  | (k', v') :: d' => if eqb k k' then (k', v) :: d' else (k', v') :: gset d' k v
  end.
End Dict.
Arguments gget {K V}.
Arguments gset {K V}.

(* d[k] += n for a Counter or a defaultdict(int) *)
Definition gadd {K} (eqb : K -> K -> bool) (d : list (K * Z)) (k : K) (n : Z) : list (K * Z) :=
  gset eqb d k (match gget eqb d k with Some m => m + n | None => n end).

(* Counter(labels) *)
Definition count_list {K} (eqb : K -> K -> bool) (labels : list K) : list (K * Z) :=
  fold_left (fun d k => gadd eqb d k 1) labels [].

(* ------------------------------------------------------------------ *)
(* Tokens of a dataset                                                 *)

(* DocumentToken: a token with the text of its document (datamodel.py:357-365).  A NavigableToken is
   one as well; its position is not used by the extractors. *)
Record dtoken := mkDT { dt_doc : str; dt_tok : token }.

(* DocumentToken.text, datamodel.py:367-369 *)
Definition dt_text (x : dtoken) : str := text_of (dt_doc x) (dt_tok x).

(* DocumentToken.with_morphology, datamodel.py:380-382.  DocumentToken.__init__ builds the token again. *)
Definition dt_with_morphology (x : dtoken) (p : option pos) (lemma : option str) : result dtoken :=
  do t <- with_morphology (dt_tok x) p lemma; Ok (mkDT (dt_doc x) t).

(* _tokens, extractors.py:591-592: iterating over a document gives its tokens *)
Definition doc_dtokens (d : document) : list dtoken := map (mkDT (dtext d)) (dtokens d).
Definition dataset_tokens (ds : list document) : list dtoken := concat (map doc_dtokens ds).

(* _count_labels, extractors.py:595-596 *)
Definition count_labels {K} (eqb : K -> K -> bool) (label : dtoken -> K) (ds : list document) : list (K * Z) :=
  count_list eqb (map label (dataset_tokens ds)).

(* ------------------------------------------------------------------ *)
(* Sorting with a comparison that may raise                            *)

(* key=lambda x: (x is not None, x), extractors.py:618 *)
Definition none_first {A} (cmp : A -> A -> result comparison) (a b : option A) : result comparison :=
  match a, b with
  | None, None => Ok Eq
  | None, Some _ => Ok Lt
  | Some _, None => Ok Gt
  | Some x, Some y => cmp x y
  end.

Fixpoint all_comparable {A} (cmp : A -> A -> result comparison) (l : list A) : bool :=
  match l with
  | [] => true
  | x :: l' => forallb (fun y => is_ok (cmp x y)) l' && all_comparable cmp l'
  end.

(* x <= y once the comparison is known to succeed *)
Definition cmp_leb {A} (cmp : A -> A -> result comparison) (a b : A) : bool :=
  match cmp a b with Ok Gt => false | Ok _ => true | Err _ => false end.

(* sorted(l).  TypeError as soon as two elements cannot be compared: the labels used here are incomparable
   only where no third label separates them, so every sorting algorithm has to compare such a pair. *)
Definition py_sorted {A} (cmp : A -> A -> result comparison) (l : list A) : result (list A) :=
  if all_comparable cmp l then Ok (isort (cmp_leb cmp) l) else Err EType.

(* ------------------------------------------------------------------ *)
(* _id2obj and _obj2id, extractors.py:609-624                          *)

(* counts.most_common(1)[0][0]: the first label with the largest count *)
Fixpoint most_common_from {K} (best : K * Z) (l : list (K * Z)) : K :=
  match l with
  | [] => fst best
  | kv :: l' => if snd best <? snd kv then most_common_from kv l' else most_common_from best l'
  end.

Definition most_common {K} (counts : list (K * Z)) : option K :=
  match counts with [] => None | kv :: l => Some (most_common_from kv l) end.

Definition id2obj {K} (eqb : K -> K -> bool) (cmp : K -> K -> result comparison)
           (counts : list (K * Z)) (threshold : Z) : result (list K) :=
  do mc <- of_option EIndex (most_common counts);
  let kept := if 0 <? threshold then filter (fun kv => threshold <? snd kv) counts else counts in
  do others <- py_sorted cmp (filter (fun k => negb (eqb k mc)) (map fst kept));
  Ok (mc :: others).

(* {obj: i for i, obj in enumerate(l)} *)
Definition obj2id {K} (eqb : K -> K -> bool) (l : list K) : list (K * Z) :=
  fold_left (fun d io => gset eqb d (snd io) (fst io)) (enumerate l) [].

(* d.get(k, default) *)
Definition gget_default {K} (eqb : K -> K -> bool) (d : list (K * Z)) (k : K) (default : Z) : Z :=
  match gget eqb d k with Some i => i | None => default end.
