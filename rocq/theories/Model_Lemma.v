(* Model of babylondigger/lemmas/transformation_rules.py and of the lemma suffix extractors,
   babylondigger/features/extractors.py:432-526.  Definitions only. *)
From Coq Require Import ZArith NArith Bool List.
From Verif Require Import Base Model_Datamodel Model_Vocab.
Import ListNotations.
Open Scope Z_scope.

(* ------------------------------------------------------------------ *)
(* LemmaSuffixTransformation, transformation_rules.py:16-82            *)

Record rule := mkRule { word_suffix : str; lemma_suffix : str; exception : bool }.

(* 24-26 *)
Definition is_regular (r : rule) : bool := negb (exception r).

(* 36-37 *)
Definition is_applicable (r : rule) (word : str) : bool := endswith word (word_suffix r).

(* 39-42 *)
Definition transform (r : rule) (word : str) : result str :=
  if is_applicable r word
  then Ok (py_upto word (zlen word - zlen (word_suffix r)) ++ lemma_suffix r)
  else Err EValue.

(* 54-59 *)
Definition rule_eqb (a b : rule) : bool :=
  str_eqb (word_suffix a) (word_suffix b) && str_eqb (lemma_suffix a) (lemma_suffix b)
  && Bool.eqb (exception a) (exception b).

Definition bool_cmp (a b : bool) : comparison :=
  match a, b with false, true => Lt | true, false => Gt | _, _ => Eq end.

(* 61-64 and 69-70: comparison of the tuples *)
Definition rule_cmp (a b : rule) : comparison :=
  match str_cmp (word_suffix a) (word_suffix b) with
  | Eq => match str_cmp (lemma_suffix a) (lemma_suffix b) with
          | Eq => bool_cmp (exception a) (exception b)
          | c => c
          end
  | c => c
  end.

(* common_start, 74-79 *)
Fixpoint common_start (word lemma : str) : Z :=
  match word, lemma with
  | c :: w, d :: l => if (c =? d)%N then 1 + common_start w l else 0
  | _, _ => 0
  end.

(* get_rule, 72-82 *)
Definition get_rule (word lemma : str) : rule :=
  let start := common_start word lemma in
  mkRule (py_from word start) (py_from lemma start) (start =? 0).

(* ------------------------------------------------------------------ *)
(* LemmaTransformationTrie, transformation_rules.py:88-153             *)

Definition entry := (rule * Z)%type.

(* children, regular rules, exceptions; None and an empty collection behave alike *)
Inductive trie := Trie (children : list (char * trie)) (regular exceptions : list entry).

Definition empty_trie : trie := Trie [] [] [].
Definition t_children (t : trie) := let 'Trie c _ _ := t in c.
Definition t_regular (t : trie) := let 'Trie _ r _ := t in r.
Definition t_exceptions (t : trie) := let 'Trie _ _ e := t in e.

(* 94-97 *)
Definition get_child (t : trie) (c : char) : option trie := gget N.eqb (t_children t) c.

(* 106-120 *)
Definition add_rule (t : trie) (e : entry) : trie :=
  let 'Trie c r x := t in
  if is_regular (fst e) then Trie c (r ++ [e]) x else Trie c r (x ++ [e]).

(* __put_rule, 139-143, with __get_or_add_child 99-104; path is the reversed suffix *)
Fixpoint put_rule (path : str) (e : entry) (t : trie) : trie :=
  match path with
  | [] => add_rule t e
  | c :: path' =>
      let child := match get_child t c with Some t' => t' | None => empty_trie end in
      Trie (gset N.eqb (t_children t) c (put_rule path' e child)) (t_regular t) (t_exceptions t)
  end.

(* build, 135-148 *)
Definition build_trie (rules : list entry) : trie :=
  fold_left (fun t e => put_rule (rev (word_suffix (fst e))) e t) rules empty_trie.

(* get_applicable_rules, 122-133; path is the reversed word *)
Fixpoint walk_trie (path : str) (t : trie) : list entry :=
  match path with
  | [] => t_exceptions t
  | c :: path' =>
      t_regular t ++ match get_child t c with
                     | None => t_exceptions t
                     | Some t' => walk_trie path' t'
                     end
  end.

Definition get_applicable_rules (t : trie) (word : str) : list entry := walk_trie (rev word) t.

(* ------------------------------------------------------------------ *)
(* Suffix rule labels, extractors.py:432-526                           *)

Section Lower.
(* str.lower *)
Variable lower : str -> str.

(* _suffix_transformation, extractors.py:627-628; None has no method lower *)
Definition suffix_transformation (x : dtoken) : result rule :=
  match tlemma (dt_tok x) with
  | None => Err EAttr
  | Some l => Ok (get_rule (lower (dt_text x)) (lower l))
  end.

(* CachedSuffixRulesBuilder.build_rules, extractors.py:441-447.  Simplification: the cache is a pure
   function of the dataset; a dataset that cannot be hashed (a list) raises TypeError in python. *)
Definition build_rules (threshold : Z) (ds : list document) : result (list (rule * Z) * list rule) :=
  do labels <- mapM suffix_transformation (dataset_tokens ds);
  do id2rule <- id2obj rule_eqb (fun a b => Ok (rule_cmp a b)) (count_list rule_eqb labels) threshold;
  Ok (obj2id rule_eqb id2rule, id2rule).

(* SuffixTransformationFeatureExtractor.get_features, extractors.py:477-479 *)
Definition rule_label (rule2id : list (rule * Z)) (x : dtoken) : result Z :=
  do r <- suffix_transformation x; Ok (gget_default rule_eqb rule2id r 0).

(* SuffixTransformationInterpreter.interpret, extractors.py:487-492; the warning is not modelled *)
Definition interpret_rule (id2rule : list rule) (x : dtoken) (label : Z) : result dtoken :=
  do r <- py_index id2rule label;
  let w := lower (dt_text x) in
  do lemma <- (if is_applicable r w then transform r w else Ok w);
  dt_with_morphology x (tpos (dt_tok x)) (Some lemma).

(* result[index] = True *)
Definition set_index {A} (l : list A) (i : Z) (v : A) : result (list A) :=
  let j := if i <? 0 then i + zlen l else i in
  if (0 <=? j) && (j <? zlen l) then Ok (set_nth l (Z.to_nat j) v) else Err EIndex.

(* ApplicableSuffixTransformations.get_features, extractors.py:521-526 *)
Definition applicable_mask (t : trie) (size : Z) (x : dtoken) : result (list bool) :=
  foldM (fun m e => set_index m (snd e) true) (repeat false (Z.to_nat size))
        (get_applicable_rules t (lower (dt_text x))).

(* ApplicableSuffixTransformationsBuilder.build, extractors.py:507-512; no rule is None *)
Definition mask_extractor (rules : list (rule * Z) * list rule) : dtoken -> result (list bool) :=
  applicable_mask (build_trie (fst rules)) (zlen (snd rules)).

End Lower.
