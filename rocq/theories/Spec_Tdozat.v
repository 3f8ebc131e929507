(* What the statements about the tdozat wrapper mean.  No proofs. *)
From Coq Require Import String Ascii ZArith NArith Bool Permutation Sorted List.
From Verif Require Import Base Model_Datamodel Spec_Datamodel Model_Conllu Model_Processors Spec_Processors Model_Tdozat.
Import ListNotations.
Open Scope Z_scope.

(* positions in the order of the values, however equal values are ordered *)
Definition sorting (argsort : list Z -> list nat) : Prop :=
  forall l, Permutation (argsort l) (seq 0 (length l)) /\
    StronglySorted (fun i j => nth i l 0 <= nth j l 0) (argsort l).

(* ---- sentences ---- *)

(* s is a sentence of the k-th document d, and there are n sentences before it in all documents *)
Definition sentence_number (ds : list document) (n k : nat) (d : document) (s : sentence) : Prop :=
  exists m, nth_error ds k = Some d /\ nth_error (dsents d) m = Some s /\
    n = (length (concat (map dsents (firstn k ds))) + m)%nat.

Definition or_underscore (o : option str) : str := match o with Some s => s | None => of_string "_" end.

(* the line of the k-th token of a sentence: what the network is told about it *)
Definition describes_token (d : document) (k : nat) (t : token) (line : list str) : Prop :=
  exists fs entries, line = [print_Z (Z.of_nat k + 1); text_of (dtext d) t; or_underscore (tlemma t);
      or_underscore (upos_of t); or_underscore (xpos_of t); fs;
      match thsent t with None => of_string "_" | Some h => if h =? -1 then of_string "0" else print_Z (h + 1) end;
      match thsent t with None => of_string "_" | Some _ => or_underscore (tdeprel t) end;
      of_string "_";
      if space_after (dtext d) t then of_string "_" else of_string "SpaceAfter=No"] /\
    Permutation entries (match tpos t with Some p => feats p | None => [] end) /\
    fs = (match entries with [] => of_string "_" | _ => join [ch "|"%char] (map (fun kv => fst kv ++ ch "="%char :: snd kv) entries) end) /\
    StronglySorted (fun a b => str_cmp a b <> Gt) (map (fun kv => fst kv ++ ch "="%char :: snd kv) entries).

(* the lines of a sentence *)
Definition lines_of (d : document) (s : sentence) (lines : list (list str)) : Prop :=
  length lines = length (tokens_of (dtokens d) s) /\
  forall i t, nth_error (tokens_of (dtokens d) s) i = Some t -> exists line, nth_error lines i = Some line /\ describes_token d i t line.

(* a list that is not empty *)
Definition not_nil {A} (l : list A) : bool := match l with [] => false | _ => true end.

(* ---- what the network gives ---- *)

(* the row of a field for the sentence with number n *)
Definition gives (bs : list batch) (f : str) (n : nat) (row : list pyval) : Prop :=
  exists ns values rs m, In (ns, values) bs /\ nth_error ns m = Some (Z.of_nat n) /\
    dict_get values f = Some rs /\ nth_error rs m = Some row.
Definition cell (bs : list batch) (f : str) (n j : nat) (v : pyval) : Prop :=
  exists row, gives bs f n row /\ nth_error row j = Some v.
Definition provided (bs : list batch) (f : str) : Prop := exists b, In b bs /\ In f (dict_keys (snd b)).

(* every batch has the same fields and a row for each of its sentences *)
Definition regular (bs : list batch) : Prop :=
  (forall b b' f, In b bs -> In b' bs -> In f (dict_keys (snd b)) -> In f (dict_keys (snd b'))) /\
  (forall b f rs, In b bs -> dict_get (snd b) f = Some rs -> length rs = length (fst b)) /\
  (forall b, In b bs -> NoDup (dict_keys (snd b))).

(* sentences are numbered from 0 *)
Definition numbers (bs : list batch) (total : nat) : Prop :=
  Permutation (concat (map fst bs)) (map Z.of_nat (seq 0 total)).

(* what a field says about the token at position j of the sentence with number n *)
Definition column (bs : list batch) (n j : nat) (f : string) (o : option str) : Prop :=
  (~ provided bs (of_string f) /\ o = None) \/
  exists s, cell bs (of_string f) n j (PStr s) /\ o = if str_eqb s (of_string "_") then None else Some s.

(* the features of a column *)
Definition column_features (o : option str) (fs : dict str) : Prop :=
  match o with
  | None => fs = []
  | Some s => exists pieces es, s = join [ch "|"%char] pieces /\ pieces <> [] /\
      Forall (fun piece => ~ In (ch "|"%char) piece) pieces /\ Forall2 feature_entry pieces es /\
      forall k, dict_get fs k = last_value k es
  end.

(* the head that a column names; the sentence starts at token st *)
Definition column_head (st : Z) (o : option str) (t : token) : Prop :=
  match o with
  | None => thsent t = None /\ thdoc t = None
  | Some s => exists h, parse_int s = Ok h /\
      (h = 0 -> thsent t = Some (-1) /\ thdoc t = Some (-1)) /\
      (h <> 0 -> thsent t = Some (h - 1) /\ thdoc t = Some (st + (h - 1)))
  end.

(* the token t0 has become t, which says what the network said about position j of sentence n *)
Definition predicted (bs : list batch) (extra : list str) (n j : nat) (st : Z) (t0 t : token) : Prop :=
  tstart t = tstart t0 /\ tend t = tend t0 /\ tsub t = tsub t0 /\ trepl t = trepl t0 /\
  column bs n j "lemma" (tlemma t) /\ column bs n j "deprel" (tdeprel t) /\
  (exists p o, tpos t = Some p /\ column bs n j "upos" (upos p) /\ column bs n j "xpos" (xpos p) /\
     column bs n j "ufeats" o /\ column_features o (feats p)) /\
  (exists o, column bs n j "dephead" o /\ column_head st o t) /\
  (forall k v, In k extra -> (dict_get (textras t) k = Some v <-> cell bs k n j v)) /\
  (forall k, ~ In k extra -> dict_get (textras t) k = dict_get (textras t0) k).

(* the network says something about position j of sentence n in every field that is read *)
Definition answered (bs : list batch) (extra : list str) (n j : nat) : Prop :=
  (exists s, cell bs (of_string "id") n j (PStr s)) /\
  (forall f, In f ["form"; "lemma"; "upos"; "xpos"; "ufeats"; "dephead"; "deprel"; "semrel"; "misc"]%string ->
     provided bs (of_string f) -> exists s, cell bs (of_string f) n j (PStr s)) /\
  (forall f, In f extra -> exists v, cell bs f n j v).

(* a column that can be read as key=value|key=value *)
Definition pairs (o : option str) : Prop :=
  match o with None => True | Some s => Forall (fun piece => In (ch "="%char) piece) (split (ch "|"%char) s) end.

(* the features, the head and the misc column can be read *)
Definition readable (bs : list batch) (n j : nat) : Prop :=
  (forall o, column bs n j "ufeats" o -> pairs o) /\ (forall o, column bs n j "misc" o -> pairs o) /\
  (forall s, column bs n j "dephead" (Some s) -> exists h, parse_int s = Ok h).

(* for every token of every document *)
Definition every_token (ds : list document) (P : nat -> nat -> Prop) : Prop :=
  forall n k d s j, sentence_number ds n k d s -> (1 <= j <= length (tokens_of (dtokens d) s))%nat -> P n j.

(* ---- extra fields ---- *)

(* the path leads from one output to another *)
Inductive leads : outputs -> list str -> outputs -> Prop :=
| leads_end o : leads o [] o
| leads_key d key path o o' : dict_get d key = Some o' -> leads o' path o -> leads (Group d) (key :: path) o.

(* ---- sessions ---- *)

(* sessions are numbered as they are created *)
Definition sessions_ok (st : state) : Prop := forall k, In k (open st) -> (k < created st)%nat.
