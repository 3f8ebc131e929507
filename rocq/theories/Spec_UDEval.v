(* Specification vocabulary for the evaluation script. *)
From Coq Require Import String ZArith NArith QArith Bool Sorted List.
From Verif Require Import Base Model_Datamodel Model_Conllu Spec_Datamodel Spec_Conllu Model_UDEval.
Import ListNotations.
Open Scope Z_scope.

(* the first list is obtained from the second by deleting elements *)
Inductive subseq {A} : list A -> list A -> Prop :=
| subseq_nil l : subseq [] l
| subseq_keep x l l' : subseq l l' -> subseq (x :: l) (x :: l')
| subseq_skip x l l' : subseq l l' -> subseq l (x :: l').

(* xs is a common subsequence of l and l', and no other one is longer *)
Definition longest_common {A} (xs l l' : list A) : Prop :=
  subseq xs l /\ subseq xs l' /\
  forall ys, subseq ys l -> subseq ys l' -> (length ys <= length xs)%nat.

(* q is the fraction a/b, taken as 0 when b is 0 *)
Definition fraction (a b q : Q) : Prop :=
  ((b == 0)%Q -> (q == 0)%Q) /\ (~ (b == 0)%Q -> (q * b == a)%Q).

Definition count {A} (l : list A) : Q := inject_Z (Z.of_nat (length l)).

(* ---- spans ---- *)

(* spans sorted by their starts *)
Definition increasing_starts (l : list span) : Prop := StronglySorted (fun a b => sp_start a < sp_start b) l.

(* xs lists the spans that are in both l and l', each once *)
Definition common_spans (xs l l' : list span) : Prop :=
  NoDup xs /\ forall x, In x xs <-> In x l /\ In x l'.

(* the spans cover a .. b one after another, none of them empty *)
Inductive consecutive : Z -> Z -> list span -> Prop :=
| cs_nil a : consecutive a a []
| cs_cons a b s ss : sp_start s = a -> a < sp_end s -> consecutive (sp_end s) b ss -> consecutive a b (s :: ss).

(* ---- words ---- *)

Definition nonempty_span (w : word) : Prop := sp_start (w_span w) < sp_end (w_span w).
Definition form (w : word) : str := nth 1 (w_columns w) [].

(* two words that may be paired *)
Definition pairable (lower : str -> str) (p : word * word) : Prop :=
  (w_multi (fst p) = false /\ w_multi (snd p) = false /\ w_span (fst p) = w_span (snd p)) \/
  lower (form (fst p)) = lower (form (snd p)).

(* the word does not lie within the text up to e: it is a multiword word that starts at or after e,
   or another word that ends after e *)
Definition outside (e : Z) (w : word) : Prop :=
  if w_multi w then e <= sp_start (w_span w) else e < sp_end (w_span w).

(* How an alignment is put together: words outside multiword tokens are paired by their span or left
   out; the words of a multiword span are paired along a longest common subsequence of their
   lower-cased forms.  e is the end of the multiword span: it is the end of one of its multiword
   words, no multiword word of the span ends later, and the next words do not lie within it. *)
Inductive aligned (lower : str -> str) : list word -> list word -> list (word * word) -> Prop :=
| al_gold_end s : aligned lower [] s []
| al_system_end g : aligned lower g [] []
| al_pair w v g s ps :
    w_multi w = false -> w_multi v = false -> w_span w = w_span v ->
    aligned lower g s ps -> aligned lower (w :: g) (v :: s) ((w, v) :: ps)
| al_skip_gold w v g s ps :
    w_multi w = false -> w_span w <> w_span v -> sp_start (w_span w) <= sp_start (w_span v) ->
    aligned lower g (v :: s) ps -> aligned lower (w :: g) (v :: s) ps
| al_skip_system w v g s ps :
    w_multi v = false -> w_span w <> w_span v -> sp_start (w_span v) < sp_start (w_span w) ->
    aligned lower (w :: g) s ps -> aligned lower (w :: g) (v :: s) ps
| al_multiword gs ss g s here ps e :
    (exists w, In w (gs ++ ss) /\ w_multi w = true /\ sp_end (w_span w) = e) ->
    (forall w, In w (gs ++ ss) -> w_multi w = true -> sp_end (w_span w) <= e) ->
    (forall w, hd_error g = Some w -> outside e w) ->
    (forall v, hd_error s = Some v -> outside e v) ->
    subseq (map fst here) gs -> subseq (map snd here) ss ->
    Forall (fun p => lower (form (fst p)) = lower (form (snd p))) here ->
    longest_common (map (fun p => lower (form (fst p))) here)
                   (map (fun w => lower (form w)) gs) (map (fun w => lower (form w)) ss) ->
    aligned lower g s ps -> aligned lower (gs ++ g) (ss ++ s) (here ++ ps).

(* ---- heads ---- *)

(* the HEAD column of the word is the number h *)
Definition head_of (w : word) (h : Z) : Prop :=
  exists c, nth_error (w_columns w) 6 = Some c /\ parse_int c = Ok h.

(* w' is w, linked to the word its head h names; st is the number of words before the sentence *)
Definition linked (st : Z) (w : word) (h : Z) (w' : word) : Prop :=
  w_ix w' = w_ix w /\ w_span w' = w_span w /\ w_columns w' = w_columns w /\ w_multi w' = w_multi w /\
  w_parent w' = if h =? 0 then PaNone else PaWord (st + (h - 1)).

(* ---- files ---- *)

(* the line without its line end: trailing carriage returns and line feeds *)
Definition line_text (raw line : str) : Prop :=
  exists tail, raw = line ++ tail /\ Forall (fun c => c = chCR \/ c = chNL) tail /\
    forall l c, line = l ++ [c] -> c <> chCR /\ c <> chNL.

Definition ud_comment (raw : str) : Prop := exists rest, line_text raw (35%N :: rest).
Definition ud_blank (raw : str) : Prop := line_text raw [].
Definition ten_cells (raw : str) (c : list str) : Prop :=
  exists line, line_text raw line /\ line <> [] /\ c = split chTAB line /\ length c = 10%nat.

Definition squeeze (s : str) : str := filter (fun c => negb (c =? chSP)%N) s.

(* the lines of one sentence up to and including its blank line, after k words have been read *)
Inductive ud_body : Z -> list str -> list (group (list str)) -> Prop :=
| ub_end k l : ud_blank l -> ud_body k [l] []
| ub_empty k l c ls gs :
    ten_cells l c -> In 46%N (cell c 0) -> ud_body k ls gs -> ud_body k (l :: ls) gs
| ub_word k l c ls gs h :
    ten_cells l c -> ~ In 46%N (cell c 0) -> ~ In 45%N (cell c 0) -> squeeze (cell c 1) <> [] ->
    parse_int (cell c 0) = Ok (k + 1) -> parse_int (cell c 6) = Ok h -> 0 <= h ->
    ud_body (k + 1) ls gs -> ud_body k (l :: ls) (GWord c :: gs)
| ub_range k l c ls gs sa sb a b ws cs :
    ten_cells l c -> cell c 0 = sa ++ 45%N :: sb -> ~ In 46%N (cell c 0) -> ~ In 45%N sa -> ~ In 45%N sb ->
    squeeze (cell c 1) <> [] -> parse_int sa = Ok a -> parse_int sb = Ok b ->
    Forall2 ten_cells ws cs -> zlen cs = Z.max 0 (b - a + 1) ->
    ud_body (k + zlen cs) ls gs -> ud_body k (l :: ws ++ ls) (GRange c cs :: gs).

(* the lines of a file, sentence by sentence; comments stand between sentences *)
Inductive ud_lines : list str -> list (list (group (list str))) -> Prop :=
| ul_nil : ud_lines [] []
| ul_comment l ls gss : ud_comment l -> ud_lines ls gss -> ud_lines (l :: ls) gss
| ul_sentence l ls gs rest gss :
    ~ ud_comment l -> ud_body 0 (l :: ls) gs -> ud_lines rest gss -> ud_lines ((l :: ls) ++ rest) (gs :: gss).

(* the words of a sentence: the cells of the lines that are neither range lines nor empty nodes *)
Definition word_cells (gs : list (group (list str))) : list (list str) :=
  map (fun w => snd (fst w)) (flat_map words_of gs).

(* the heads of a sentence are the numbers hs and lie in the sentence *)
Definition heads_are (gs : list (group (list str))) (hs : list Z) : Prop :=
  Forall2 (fun c h => parse_int (cell c 6) = Ok h /\ 0 <= h <= zlen (word_cells gs)) (word_cells gs) hs.
(* and they form a tree; HEAD 0 is the root, HEAD h the h-th word *)
Definition tree_heads (gs : list (group (list str))) (hs : list Z) : Prop :=
  heads_are gs hs /\ dependency_tree (map (fun h => Some (h - 1)) hs).

(* the parents of the words of the sentences with heads hss; st words stand before them *)
Fixpoint expected_parents (st : Z) (hss : list (list Z)) : list parent :=
  match hss with
  | [] => []
  | hs :: hss' => map (fun h => if h =? 0 then PaNone else PaWord (st + (h - 1))) hs ++ expected_parents (st + zlen hs) hss'
  end.

(* the characters of a sentence, its tokens and words, given the position in the text *)
Definition group_chars (g : group (list str)) : str := squeeze (cell (surface_row g) 1).

Fixpoint expected_tokens (at_ : Z) (gs : list (group (list str))) : list span :=
  match gs with
  | [] => []
  | g :: gs' => mkSpan at_ (at_ + zlen (group_chars g)) :: expected_tokens (at_ + zlen (group_chars g)) gs'
  end.

(* columns as kept for a word: DEPREL up to the first colon; a word outside multiword tokens loses the spaces of its FORM *)
Definition kept_columns (c : list str) (in_range : bool) : list str :=
  [cell c 0; (if in_range then cell c 1 else squeeze (cell c 1)); cell c 2; cell c 3; cell c 4; cell c 5; cell c 6;
   hd [] (split 58%N (cell c 7)); cell c 8; cell c 9].

Fixpoint expected_words (at_ : Z) (gs : list (group (list str))) : list (span * list str * bool) :=
  match gs with
  | [] => []
  | g :: gs' =>
      map (fun w => (mkSpan at_ (at_ + zlen (group_chars g)), kept_columns (snd (fst w)) (snd w), snd w)) (words_of g)
      ++ expected_words (at_ + zlen (group_chars g)) gs'
  end.

Definition sentence_chars (gs : list (group (list str))) : str := concat (map group_chars gs).

Fixpoint expected_sentences (at_ : Z) (gss : list (list (group (list str)))) : list span :=
  match gss with
  | [] => []
  | gs :: gss' => mkSpan at_ (at_ + zlen (sentence_chars gs)) :: expected_sentences (at_ + zlen (sentence_chars gs)) gss'
  end.

Definition word_facts (w : word) : span * list str * bool := (w_span w, w_columns w, w_multi w).

(* every HEAD of the file that is a number is not negative *)
Definition ud_heads_nonneg (text : str) : Prop :=
  forall l c h, In l (file_lines text) -> ten_cells l c -> parse_int (cell c 6) = Ok h -> 0 <= h.

(* ---- metrics ---- *)

Definition total {A} (f : A -> Q) (l : list A) : Q := fold_right Qplus 0%Q (map f l).

(* the columns a metric compares (numbered from 0), and whether it compares heads *)
Definition compared (m : metric) : option (list nat * bool) :=
  match m with
  | MTokens | MSentences | MWords => None
  | MUPOS => Some ([3%nat], false)
  | MXPOS => Some ([4%nat], false)
  | MFeats => Some ([5%nat], false)
  | MAllTags => Some ([3%nat; 4%nat; 5%nat], false)
  | MLemmas => Some ([2%nat], false)
  | MUAS => Some ([], true)
  | MLAS | MCLAS | MWeightedLAS => Some ([7%nat], true)
  end.

(* relations that CLAS does not count *)
Definition functional_relations : list str :=
  map of_string ["aux"; "case"; "cc"; "clf"; "cop"; "det"; "mark"; "punct"]%string.

(* how much a word counts *)
Definition metric_weight (weights : option (dict Q)) (m : metric) (w : word) : Q :=
  match m with
  | MCLAS => if existsb (str_eqb (nth 7 (w_columns w) [])) functional_relations then 0%Q else 1%Q
  | MWeightedLAS =>
      match weights with
      | Some d => match dict_get d (nth 7 (w_columns w) []) with Some q => q | None => 1%Q end
      | None => 1%Q
      end
  | _ => 1%Q
  end.

Definition weights_nonneg (weights : option (dict Q)) : Prop :=
  forall d k q, weights = Some d -> dict_get d k = Some q -> (0 <= q)%Q.

Definition same_columns (cs : list nat) (w v : word) : Prop :=
  Forall (fun c => nth c (w_columns w) [] = nth c (w_columns v) []) cs.

(* both words are roots, or the head of the one is paired with the head of the other *)
Definition heads_paired (pairs : list (word * word)) (w v : word) : Prop :=
  (w_parent w = PaNone /\ w_parent v = PaNone) \/
  exists pw pv, In (pw, pv) pairs /\ w_parent w = PaWord (w_ix pw) /\ w_parent v = PaWord (w_ix pv).

(* the pairs that agree on what the metric compares *)
Definition agreeing (m : metric) (pairs good : list (word * word)) : Prop :=
  subseq good pairs /\
  forall w v, In (w, v) pairs ->
    (In (w, v) good <->
     match compared m with
     | None => True
     | Some (cs, heads) => same_columns cs w v /\ (heads = true -> heads_paired pairs w v)
     end).

(* the numbers of a score: correct, gold and system totals, and the total of what could be aligned *)
Definition scores (sc : score) (correct gold system : Q) (aligned : option Q) : Prop :=
  fraction correct system (s_precision sc) /\
  fraction correct gold (s_recall sc) /\
  fraction (2 * correct) (system + gold) (s_f1 sc) /\
  match aligned, s_aligned sc with
  | None, None => True
  | Some a, Some q => fraction correct a q
  | _, _ => False
  end.

Definition unit_interval (q : Q) : Prop := (0 <= q <= 1)%Q.

(* differ only in columns other than FORM, and in heads *)
Definition same_tokenization (gold system : ud) : Prop :=
  u_chars gold = u_chars system /\ u_tokens gold = u_tokens system /\ u_sents gold = u_sents system /\
  Forall2 (fun w v => w_span w = w_span v /\ w_multi w = w_multi v /\ form w = form v) (u_words gold) (u_words system).

(* everything counted is correct *)
Definition perfect (sc : score) : Prop :=
  (s_precision sc == 1)%Q /\ (s_recall sc == 1)%Q /\ (s_f1 sc == 1)%Q /\ (forall q, s_aligned sc = Some q -> (q == 1)%Q).

(* positions that agree *)
Definition agreeing_positions (gold system : ud) (m : metric) (good : list (word * word)) : Prop :=
  subseq good (combine (u_words gold) (u_words system)) /\
  forall w v, In (w, v) (combine (u_words gold) (u_words system)) ->
    (In (w, v) good <-> match compared m with
                        | None => True
                        | Some (cs, heads) => same_columns cs w v /\ (heads = true -> w_parent w = w_parent v)
                        end).

(* what a metric counts in all *)
Definition metric_total (weights : option (dict Q)) (u : ud) (m : metric) : Q :=
  match m with
  | MTokens => count (u_tokens u)
  | MSentences => count (u_sents u)
  | _ => total (metric_weight weights m) (u_words u)
  end.

(* ---- what the writer writes, as loaded ---- *)

(* the HEAD numbers the writer writes for the tokens of a sentence, numbered from i *)
Fixpoint written_heads (cols : list Z) (i : Z) (ts : list token) : list Z :=
  match ts with
  | [] => []
  | t :: ts' =>
      (match thsent t with
       | Some h => if chosen cols 6 then h + 1 else i - 1
       | None => i - 1
       end) :: written_heads cols (i + 1) ts'
  end.

(* the words of a sentence as loaded: kept columns of the written rows *)
Fixpoint written_words (cols : list Z) (text : str) (i : Z) (gs : list (group token)) : list (list str * bool) :=
  match gs with
  | [] => []
  | GWord t :: gs' =>
      (kept_columns (expected_row cols text i t (spacing (space_after text t))) false, false) :: written_words cols text (i + 1) gs'
  | GRange t ws :: gs' =>
      map (fun row => (kept_columns row true, true)) (word_rows cols text i ws) ++ written_words cols text (i + zlen ws) gs'
  end.

(* a document the evaluation script can load once it is written: fields without tabs and line breaks, no token
   of spaces only, every sentence unparsed or a tree *)
Record loadable (d : document) : Prop := {
  lb_clean : Forall (token_clean (dtext d)) (dtokens d);
  lb_visible : Forall (fun t => squeeze (doc_text_of (dtext d) t) <> []) (dtokens d);
  lb_heads : forall s, In s (dsents d) ->
    unparsed (map thsent (tokens_of (dtokens d) s)) \/ dependency_tree (map thsent (tokens_of (dtokens d) s))
}.
