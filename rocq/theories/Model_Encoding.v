(* Model of the files behind babylondigger/evaluation/conllu_io.py and conll17_ud_eval.py: the bytes of a
   file, open(name, encoding="utf-8") and open(name, 'w', encoding="utf-8").  Definitions only.

   CoNLLUReader.read_from_file, conllu_io.py:111-112; CoNLLUWriter.write_to_file, conllu_io.py:289-291;
   load_conllu_file, conll17_ud_eval.py:464-466.  UnicodeEncodeError and UnicodeDecodeError are ValueErrors. *)
From Coq Require Import String Ascii ZArith NArith Bool List.
From Verif Require Import Base Model_Datamodel Model_Conllu Model_UDEval.
Import ListNotations.
Open Scope N_scope.

Definition byte := N.

(* python's codec "utf-8" with errors="strict", used at conllu_io.py:290: the bytes of one character.
   Lone surrogates are characters of python strings but cannot be encoded; 1114112 and above are no characters. *)
Definition encode_char (c : char) : result (list byte) :=
  if c <? 128 then Ok [c]
  else if c <? 2048 then Ok [192 + c / 64; 128 + c mod 64]
  else if (55296 <=? c) && (c <? 57344) then Err EValue
  else if c <? 65536 then Ok [224 + c / 4096; 128 + (c / 64) mod 64; 128 + c mod 64]
  else if c <? 1114112 then Ok [240 + c / 262144; 128 + (c / 4096) mod 64; 128 + (c / 64) mod 64; 128 + c mod 64]
  else Err EValue.

Definition encode (s : str) : result (list byte) := rmap (@concat byte) (mapM encode_char s).

(* the decoder, conllu_io.py:112 and conll17_ud_eval.py:465 *)
Definition continues (b : byte) : bool := (128 <=? b) && (b <? 192).

Fixpoint decode (bs : list byte) : result str :=
  match bs with
  | [] => Ok []
  | b0 :: r0 =>
      if b0 <? 128 then rmap (cons b0) (decode r0)
      else match r0 with
      | [] => Err EValue
      | b1 :: r1 =>
          if negb (continues b1) then Err EValue
          else if b0 <? 194 then Err EValue
          else if b0 <? 224 then rmap (cons ((b0 - 192) * 64 + (b1 - 128))) (decode r1)
          else match r1 with
          | [] => Err EValue
          | b2 :: r2 =>
              if negb (continues b2) then Err EValue
              else if b0 <? 240 then
                let c := (b0 - 224) * 4096 + (b1 - 128) * 64 + (b2 - 128) in
                if (c <? 2048) || ((55296 <=? c) && (c <? 57344)) then Err EValue
                else rmap (cons c) (decode r2)
              else match r2 with
              | [] => Err EValue
              | b3 :: r3 =>
                  if negb (continues b3) then Err EValue
                  else
                    let c := (b0 - 240) * 262144 + (b1 - 128) * 4096 + (b2 - 128) * 64 + (b3 - 128) in
                    if (c <? 65536) || (1114112 <=? c) then Err EValue
                    else rmap (cons c) (decode r3)
              end
          end
      end
  end.

(* CoNLLUReader.read_from_file, conllu_io.py:111-112.  Simplification: python decodes the file piece by piece
   and raises when it comes to the bad piece, possibly after some documents; here the file is decoded first. *)
Definition read_bytes (limit : Z) (cols : columns) (contents : list byte) : result (gen document) :=
  do _ <- assert (0 <? limit)%Z;
  do text <- decode contents;
  read_file limit cols text.

(* load_conllu_file, conll17_ud_eval.py:464-466 *)
Definition load_bytes (contents : list byte) : result ud :=
  do text <- decode contents;
  load_conllu_file text.

(* ------------------------------------------------------------------ *)
(* Writing to a file: the bytes written stay in the file when a later write raises                        *)

(* the file being written, the index of _RegularTokenWriterState and the pending multiword token *)
Record fstate := mkF { f_out : list byte; f_index : Z; f_multi : option wmulti }.

(* a step that may raise, with the file as it is then *)
Definition step_to : Type := fstate * option exn.

Definition and_then (r : step_to) (g : fstate -> step_to) : step_to :=
  match r with (st, None) => g st | (st, Some e) => (st, Some e) end.

Fixpoint run_all {A} (g : fstate -> A -> step_to) (st : fstate) (l : list A) : step_to :=
  match l with [] => (st, None) | a :: l' => and_then (g st a) (fun st' => run_all g st' l') end.

(* file.write(line) of a file opened with encoding="utf-8": the line is encoded as a whole before anything of
   it is written; os.linesep is \n *)
Definition file_write (st : fstate) (line : str) : step_to :=
  match encode line with
  | Ok bs => (mkF (f_out st ++ bs) (f_index st) (f_multi st), None)
  | Err e => (st, Some e)
  end.

(* write_regular, conllu_io.py:217-219 *)
Definition fwrite_regular (cols : columns) (st : fstate) (v : navtoken) (sp : bool) : step_to :=
  match to_conll cols (f_index st) v sp true with
  | Err e => (st, Some e)
  | Ok cells => and_then (file_write st (format_line cells)) (fun st' => (mkF (f_out st') (f_index st' + 1)%Z (f_multi st'), None))
  end.

(* _write_multiword_token, conllu_io.py:254-262 *)
Definition fwrite_multiword (cols : columns) (st : fstate) (m : wmulti) : step_to :=
  and_then (file_write st (format_line (range_line m)))
           (fun st' => run_all (fun st v => fwrite_regular cols st v false) st' (wm_tokens m)).

(* _RegularTokenWriterState.write_token, conllu_io.py:211-215 *)
Definition fregular_write_token (cols : columns) (st : fstate) (v : navtoken) : step_to :=
  if is_multiword (nv_token v)
  then (mkF (f_out st) (f_index st) (Some (mkWM (f_index st + 1)%Z v [v])), None)
  else fwrite_regular cols (mkF (f_out st) (f_index st) None) v true.

(* write_token of both states, conllu_io.py:211-215 and 243-248 *)
Definition fwrite_token (cols : columns) (st : fstate) (v : navtoken) : step_to :=
  match f_multi st with
  | None => fregular_write_token cols st v
  | Some m =>
      if coincides (nv_token (wm_first m)) (nv_token v)
      then (mkF (f_out st) (f_index st) (Some (mkWM (wm_start m) (wm_first m) (wm_tokens m ++ [v]))), None)
      else and_then (fwrite_multiword cols st m) (fun st' => fregular_write_token cols st' v)
  end.

(* write_end_of_sentence, conllu_io.py:221-224 and 250-252; the state that is current stays current *)
Definition fwrite_end_of_sentence (cols : columns) (st : fstate) : step_to :=
  and_then (match f_multi st with None => (st, None) | Some m => fwrite_multiword cols st m end)
    (fun st' => and_then (file_write st' [chNL]) (fun st'' => (mkF (f_out st'') 0%Z (f_multi st), None))).

(* the loop over the tokens of a sentence, conllu_io.py:305-307 *)
Definition fwrite_sentence (cols : columns) (st : fstate) (s : navsentence) : step_to :=
  match ns_nav_tokens s with
  | Err e => (st, Some e)
  | Ok vs => and_then (run_all (fwrite_token cols) st vs) (fwrite_end_of_sentence cols)
  end.

(* __write_CoNLL_U, conllu_io.py:302-307: a new state for every document, the same file *)
Definition fwrite_document (cols : columns) (st : fstate) (d : document) : step_to :=
  match doc_nav_sentences d with
  | Err e => (st, Some e)
  | Ok ss => run_all (fwrite_sentence cols) (mkF (f_out st) 0%Z None) ss
  end.

(* CoNLLUWriter.write_to_file, conllu_io.py:289-291: what the file [old] contains afterwards, and the exception.
   Mode 'w' empties the file first; leaving the with statement writes out what was buffered. *)
Definition write_to_file (old : list byte) (cols : columns) (ds : list document) : list byte * option exn :=
  let emptied := firstn 0 old in
  let (st, e) := run_all (fwrite_document (normal_columns cols)) (mkF emptied 0%Z None) ds in
  (f_out st, e).
