(* The documents of /repo/babylondigger/tests/evaluation/test_data.py, written by tools/gen_tests.py. *)
From Coq Require Import String Ascii ZArith NArith Bool List.
From Verif Require Import Base Model_Datamodel Model_Conllu.
Import ListNotations.
Open Scope Z_scope.

(* the code points of a text in UTF-8 of at most two bytes each *)
Fixpoint decode (bytes : list N) : str :=
  match bytes with
  | [] => []
  | b :: rest =>
      if (b <? 128)%N then b :: decode rest
      else match rest with c :: rest' => ((b - 192) * 64 + (c - 128))%N :: decode rest' | [] => [] end
  end.
Definition u8 (s : string) : str := decode (of_string s).

(* Document(text, [Token(...), ...], [Sentence(...), ...]) *)
Definition build (text : str) (tokens : list (result token)) (sents : option (list (result sentence))) : result document :=
  do ts <- mapM (fun t => t) tokens;
  do ss <- match sents with None => Ok None | Some l => rmap Some (mapM (fun s => s) l) end;
  new_document text ts ss false.

Definition regular_document_conllu : str := (u8 "# sent_id = train-s8
# text = Закончил Харьковский, а затем и Петроградский университет.
1	Закончил	ЗАКОНЧИТЬ	VERB	VBC	Aspect=Perf|Gender=Masc|Mood=Ind|Number=Sing|Tense=Past|VerbForm=Fin	0	root	_	_
2	Харьковский	ХАРЬКОВСКИЙ	ADJ	JJL	Animacy=Inan|Case=Acc|Gender=Masc|Number=Sing	8	amod	_	SpaceAfter=No
3	,	,	PUNCT	,	_	7	punct	_	_
4	а	А	CCONJ	CC	_	7	cc	_	_
5	затем	ЗАТЕМ	ADV	RB	_	7	advmod	_	_
6	и	И	PART	UH	_	7	discourse	_	_
7	Петроградский	ПЕТРОГРАДСКИЙ	ADJ	JJL	Animacy=Inan|Case=Acc|Gender=Masc|Number=Sing	2	conj	_	_
8	университет	УНИВЕРСИТЕТ	NOUN	NN	Animacy=Inan|Case=Acc|Gender=Masc|Number=Sing	1	obj	_	SpaceAfter=No
9	.	.	PUNCT	.	_	1	punct	_	_

").
Definition regular_document_text : str := (u8 "Закончил Харьковский, а затем и Петроградский университет. ").
Definition regular_document : result document := build (u8 "Закончил Харьковский, а затем и Петроградский университет. ") [
    new_token 0 8 (Some (mkPos (Some (u8 "VERB")) (Some (u8 "VBC")) [((u8 "Aspect"), (u8 "Perf")); ((u8 "Gender"), (u8 "Masc")); ((u8 "Mood"), (u8 "Ind")); ((u8 "Number"), (u8 "Sing")); ((u8 "Tense"), (u8 "Past")); ((u8 "VerbForm"), (u8 "Fin"))])) (Some (u8 "ЗАКОНЧИТЬ")) (Some (u8 "root")) 0 None None (Some (-1)) None;
    new_token 9 20 (Some (mkPos (Some (u8 "ADJ")) (Some (u8 "JJL")) [((u8 "Animacy"), (u8 "Inan")); ((u8 "Case"), (u8 "Acc")); ((u8 "Gender"), (u8 "Masc")); ((u8 "Number"), (u8 "Sing"))])) (Some (u8 "ХАРЬКОВСКИЙ")) (Some (u8 "amod")) 0 None None (Some 7) None;
    new_token 20 21 (Some (mkPos (Some (u8 "PUNCT")) (Some (u8 ",")) [])) (Some (u8 ",")) (Some (u8 "punct")) 0 None None (Some 6) None;
    new_token 22 23 (Some (mkPos (Some (u8 "CCONJ")) (Some (u8 "CC")) [])) (Some (u8 "А")) (Some (u8 "cc")) 0 None None (Some 6) None;
    new_token 24 29 (Some (mkPos (Some (u8 "ADV")) (Some (u8 "RB")) [])) (Some (u8 "ЗАТЕМ")) (Some (u8 "advmod")) 0 None None (Some 6) None;
    new_token 30 31 (Some (mkPos (Some (u8 "PART")) (Some (u8 "UH")) [])) (Some (u8 "И")) (Some (u8 "discourse")) 0 None None (Some 6) None;
    new_token 32 45 (Some (mkPos (Some (u8 "ADJ")) (Some (u8 "JJL")) [((u8 "Animacy"), (u8 "Inan")); ((u8 "Case"), (u8 "Acc")); ((u8 "Gender"), (u8 "Masc")); ((u8 "Number"), (u8 "Sing"))])) (Some (u8 "ПЕТРОГРАДСКИЙ")) (Some (u8 "conj")) 0 None None (Some 1) None;
    new_token 46 57 (Some (mkPos (Some (u8 "NOUN")) (Some (u8 "NN")) [((u8 "Animacy"), (u8 "Inan")); ((u8 "Case"), (u8 "Acc")); ((u8 "Gender"), (u8 "Masc")); ((u8 "Number"), (u8 "Sing"))])) (Some (u8 "УНИВЕРСИТЕТ")) (Some (u8 "obj")) 0 None None (Some 0) None;
    new_token 57 58 (Some (mkPos (Some (u8 "PUNCT")) (Some (u8 ".")) [])) (Some (u8 ".")) (Some (u8 "punct")) 0 None None (Some 0) None]
    (Some [new_sentence 0 9]).
Definition empty_token_document_conllu : str := (u8 "# source = 2011Alpinizm.xml 29
# text = До сих пор идут споры о том, достигли они вершины или нет
# sent_id = 191
1	До	до	ADP	_	_	4	advmod	4:advmod	_
2	сих	сей	DET	_	Case=Gen|Number=Plur	1	fixed	1:fixed	_
3	пор	пора	NOUN	_	Animacy=Inan|Case=Gen|Gender=Fem|Number=Plur	2	fixed	2:fixed	_
4	идут	идти	VERB	_	Aspect=Imp|Mood=Ind|Number=Plur|Person=3|Tense=Pres|VerbForm=Fin|Voice=Act	0	root	0:root	_
5	споры	спор	NOUN	_	Animacy=Inan|Case=Nom|Gender=Masc|Number=Plur	4	nsubj	4:nsubj	_
6	о	о	ADP	_	_	7	case	7:case	_
7	том	то	PRON	_	Animacy=Inan|Case=Loc|Gender=Neut|Number=Sing	5	nmod	5:nmod	SpaceAfter=No
8	,	,	PUNCT	_	_	7	punct	7:punct	_
9	достигли	достигать	VERB	_	Aspect=Perf|Mood=Ind|Number=Plur|Tense=Past|VerbForm=Fin|Voice=Act	7	acl	7:acl	_
10	они	они	PRON	_	Case=Nom|Number=Plur|Person=3	9	nsubj	9:nsubj	_
11	вершины	вершина	NOUN	_	Animacy=Inan|Case=Gen|Gender=Fem|Number=Sing	9	obl	9:obl	_
12	или	или	CCONJ	_	_	9	orphan	13.1:cc	_
13	нет	нет	PART	_	_	9	orphan	13.1:advmod	SpaceAfter=No
13.1	_	_	_	_	_	_	_	9:conj	_

").
Definition empty_token_document_text : str := (u8 "До сих пор идут споры о том, достигли они вершины или нет").
Definition empty_token_document_tokens_count : Z := 13.
Definition multiword_token_document_conllu : str := (u8 "# sent_id = es-dev-001-s72
# text = También comenzó a emitirse publicidad comercial y programas estadounidenses.
1	También	también	ADV	_	_	6	advmod	_	_
2	comenzó	comenzar	AUX	_	Mood=Ind|Number=Sing|Person=3|Tense=Past|VerbForm=Fin	6	aux	_	_
3	a	a	ADP	_	_	4	mark	_	_
4-5	emitirse	_	_	_	_	_	_	_	_
4	emitir	emitir	VERB	_	VerbForm=Inf	6	cop	_	_
5	se	él	PRON	_	Case=Acc,Dat|Person=3|PrepCase=Npr|PronType=Prs|Reflex=Yes	4	iobj	_	_
6	publicidad	publicidad	NOUN	_	Gender=Fem|Number=Sing	0	root	_	_
7	comercial	comercial	ADJ	_	Number=Sing	6	amod	_	_
8	y	y	CCONJ	_	_	9	cc	_	_
9	programas	programa	NOUN	_	Gender=Masc|Number=Plur	6	conj	_	_
10	estadounidenses	estadounidense	ADJ	_	Number=Plur	9	amod	_	SpaceAfter=No
11	.	.	PUNCT	_	_	6	punct	_	_

").
Definition multiword_token_document_text : str := (u8 "También comenzó a emitirse publicidad comercial y programas estadounidenses. ").
Definition multiword_token_document : result document := build (u8 "También comenzó a emitirse publicidad comercial y programas estadounidenses. ") [
    new_token 0 7 (Some (mkPos (Some (u8 "ADV")) None [])) (Some (u8 "también")) (Some (u8 "advmod")) 0 None None (Some 5) None;
    new_token 8 15 (Some (mkPos (Some (u8 "AUX")) None [((u8 "Mood"), (u8 "Ind")); ((u8 "Number"), (u8 "Sing")); ((u8 "Person"), (u8 "3")); ((u8 "Tense"), (u8 "Past")); ((u8 "VerbForm"), (u8 "Fin"))])) (Some (u8 "comenzar")) (Some (u8 "aux")) 0 None None (Some 5) None;
    new_token 16 17 (Some (mkPos (Some (u8 "ADP")) None [])) (Some (u8 "a")) (Some (u8 "mark")) 0 None None (Some 3) None;
    new_token 18 26 (Some (mkPos (Some (u8 "VERB")) None [((u8 "VerbForm"), (u8 "Inf"))])) (Some (u8 "emitir")) (Some (u8 "cop")) 0 (Some (u8 "emitir")) None (Some 5) None;
    new_token 18 26 (Some (mkPos (Some (u8 "PRON")) None [((u8 "Case"), (u8 "Acc,Dat")); ((u8 "Person"), (u8 "3")); ((u8 "PrepCase"), (u8 "Npr")); ((u8 "PronType"), (u8 "Prs")); ((u8 "Reflex"), (u8 "Yes"))])) (Some (u8 "él")) (Some (u8 "iobj")) 1 (Some (u8 "se")) None (Some 3) None;
    new_token 27 37 (Some (mkPos (Some (u8 "NOUN")) None [((u8 "Gender"), (u8 "Fem")); ((u8 "Number"), (u8 "Sing"))])) (Some (u8 "publicidad")) (Some (u8 "root")) 0 None None (Some (-1)) None;
    new_token 38 47 (Some (mkPos (Some (u8 "ADJ")) None [((u8 "Number"), (u8 "Sing"))])) (Some (u8 "comercial")) (Some (u8 "amod")) 0 None None (Some 5) None;
    new_token 48 49 (Some (mkPos (Some (u8 "CCONJ")) None [])) (Some (u8 "y")) (Some (u8 "cc")) 0 None None (Some 8) None;
    new_token 50 59 (Some (mkPos (Some (u8 "NOUN")) None [((u8 "Gender"), (u8 "Masc")); ((u8 "Number"), (u8 "Plur"))])) (Some (u8 "programa")) (Some (u8 "conj")) 0 None None (Some 5) None;
    new_token 60 75 (Some (mkPos (Some (u8 "ADJ")) None [((u8 "Number"), (u8 "Plur"))])) (Some (u8 "estadounidense")) (Some (u8 "amod")) 0 None None (Some 8) None;
    new_token 75 76 (Some (mkPos (Some (u8 "PUNCT")) None [])) (Some (u8 ".")) (Some (u8 "punct")) 0 None None (Some 5) None]
    None.
Definition multiword_token_document2_conllu : str := (u8 "# sent_id = n01016019
# text = Varios analistas han sugerido que Huawei está en la mejor posición para beneficiarse del retroceso de Samsung.
# text_en = Several analysts have suggested Huawei is best placed to benefit from Samsung's setback.
1	Varios	_	DET	DT	Gender=Masc|Number=Plur	2	det	_	_
2	analistas	_	NOUN	NN	Gender=Masc|Number=Plur	4	nsubj	_	_
3	han	_	VERB	VBC	Aspect=Perf|Mood=Ind|Number=Plur|Person=3|Tense=Past|Voice=Act	4	aux	_	_
4	sugerido	_	VERB	VBN	_	0	root	_	_
5	que	_	ADP	IN	_	7	mark	_	_
6	Huawei	_	PROPN	NNP	Number=Sing	7	nsubj	_	_
7	está	_	VERB	VBC	Aspect=Imp|Mood=Ind|Number=Sing|Person=3|Tense=Pres|Voice=Act	4	ccomp	_	_
8	en	_	ADP	IN	_	11	case	_	_
9	la	_	DET	DT	Gender=Fem|Number=Sing	11	det	_	_
10	mejor	_	ADJ	JJR	Gender=Fem|Number=Sing	11	amod	_	_
11	posición	_	NOUN	NN	Gender=Fem|Number=Sing	7	obl	_	_
12	para	_	ADP	IN	_	13	case	_	_
13-14	beneficiarse	_	_	_	_	_	_	_	_
13	beneficiar	_	VERB	VB	Aspect=Imp|Voice=Act	7	xcomp	_	_
14	se	_	PRON	SE	Person=3	13	compound:prt	_	_
15-16	del	_	_	_	_	_	_	_	_
15	de	de	ADP	INDT	_	17	case	_	_
16	el	el	DET	_	Gender=Masc|Number=Sing	17	det	_	_
17	retroceso	_	NOUN	NN	Gender=Masc|Number=Sing	13	obl	_	_
18	de	_	ADP	IN	_	19	case	_	_
19	Samsung	_	PROPN	NNP	Number=Sing	17	nmod	_	SpaceAfter=No
20	.	_	PUNCT	.	_	4	punct	_	_

").
Definition multiword_token_document2_text : str := (u8 "Varios analistas han sugerido que Huawei está en la mejor posición para beneficiarse del retroceso de Samsung. ").
Definition multiword_token_document2 : result document := build (u8 "Varios analistas han sugerido que Huawei está en la mejor posición para beneficiarse del retroceso de Samsung. ") [
    new_token 0 6 (Some (mkPos (Some (u8 "DET")) (Some (u8 "DT")) [((u8 "Gender"), (u8 "Masc")); ((u8 "Number"), (u8 "Plur"))])) None (Some (u8 "det")) 0 None None (Some 1) None;
    new_token 7 16 (Some (mkPos (Some (u8 "NOUN")) (Some (u8 "NN")) [((u8 "Gender"), (u8 "Masc")); ((u8 "Number"), (u8 "Plur"))])) None (Some (u8 "nsubj")) 0 None None (Some 3) None;
    new_token 17 20 (Some (mkPos (Some (u8 "VERB")) (Some (u8 "VBC")) [((u8 "Aspect"), (u8 "Perf")); ((u8 "Mood"), (u8 "Ind")); ((u8 "Number"), (u8 "Plur")); ((u8 "Person"), (u8 "3")); ((u8 "Tense"), (u8 "Past")); ((u8 "Voice"), (u8 "Act"))])) None (Some (u8 "aux")) 0 None None (Some 3) None;
    new_token 21 29 (Some (mkPos (Some (u8 "VERB")) (Some (u8 "VBN")) [])) None (Some (u8 "root")) 0 None None (Some (-1)) None;
    new_token 30 33 (Some (mkPos (Some (u8 "ADP")) (Some (u8 "IN")) [])) None (Some (u8 "mark")) 0 None None (Some 6) None;
    new_token 34 40 (Some (mkPos (Some (u8 "PROPN")) (Some (u8 "NNP")) [((u8 "Number"), (u8 "Sing"))])) None (Some (u8 "nsubj")) 0 None None (Some 6) None;
    new_token 41 45 (Some (mkPos (Some (u8 "VERB")) (Some (u8 "VBC")) [((u8 "Aspect"), (u8 "Imp")); ((u8 "Mood"), (u8 "Ind")); ((u8 "Number"), (u8 "Sing")); ((u8 "Person"), (u8 "3")); ((u8 "Tense"), (u8 "Pres")); ((u8 "Voice"), (u8 "Act"))])) None (Some (u8 "ccomp")) 0 None None (Some 3) None;
    new_token 46 48 (Some (mkPos (Some (u8 "ADP")) (Some (u8 "IN")) [])) None (Some (u8 "case")) 0 None None (Some 10) None;
    new_token 49 51 (Some (mkPos (Some (u8 "DET")) (Some (u8 "DT")) [((u8 "Gender"), (u8 "Fem")); ((u8 "Number"), (u8 "Sing"))])) None (Some (u8 "det")) 0 None None (Some 10) None;
    new_token 52 57 (Some (mkPos (Some (u8 "ADJ")) (Some (u8 "JJR")) [((u8 "Gender"), (u8 "Fem")); ((u8 "Number"), (u8 "Sing"))])) None (Some (u8 "amod")) 0 None None (Some 10) None;
    new_token 58 66 (Some (mkPos (Some (u8 "NOUN")) (Some (u8 "NN")) [((u8 "Gender"), (u8 "Fem")); ((u8 "Number"), (u8 "Sing"))])) None (Some (u8 "obl")) 0 None None (Some 6) None;
    new_token 67 71 (Some (mkPos (Some (u8 "ADP")) (Some (u8 "IN")) [])) None (Some (u8 "case")) 0 None None (Some 12) None;
    new_token 72 84 (Some (mkPos (Some (u8 "VERB")) (Some (u8 "VB")) [((u8 "Aspect"), (u8 "Imp")); ((u8 "Voice"), (u8 "Act"))])) None (Some (u8 "xcomp")) 0 (Some (u8 "beneficiar")) None (Some 6) None;
    new_token 72 84 (Some (mkPos (Some (u8 "PRON")) (Some (u8 "SE")) [((u8 "Person"), (u8 "3"))])) None (Some (u8 "compound:prt")) 1 (Some (u8 "se")) None (Some 12) None;
    new_token 85 88 (Some (mkPos (Some (u8 "ADP")) (Some (u8 "INDT")) [])) (Some (u8 "de")) (Some (u8 "case")) 0 (Some (u8 "de")) None (Some 16) None;
    new_token 85 88 (Some (mkPos (Some (u8 "DET")) None [((u8 "Gender"), (u8 "Masc")); ((u8 "Number"), (u8 "Sing"))])) (Some (u8 "el")) (Some (u8 "det")) 1 (Some (u8 "el")) None (Some 16) None;
    new_token 89 98 (Some (mkPos (Some (u8 "NOUN")) (Some (u8 "NN")) [((u8 "Gender"), (u8 "Masc")); ((u8 "Number"), (u8 "Sing"))])) None (Some (u8 "obl")) 0 None None (Some 12) None;
    new_token 99 101 (Some (mkPos (Some (u8 "ADP")) (Some (u8 "IN")) [])) None (Some (u8 "case")) 0 None None (Some 18) None;
    new_token 102 109 (Some (mkPos (Some (u8 "PROPN")) (Some (u8 "NNP")) [((u8 "Number"), (u8 "Sing"))])) None (Some (u8 "nmod")) 0 None None (Some 16) None;
    new_token 109 110 (Some (mkPos (Some (u8 "PUNCT")) (Some (u8 ".")) [])) None (Some (u8 "punct")) 0 None None (Some 3) None]
    None.
