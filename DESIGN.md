# Formal model of babylondigger — design and trusted base

Source: `/repo/babylondigger` (python), read as text. Proof assistant: Coq 8.16.1,
standard library only. Build: `cd rocq && coq_makefile -f _CoqProject -o Makefile && make -j4`.

## 0. Trusted base

What has to be trusted to believe the theorems:

1. **Coq's kernel** (8.16.1), and the tools that call it (`coqc`, `make`). No kernel check is switched off; no plugin,
   functor, module type, axiom, parameter or section-less variable is used.
2. **`Print Assumptions`.** Every theorem of every `Props_*.v` is followed by `Print Assumptions`; the answer is
   `Closed under the global context` for all of them: no theorem depends on any axiom, of the standard library or else.
   (A checker that looks at all loaded libraries also finds the seven declarations `Coq.ssr.ssrunder.Under_rel.*` of the
   standard library, which are loaded with `Lia`; no theorem depends on them.)
3. **The model.** The correspondence between the python text and the definitions of `Model_*.v` is by reading; nothing is
   extracted from or executed against the code. Section 2 says which code is modelled and which is not, section 1
   and the comments `Simplification:` say how the model deviates. `seeded/LOG.jsonl` records what the theorems do when a
   definition is changed (section 6); `Tests_Repo.v` runs the unit tests of the repository on the model (section 7).
4. **The specifications.** The meaning of a theorem depends on its statement, on the definitions of `Spec_*.v` it uses and on
   the model functions it is about.

## 1. How python is modelled

| python | model | remarks |
|---|---|---|
| `int` | `Z` | unbounded on both sides |
| `str` | `str := list N` (code points) | `Base.v`; literals converted from Coq strings |
| `str.lower` | a function argument `lower : str -> str`, universally quantified | no property of it is assumed unless a theorem says so |
| `str.isspace`, `str.strip` | concrete table of python whitespace code points | |
| `str.split(sep)`, `str.join` | structural functions, `join (split s) = s` proved | |
| `int(s)` | strip, optional sign, ASCII digits with single underscores | non-ASCII digits are rejected by the model (simplification) |
| `str(int)` | decimal printing through `Coq.Init.Decimal` | round trip with `int` proved |
| `float` | `Q` | exact in all areas but Float, where scores are rounded as IEEE 754 doubles with unbounded exponent |
| `dict` | association list with unique keys, insertion order; equality ignores order | |
| exceptions | `Err e` with `e : exn`, `result A := Ok a \| Err e` | every raising operation of the code that the model reaches returns an `Err` |
| generators | list of yielded values plus the exception that ended them | laziness itself is not observable here |
| `sorted`, `list.sort` | stable insertion sort on the key | |
| slices, negative indices | `Z`-indexed helpers with python semantics | |
| `argparse` | `_parse_optional`, `_get_option_tuples`, `consume_optional` and the loop of `_parse_known_args` for options with one value or none and single positional arguments | as of python 3.11.10, written from its source; `--` and the file `-` are `Unmodelled` |
| `random` | an arbitrary oracle, universally quantified | |
| mutable objects (only where sharing matters: C57, C64, C70) | an explicit heap or event trace | elsewhere values, because the code never mutates what it has published |

While loops and recursion on data use structural recursion or fuel. Where fuel is used
running out is a separate value (`EFuel`/`None`) and a theorem shows that the fuel given is always enough.

## 2. What is modelled

Line numbers are those of `/repo/babylondigger`. "Not modelled" lists everything of the file that no definition stands for;
abstract interfaces (methods with `pass`), `__init__` methods that only store their arguments, `__repr__`, imports and type
annotations are not listed.

| file | modelled (where) | not modelled |
|---|---|---|
| `datamodel.py` | `Pos` 9-50, `TokenExtras` 53-82, `Token` 85-243, `Sentence` 246-274, `_NavigableItem` 280-302, `_WordList` 305-354, `DocumentToken` 357-397, `NavigableToken` and `NavigableSentence` 400-425, `Document` 428-566, helpers 572-584 (`Model_Datamodel`); `Pos` and `TokenExtras` again as mutable objects with sharing (`Model_Heap`) | error messages; `Pos.__hash__` beyond "a function of the tuple"; `TokenExtras.__eq__` with another type (`raise NotImplemented`, a TypeError) |
| `evaluation/conllu_io.py` | reader 10-188, writer 194-353 (`Model_Conllu`), the file of `read_from_file` 111-135 (`Model_Resources`), files as bytes 111-112, 289-291 (`Model_Encoding`) | errors of the disk; buffering of reads: a file is decoded as a whole |
| `evaluation/conll17_ud_eval.py` | `load_conllu` 109-241, `evaluate` 244-444, `load_conllu_file` 464-466 (`Model_UDEval`, its file in `Model_Resources`, with a recursion limit in `Model_Recursion`), `load_deprel_weights` 446-462, `evaluate_wrapper` 468-476, `main` 478-516 (`Model_Script`; `float` and `{:.2f}` are arbitrary functions, weights are rational), `evaluate` 244-444 with rounding (`Model_Float`), `{:.2f}` for such numbers (`Model_Print`), the command line 480-490 (`Model_Cli`) | the argument `--` and `-` as a file of weights; message texts; overflow, subnormal numbers, nan and infinite weights |
| `evaluation/evaluation.py` | testers 26-90 (`Model_Tester`); `_is_better`, evaluators, estimator, comparator, averager 95-247, evaluator choice and deletion 287-309 (`Model_Harness`); whole experiments `main` 253-284 with the files written, read and removed (`Model_Experiment`), the same with settings as read from json, `__build_estimator`, `__build_tester`, `__build_dataset` 253-324 (`Model_Search`); comparator and averager 204-212, 231-247 with rounding (`Model_Float`; `sum` without the compensation of python 3.12); the printed table 215-228 (`Model_Print`); the command line 327-352 (`Model_Cli`, json parsing an arbitrary function), the whole program 355-356 (`Model_Program`) | the other printed lines, types of values in the settings beyond where they are read |
| `evaluation/dataset.py` | `CoNLLUDataSet` 10-16 (as the reader, in `Model_Tester`), `ShuffledDataset` 19-45 (`Model_Training`) | the Mersenne twister: any generator whose draws are in range |
| `evaluation/grid_eval.py` | `__merge_dicts`, `__build_list_of_new_hyperparams`, `__take_all_key_path`, `__check_is_grid_valid`, `main` 7-70, with shared objects (`Model_Grid`; with the evaluation `Model_Search`), the command line 19-25 (`Model_Cli`), the whole program 62-74 (`Model_Program`) | json parsing |
| `evaluation/trainers.py` | all 7-16 (`Model_Experiment`) | `trainer_names` |
| `lemmas/transformation_rules.py` | all 7-153 (`Model_Lemma`) | `__str__`, `__repr__` |
| `features/extractors.py` | sentence lengths 18-36 (`Model_Config`), embeddings 42-157, subwords 163-232, splitters and tag labels 249-385, lemma labels 391-426, suffix rules 432-526, lemma characters 529-582, helpers 591-628 (`Model_Vocab`, `Model_Features`, `Model_Lemma`; the interpreters again as builders in `Model_Neural`) | `TokenMorfessorSegmenter` 235-242 (an instance of an arbitrary segmenter), logging; BPEmb and float parsing are arbitrary functions |
| `features/builder.py` | padding 111-155 (values, and list objects changed in place), sparsification 158-192, composition and iteration 198-315, empty and constant parts 321-378, `merge` 383-409, `wrap_*` 412-433 (`Model_Builder`, interpreters in `Model_Neural`) | - |
| `features/provider.py` | `FeatureExtractorBuilderProvider` 8-31 for labels, the label providers 127-179 (`Model_Neural`); all providers with `FeatureExtractorBuilderProvider` for features, shapes and initial values (`Model_Config`) | - |
| `neural/network.py` | networks, mappings, feeding, multitask building 21-175, helpers 194-214 (`Model_Network`), whether the type of the optimizer is known 177-181 (`Model_Graph`), `_optimizers` and `_optimizer` 15-19, 177-188 with clipping and the rules of the optimizers as of tensorflow 1.14 (`Model_Step`) | gradients (arbitrary), momentum of RMSProp (0 by default), norms that are not finite |
| `neural/initializers.py` | all 17-66 (`Model_Network`) | - |
| `neural/model.py` | `initialize`, `train`, `predict` 17-41 (`Model_Network`), `load`, `new`, `close` 43-44, 61-89 as opening and closing (`Model_Resources`), `save` and `load` 46-75, 88-94 with the files (`Model_Saving`) | the formats of pickles and of `tf.train.Saver`; that an object is the same after pickling |
| `neural/tagger/neural_tagger.py` | `NeuralTagger.tag` 24-32 (`Model_Neural`), `PretrainedTaggerTrainer` 77-87 (`Model_Network`), training loop and minibatches 92-176 (`Model_Training`), setting up and feeding 92-107, 145-146, 163-165 (`Model_Config`), `load` and `LazyNeuralTagger` 42-74 as opening and closing (`Model_Resources`), `save`, `load` and the saves of training 34-47, 59-60, 111, 122-123 with the files (`Model_Saving`) | the format of the pickle |
| `neural/tagger/network_provider.py`, `shared_builders.py`, `task_builders.py`, `neural/utils.py` | the builders as arbitrary functions on the graph (`Model_Network`); each builder as what it requires of the graph: names, dimensions of placeholders, looked up, updated, masked and labelled tensors, and what it raises (`Model_Config`); what the layers compute when a network is run (`Model_Layers`), the losses (`Model_Loss`); dropout during training and in predictions (`Model_Dropout`); the variables with their names and shapes and which sizes fit together (`Model_Graph`) | names of placeholders and operations, variables of optimizers; floating point |
| `parser.py`, `processor.py`, `tagger.py` | all (`Model_Processors`) | - |
| `wrappers/udpipe1_2.py` | `_process` and conversions 16-25, 73-106 (`Model_Processors`) | UDPipe itself: any function from words to words |
| `wrappers/tdozat.py` | paths of extra fields 47-56, `process` 59-63, sessions 68-87, `__parse_documents` 89-141, extra fields of the classes 145-151, 158-169, `itersents` 181-188 (`Model_Tdozat`) | building the network 20-46, the check of its class; the package tdozat_parser (not in the repository): batches and predictions are arbitrary, `cache_predictions` is taken to append numbers and rows, `np.argsort` is any function that sorts |

### Files

`Base.v` (with `BaseFacts.v`) python primitives; per area `Model_X.v` (definitions only, each with the lines of /repo
it models), `Spec_X.v` (specification vocabulary independent of the model functions),
`Proofs_X*.v` (lemmas), `Props_X.v` (final theorems, concrete instances, `Print Assumptions`); `Tests_Data.v` and `Tests_Repo.v` (section 7).
Areas: Datamodel, Conllu, UDEval, Lemma, Vocab, Features, Builder, Harness, Grid, Training, Processors, Heap, Network,
Tester, Neural, Gold, Config, Tdozat, Resources, Layers (with Loss and Choice), Experiment, Graph, Script, Saving, Search, Dropout, Step, Recursion, Goldfile, Encoding, Float, Print, Cli, Program. `MANIFEST.json` maps properties to theorems; it and `properties.jsonl` are generated by
`tools/gen_manifest.py` and `tools/gen_properties.py`.

## 3. Properties: what is modelled and how it is proved

Properties known to be false of the code are proved false by a concrete witness
(`..._refuted`), and the strongest true restriction is proved next to it (`..._partial`).

### Data model (`datamodel.py`)
- C01 model of `_WordList.__init__` (sort, pairwise check). Induction on the sorted list: neighbour check is transitive on well-formed spans, so it implies the check for all pairs (`StronglySorted`). Permutation from the sort.
- C02 tiling spec as a recursive relation; both directions by induction on the sentence list after sorting.
- C03 sort of a permutation is the same list when keys of valid documents are distinct; the failing case is symmetric.
- C04 pointwise on `fill_heads`; list induction for documents.
- C05 model of the marking loop with fuel. Invariant: marked tokens reach the root; specification: inductive reachability. Fuel sufficiency by pigeonhole.
- C06 refuted: head = index just before the sentence start becomes sentence index -1, "root". Partial: every other out-of-sentence head is rejected.
- C07 refuted: same quirk makes `fill_heads` non-idempotent on unvalidated documents. Partial: holds when each head lies in its sentence or is a root.
- C08 record reasoning on `Token.with_*`; constructor asserts hold again.
- C09 refuted: `from_document(d, [])` returns an empty document. Partial: non-empty replacement lists.
- C10 index arithmetic and induction on the walk.
- C11 from C05: rank function along reachability.
- C12 sub-list of a checked list is checked; text is a `substring` fact.
- C13 refuted for the first group of the document. Partial: all other groups, and all groups if the first token's sub_index is 0.
- C14 refuted: sentence head compared with itself. Partial: equality iff all other fields; equivalence relation.
- C15 lexicographic order on (upos, xpos, sorted features). C16 refuted: None < str raises; partial: characterization of when it raises.
- C17 refuted for the empty document. Partial: non-empty documents, erasing the markup recovers the text.

### CoNLL-U input/output (`evaluation/conllu_io.py`)
- C18 invariant over the reader's fold: every emitted token's span slices the accumulated text to its FORM.
- C19 reader state after each sentence described by a segmentation spec; regrouping by induction on sentences.
- C20 composition: writer output lines as a function of the document, reader steps on them; induction over sentences and multiword groups.
- C21 refuted: state survives the end of sentence, range written twice. Partial: documents where no sentence followed by another one ends in a multiword token.
- C22 refuted: last SpaceAfter=No becomes a space. Partial: texts ending with one space.
- C23 refuted: writer without FEATS raises. Partial: readers, and writers with FEATS.
- C24 refuted inside multiword ranges (empty nodes). Partial: comments anywhere, empty nodes outside ranges.
- C25 composition of the writer model with the loader model.

### Evaluation script (`evaluation/conll17_ud_eval.py`)
- C26 recursion with marks; fuel = number of words; equivalence with a graph specification.
- C27 stream invariant. C28 two-pointer loop against a counting specification.
- C29, C30 alignment loop with fuel, LCS table as a recursive function; optimality by induction on both sequences.
- C31 counting bounds through injectivity of the alignment. C32/C33 alignment of a file with an identically segmented file is the identity.
- C34 direct; the display window computation in the error path cannot fail.
- C101 `split()` is characterised by decomposing a line into blanks and pieces; the fold over the lines keeps the last entry. C102 relations of loaded words have no colon, so an entry with a colon is never looked up. C103, C104 scores are fractions of sums that are multiplied by the same number. C105 from C31 and C101. C106, C107 a row is cut at its bars and stripped, for every way to print numbers with digits, points and signs.

### Lemma rules (`lemmas/transformation_rules.py`)
- C35 common prefix lemma. C36 exact characterization by induction on insertion and on the reversed word. C37 soundness; completeness refuted by a whole-word rule. C38 refuted. C39 composition. C40 direct.

### Features (`features/*.py`)
- C41..C46 vocabularies, splitters and label interpretation. C42 for pos_gran needs names other than UPOS/XPOS (refuted otherwise). C44 refuted (mixed missing XPOS), C46 refuted.
- C47 padding on rose trees, depth by depth. C48 rate 0 refuted at outcome 0.0, otherwise direct. C49 semantics-preserving transformation on builder trees. C50 dictionary merge. C51 matrix transposition. C52, C53 fold invariants.

### Harness
- C54, C55 invariants over the candidate loop with an event trace of disposals. C56 refuted for metrics without aligned accuracy. C57 product enumeration; refuted with sharing. C58 nested dictionary induction. C59 refuted; partial for single-key grids. C60, C61, C62 list/arith induction.

- C72 events of all seeds and candidates; what is left after the disposals. C73 the training generator.
- C95, C98 experiments with a file system: a simulation by the search of C54, C55, C72 (what the search holds is on disk and is the model trained), plus the disjointness of the names of models and predictions. C96 a frame argument: every step only changes names below the directories it is given. C97 the converse of C95: conditions under which no step raises.

### Processors and objects
- C63 fold over streams (functions from call numbers to outcomes). C64 refuted by failing second `__enter__`; the partial theorem gives the exact calls. C65 refuted for the syntax (same cause as C07). C66 zip of words and tokens.
- C70 heap with `copy.deepcopy` and its memo; invariant: no private object is reachable from the client. A step relation of client operations, induction on programs.

### Networks and tagging
- C71 mapping round trip (iff names are unique). C76 trace of session runs. C77 names collected by the loop. C78 refuted (paths sorted as strings), exact bound ten. C79 refuted (list extended in place).
- C67 tagging: `denotes` specifies what a prediction means for each kind of label; interpreters are related to it by induction on the builder tree after merging; syntax as in C65.
- C74, C75 canonical numbering of labels by a sorting specification. C81 tagging with the labels of the gold data: round trip of every kind of label composed with C67, and uniqueness of `denotes`.
- C82 configurations: an invariant of the graph under construction (which placeholder has which dimensions, what its values are looked up in) preserved by every step of the shared part and every task; shapes and values of the merged extractors by the theorems about builders; the values of each extractor by its own vocabulary. C83 refuted by C82's analysis of the tasks; exactly which configurations are set up by one equivalence for each step, task and builder, and disjointness of the names of shapes.
- C68, C69, C80 the tester: composition of reader, `from_document`, writer, loader and evaluation. C69 refuted for metrics that count nothing, C80 refuted since FEATS are compared as strings.
- C84 tdozat wrapper: a list sorted by `argsort` that is a permutation of 0..n-1 is 0..n-1, so the n-th sentence reads the row numbered n; rows of concatenated batches by an alignment lemma; cells to tokens by the line parser; documents by the rebuilding lemma of C65. C85 refuted for every way of sorting equal numbers. C86 states of sessions. C87 induction on paths.
- C88, C89 resources: invariant "what is open is what generators hold and what was left" over programs that use any number of generators; numbers of resources are never reused.
- C90, C91 layers over arbitrary numbers: agreement of two runs on a set of positions is kept by every layer; BiLSTM commutes with cutting at the sentence length, convolutions look at their window. No law of arithmetic is used, so the theorems hold for floating point as far as an operation gives the same result for the same operands.
- C92 losses over rationals: the mask cuts the padded rows, sums are exchanged; whether `tf.stack` accepts a dictionary (`task_builders.py:55`) is a parameter. C93 argmax of masked logits. C94 refuted by a rare rule.
- C99 building as a writer of variables: every step succeeds exactly if a condition on sizes holds and the names it declares are new (one lemma per step, composed by one lemma for sequences); names are injective images of keys, keys fall into groups that are disjoint except for the convolutions shared by BiLSTM_CNN and lemma_combo. C100 reads the shapes off the same description.
- C108 saving is a list of steps (make a folder, open a file, write a byte), so an interruption is a prefix of it. Frame lemmas for steps, files and lists of files; the mapping is attached again by C71. C109 the places of different paths are different. C110 refuted by stopping after the first file; partial: the mapping is written last, and a part of a pickle cannot be read. C111 refuted by an earlier training; partial: an invariant of the folders below the model directory, with the theorem about `os.walk` of C78.
- C112 the best candidate of the loop is always one of the list, and the list of a grid search is C57; the files are C96. C113 the trainings of a search are a function of the number of passes made before; refuted with a generator that alternates; without a shuffler all passes are equal, so the k-th training of the search is the 0-th of the other experiment, and scores are unique wherever they are compared. C114 inversion of the reading of settings; the test set is read after the search. C115 as C113, with equal lists of hyperparameters.
- C116 the placeholder of the dropout probability is among gold, which a prediction does not feed; with 1 every value is divided by 1 and multiplied with 1. C117 by unfolding the builders: `tf.layers.dropout` is only active with `training=True`. C118 counting of the random numbers that are at least 1 - k / n; with 0 none is, so what the second dense layer gets depends on nothing.
- C119 Cauchy-Schwarz for the slices of a row; the square root is any function with a bounded relative error, and one is shown to exist. Refuted with slices of one row. C120, C121 induction over the steps, with what becomes of one variable, and of one row, in a step.
- C124 the update of a variable number by number: slices of a row are added up, the scale of clipping is one for all. Refuted with Adam (momentum).
- C123 (and the second part of C80) the reader and the script split a file into the same groups of rows (both are functions of the same lines, Proofs_Goldfile2); the written form of what was read has the same cells 1-4 and 7 and the same heads, and cell 5 if it is in order (Proofs_Goldfile3-5); evaluation looks at nothing else (Proofs_Goldfile). Nothing new is modelled.
- C125, C126, C127 the file writer is simulated by the string writer: after every `file.write` the file is the encoding of what the string writer has written (Proofs_Encoding2). Characters written come from the document or are the writer's own, characters read come from the file (Proofs_Encoding3). C128 the first line with and without the mark.
- C129 rounding is monotone and the nearest double (Proofs_Float), so order and ends of the unit interval survive each operation; int sums are exact and the one division is rounded once. C130 two different fractions with denominators up to 2^26 differ by at least 2^-52, two sums of fractions of the same N by at least 1/N; the rounding errors are smaller. C131 the error of the sum by induction; doubling and halving are exact, hence the case of two seeds.
- C132 `{:.2f}` is the digits of the nearest hundredth, so its error and order are those of rounding; cells have no bar and no white space, so a line splits into them. C133 a score that counts is a fraction with a denominator of at most 2 * 9999 (Proofs_Float7), so it is 1, 0 or at least 1/19998 away from both, which shows in the second digit.
- C134 argparse classifies each argument by itself (Proofs_Cli: an abbreviation has exactly one candidate), then reads from left to right, so the arguments of one option can be taken off the front. C135 an argument that is not recognized sets a flag that is never taken back; no step fails with an exception (Proofs_Cli3). C136 both parsers classify an argument alike unless it begins with `--g`.
- C137 the arguments by C134, what the experiment leaves by C96 and C112, and that files only become more without deletion (Proofs_Experiment6); the program for the grid does not read the switch.
- C122 the number of nested calls for a word is the number of words above it that no earlier word has above it, plus one: an invariant of the loop (which words are linked after i words) and an exact account of one call.

Not expressible in this model (hence no property): rounding and gradients in TensorFlow graphs,
UDPipe's and the tdozat parser's own code, wall-clock time and memory. The recursion limit is modelled only for `process_word` (C122).

## 4. Refuted properties

Each line: the property, the witness and the line of the code that causes it. The theorems are named `Cnn_..._refuted`.

| property | witness | cause |
|---|---|---|
| C04 | document head 1 with sentence head -1 is accepted | `datamodel.py:229-243` treats -1 in either view as root |
| C06, C07, C65, C67 | head one before the sentence start becomes sentence index -1; rebuilding turns both into -1 | `datamodel.py:229-243`, `344-349` |
| C09 | `from_document(d, [])` | `datamodel.py:562-566`: zip and the empty token list |
| C13 | first token with sub_index 5 | `datamodel.py:306-323` checks neighbours only |
| C14 | two tokens with different sentence heads are equal | `datamodel.py:182` compares `self` with `self` |
| C16 | `Pos('A', None) < Pos('A', 'x')` | `datamodel.py:41-50` compares tuples with None |
| C17 | `str(Document('', []))` | `datamodel.py:532-550` takes element 0 |
| C21 | a sentence ending in a multiword token followed by another sentence | `conllu_io.py:302-307` ignores the state, `250-252` |
| C22 | last token with SpaceAfter=No; FORM beginning with a space | `conllu_io.py:60-76`, `datamodel.py:376-378` |
| C23 | writer without FEATS on a tagged token | `conllu_io.py:310-346` |
| C24 | empty node inside a range | `conllu_io.py:88-96` does not look at the id |
| C25 | a token consisting of a space | `conll17_ud_eval.py:198` removes spaces |
| C37, C38 | regular rule for the whole word; exception `go` offered for `forgo` | `transformation_rules.py:122-133` |
| C42, C43 | a feature named UPOS | `extractors.py:312-321` |
| C44 | missing and present XPOS under `pos_joint` | `extractors.py:609-620` sorts |
| C46 | out-of-vocabulary id 1 is a lemma | `extractors.py:402-417` |
| C48 | rate 0 with the draw 0.0 | `builder.py:186-192` replaces unless the draw is greater than the rate |
| C56 | Tokens, Sentences, Words have no aligned accuracy | `evaluation.py:241-244` |
| C57, C58, C59 | shared grid dictionaries; a value in place of a dictionary; only the first key compared | `grid_eval.py:7-16`, `38-59` |
| C62 | the decay compounds | `neural_tagger.py:115` |
| C64 | second `__enter__` raises | `processor.py:27-34` |
| C69 | all words functional: CLAS is 0 | `conll17_ud_eval.py:245-250` |
| C78 | `epoch-10` before `epoch-2` | `neural_tagger.py:80` |
| C79 | second call of `feature_providers` | `network.py:122-126` |
| C80 | `Number=Sing|NumForm=Digit` | `conllu_io.py:314-317` sorts by code point |
| C83 | any configuration with `lemma_binary` | `task_builders.py:216-263` does not override `initializers`, `network.py:98-99` returns None |
| C85 | a call fails on unreadable features, the next call gives the second sentence the lemma of a first one | `tdozat.py:132` resets predictions only before returning |
| C86 | `process` outside of `with`; restoring fails; nested `with` | `tdozat.py:61` uses `self.__name__`, `80-82` sets the session before restoring |
| C88 | KeyboardInterrupt in `saver.restore` | `model.py:73` catches Exception only |
| C89 | a reader closed before its first document; `load_conllu_file` | `conllu_io.py:112` opens outside of the generator, `conll17_ud_eval.py:465` never closes |
| C90 | a one-letter word next to a longer word, a short sentence next to a longer one | `utils.py:34-77` reduce over padded positions, `task_builders.py:201-213` embeds the padding, `shared_builders.py:162-164` convolves without a mask |
| C94 | "saw" with threshold 1 | `extractors.py:477-479` gives label 0, `task_builders.py:109-112` masks it |
| C95 | seed 4 listed twice: the model of the second run is tested twice | `evaluation.py:118` names models after the seed only |
| C96 | `model_dir` '' with a directory `params-0` in the current directory; an exception in a later epoch | `evaluation.py:254` checks `os.path.exists('')`, `283-284` is not in a `finally` |
| C97 | `stub`; `neural_pretrained` with `--delete_after` | `tagger.py:38-42` yields taggers, `evaluation.py:254` wants an empty directory |
| C99 | BiLSTM_CNN with lemma_combo, first kernel equal | `utils.py:25-26`, 145 and `task_builders.py:179`: both call `apply_conv_layer` with 'cnn_kernel', `tf.get_variable` raises ValueError for the second variable of the same name |
| C102 | a weight for `nsubj:pass` | `conll17_ud_eval.py:140` cuts the relation of every word at the colon, 460 keeps the relation of the file of weights as it is |
| C104 | weights 2 and 4 for `punct`, none for the others | `conll17_ud_eval.py:423` takes 1.0 for relations without a weight |
| C105 | weight -1 for `punct`: 200.00 | `conll17_ud_eval.py:460` takes any number |
| C110 | a new tagger saved over an old one, stopped after the first file | `neural_tagger.py:37-39` and `model.py:53-57` overwrite file by file |
| C111 | two epochs, then one epoch, in the same `model_dir` | `neural_tagger.py:122-123` removes nothing, `evaluation.py:254` looks only with `--delete_after`, `neural_tagger.py:80` takes all directories |
| C113 | a shuffler with seed and two sets of hyperparameters: the second gets other orders of documents than alone | `dataset.py:28,33` one generator for all passes, `evaluation.py:292` one data set for all trainings |
| C114 | `"test_set": {}` | `evaluation.py:276-277` after the search |
| C115 | a shuffler without seed | `dataset.py:24-27` |
| C117 | any network with recurrent layers: the numbers drawn behind them change nothing; word features with lemma_combo: dropout changes nothing | `utils.py:132-135` without `training=True`; `task_builders.py:165-189` does not use `dropout` |
| C118 | `"dropout": 0.9` keeps nine values of ten; `"dropout": 0` keeps none (in tensorflow x / 0 * 0, not a number) | `neural_tagger.py:146`, `shared_builders.py:125`: the second argument of `tf.nn.dropout` is the probability of keeping |
| C119 | a word that is looked up four times with the gradient 5: clipped to 5/2 each, so to 10 together | `network.py:185`: `tf.clip_by_global_norm` takes the slices of an embedding one by one |
| C120 | `"trainable": false` of subwords without `embedding_path`, or of `input_subwords` | `utils.py:103`, `task_builders.py:202` `trainable=True` |
| C121 | Adam and a word of an earlier batch | `network.py:17`: Adam of tensorflow moves all rows of a matrix by their momentum |
| C122 | a sentence in which each head is the next word, longer than the recursion limit | `conll17_ud_eval.py:171`: `process_word` calls itself for the head |
| C123 | `Number=Sing|NumForm=Word` as in C80; a ten-column line `#x` inside a range | `conllu_io.py:314-317`; `conllu_io.py:122` skips every line that begins with #, `conll17_ud_eval.py:153-156` only those before a sentence |
| C124 | Adam, a gradient of -4 and then one of 1 | `network.py:17`: Adam of tensorflow goes on with the momentum |
| C125 | a carriage return, or a lone surrogate, in a lemma | `conllu_io.py:112` reads with universal newlines, `290` encodes strictly |
| C127 | a writer without FEATS and a tagged token; a lone surrogate | `conllu_io.py:290`: mode `'w'` empties the file |
| C128 | a first line `# comment` | `conllu_io.py:112`, `conll17_ud_eval.py:465`: `utf-8`, not `utf-8-sig` |
| C130 | two metrics, 1/10 and 5/10 against 2/10 and 4/10 | `evaluation.py:207` adds rounded numbers, `210` compares them with `>` |
| C131 | three seeds that score 0.1 | `evaluation.py:239-244` adds and divides rounded numbers |
| C133 | three words, the light one of weight 0.000001 with a wrong head: 99.99995 per cent | `conll17_ud_eval.py:512-515` prints two digits |
| C135 | `evaluation.py` without arguments | `evaluation.py:337` does not say `required`, `348` opens None |
| C136 | `--method "--grid=a b"` | `grid_eval.py:21` adds an option that argparse splits off at `=` |
| C137 | `grid_eval` without `--delete_after` | `grid_eval.py:70` passes `delete_after=True` and not the argument |

## 5. Further observations

Behaviour met while modelling; all of it is in the model, theorems mention it where it matters.

- A document with tokens and `sentences=[]` raises IndexError. `token.head` without syntax raises TypeError. `space_after` is true at the end of the text and false beyond it.
- `Pos` copies its features one level deep only: a mutable feature value can be changed from outside (`C70_typing_needed`).
- Reader: an empty line after an empty line, or a comment without tokens, ends an empty sentence (AssertionError); a missing empty line at the end is an error; a MISC or FEATS entry without `=` is an IndexError, a second `=` truncates; any value of SpaceAfter counts as No; a negative HEAD makes acceptance depend on `doc_sentences_limit`.
- Writer: DEPREL is `_` if there is no head; without the HEAD column heads form a chain.
- Evaluation script: comments only between sentences; words of a range are read without checking ID; negative HEAD wraps around; non-integer HEAD inside a range is a ValueError instead of UDError; empty files score 0.
- Averaging: a metric listed twice counts twice; an empty score list is a TypeError; zero epochs make the printer raise a TypeError; StubTaggerTrainer yields a tagger where a pair is expected.
- Training: without `dev_tester` nothing is yielded; no sentence gives ZeroDivisionError; a batch size below 1 acts like 1.
- Labels merged into one extractor are grouped by class, so of two labels for one attribute the last of the last class wins.
- `LemmaSuffixBinaryTaskNetworkBuilder` inherits `initializers` that returns None: building a network with it raises TypeError (`C77_no_initializers`).
- UDPipe: a model that leaves the head unset erases the syntax; fewer words than tokens raise ValueError, more are ignored.
- tdozat: every Pos is present after parsing, even if nothing was predicted; fields that the network does not provide erase what the token had; whether a call with several documents works depends on tdozat_parser skipping empty sentences (`C84_numbering_matters`).
- `tf.layers.dropout` in `bilstm_layer` is never active, as `training` is not passed; `sent_level_cnn` convolves over the components of the vector of each word, not over neighbouring words.

## 6. Tests of the theorems

`seeded/LOG.jsonl` has one line per wrong program: definition, edit, the claim that becomes false, the theorems whose proof
fails, and the theorems that were tightened because of it. `tools/mutate.py` runs the edits in a scratch copy.

## 7. Tests of the model

`Tests_Repo.v` has one `Example` for each unit test of `/repo/babylondigger/tests`, and for each of those inside
`conll17_ud_eval.py` 522-569, evaluated on the model; the documents of
`test_data.py` are translated by `tools/gen_tests.py` (`Tests_Data.v`). All agree with what the tests expect but two, where
the code itself cannot do what the test expects: `check_grid(grid_dict_5)` raises and `check_grid(grid_dict_6)` does not,
because `__take_all_key_path` follows the first key only (C59). Tests with random numbers use another generator. These are
tests, no proofs; no property rests on them.

`Model_Cli` was compared with python's own argparse (3.11.10) on 6000 random command lines. `tools/gen_cli_tests.py` writes the
comparison; it builds the three parsers itself and runs nothing of `/repo`. The only differences were nine command lines with
`-` as a file of weights, which the model leaves out. A first version of the model, after python 3.6, differed at `-v=`.
