#!/usr/bin/env python3
"""Writes /verif/properties.jsonl (one JSON object per line)."""
import json, os

DM = "babylondigger/datamodel.py"
IO = "babylondigger/evaluation/conllu_io.py"
UD = "babylondigger/evaluation/conll17_ud_eval.py"
EV = "babylondigger/evaluation/evaluation.py"
GR = "babylondigger/evaluation/grid_eval.py"
DS = "babylondigger/evaluation/dataset.py"
LR = "babylondigger/lemmas/transformation_rules.py"
EX = "babylondigger/features/extractors.py"
BU = "babylondigger/features/builder.py"
PR = "babylondigger/processor.py"
TG = "babylondigger/tagger.py"
PA = "babylondigger/parser.py"
UP = "babylondigger/wrappers/udpipe1_2.py"
NT = "babylondigger/neural/tagger/neural_tagger.py"
NW = "babylondigger/neural/network.py"

P = []
def add(title, statement, quantifier, why, *anchors):
    P.append(dict(id="C%02d" % (len(P) + 1), title=title, statement=statement,
                  quantifier=quantifier, why_tests_cant=why, anchors=list(anchors)))

# ---------------------------------------------------------------- data model
add("Tokens of a document never overlap",
    "Whenever Document(text, tokens, sentences) returns, the document's tokens are the given tokens sorted by (start, end, sub_index), none lost or duplicated, and every pair of them (not only neighbours) either has disjoint spans in text order or shares exactly one span with strictly increasing sub_index.",
    "all texts, all token lists in any order, all sentence lists",
    "the constructor only compares neighbours after sorting; that this suffices for all pairs of an arbitrarily long list is an induction, not a sample",
    DM + ":_WordList.__init__", DM + ":Token.intersects", DM + ":_check_for_sequence")
add("Sentences tile the tokens, and any tiling is accepted",
    "Whenever Document(...) returns for a non-empty token list, its sentence boundaries start at 0, end at the token count, and each ends where the next starts; concatenating the tokens of its sentences gives the document's tokens. Conversely any list of sentences that is a tiling (in any order), with non-overlapping well-numbered tokens and consistent heads, is accepted.",
    "all token lists and sentence lists",
    "both directions quantify over every list; tests show only a few accepted and rejected ones",
    DM + ":Document.__init__", DM + ":Sentence.__init__", DM + ":Document.sentences")
add("Construction does not depend on the order tokens and sentences are passed in",
    "If tokens' is a permutation of tokens and sentences' of sentences then Document(text, tokens, sentences, v) and Document(text, tokens', sentences', v) either both fail or both return the same document.",
    "all permutations of all inputs",
    "the number of permutations is factorial in the input size",
    DM + ":Document.__init__", DM + ":_WordList.__init__")
add("The two head notations are interchangeable",
    "Specifying a token's head as an index in the sentence, as the corresponding index in the document, or as both, gives the same document; for every token of a constructed document with a head both views are present and (outside roots) document index = sentence index + sentence start; an inconsistent pair is rejected.",
    "all documents, all ways of mixing notations per token, heads inside the token's sentence or root",
    "exponentially many mixtures per document",
    DM + ":Token.fill_heads", DM + ":_WordList.__fill_token_heads")
add("validate_syntax accepts exactly the dependency trees",
    "Document(..., validate_syntax=True) returns iff each sentence either has no head at all, or is a dependency tree: every token has a head, exactly one token is the root, every other head lies inside the sentence, and every token reaches the root by following heads. In particular the check always terminates.",
    "all documents with any head assignment",
    "head assignments of a sentence of n tokens number about n^n; the marking algorithm's correctness is a loop invariant",
    DM + ":Document.__validate_syntax")
add("A head outside the sentence is rejected under validate_syntax",
    "With validate_syntax=True a token whose head (given as an index in the document) is a token of another sentence makes construction fail.",
    "all documents and all out-of-sentence heads",
    "the failing offset is one specific value (the token just before the sentence) that sampling easily misses, or hits while another check masks it as in test_syntax_out_of_sentence",
    DM + ":Token.fill_heads", DM + ":Token.is_root", DM + ":Document.__validate_syntax")
add("Rebuilding a document from its own parts gives the same document",
    "Document(d.text, d.tokens, d.sentences_boundaries) == d, and Document.from_document(d, d.tokens) == d, for every constructed document d.",
    "all documents the constructor can return",
    "must hold for every reachable document",
    DM + ":Document.from_document", DM + ":Token.fill_heads")
add("Annotation setters change only what they name",
    "with_morphology, with_syntax, with_extras and update_extras never fail on a constructed token and return a token equal to the original in every observable field except the ones being set; setters of disjoint field groups commute.",
    "all tokens and all new values, all call sequences",
    "a frame condition over every field and every value",
    DM + ":Token.with_morphology", DM + ":Token.with_syntax", DM + ":Token.with_extras", DM + ":Token.update_extras", DM + ":DocumentToken")
add("from_document keeps text, segmentation and token spans",
    "Document.from_document(d, tokens), if it returns, has the text and the sentence boundaries of d and the same number of tokens with the same spans.",
    "all documents and all replacement token lists",
    "quantifies over every replacement list; the failing one (the empty list) is a boundary case",
    DM + ":Document.from_document")
add("Navigation is consistent",
    "For every constructed document, get_token(i) for -n <= i < n is the same token as get_token(i mod n); is_first/is_last hold exactly at the ends; next and previous are inverse to each other, never wrap around, and walking next from the first token visits every token once in order. Same for sentences.",
    "all documents, all indices including negative ones",
    "all lengths and all indices",
    DM + ":_NavigableItem", DM + ":_WordList.get_token", DM + ":Document.get_sentence")
add("Following .head reaches the root",
    "In a document constructed with validate_syntax=True, from every token of an annotated sentence a finite number (less than the sentence length) of .head steps ends in None, never raises, never leaves the sentence, and the sentence view and the document view of the same token have the same head token.",
    "all validated documents, all tokens",
    "termination over every tree shape",
    DM + ":NavigableToken.head", DM + ":NavigableToken.head_index", DM + ":Document.__validate_syntax")
add("Sentence views always open and show exactly their slice",
    "For every constructed document and every sentence index, get_sentence succeeds, exposes exactly the document's tokens [start, end) in order with the same texts, and its text is the document substring from its first token's start to its last token's end.",
    "all documents, all sentence indices",
    "the sentence object re-runs the overlap and multiword checks on a slice; that they cannot fail there needs a proof for every slice",
    DM + ":NavigableSentence", DM + ":Document.get_sentence")
add("Words of a multiword token are numbered 0..k-1",
    "In every constructed document the words sharing a span with a text replacement have sub_index 0,1,...,k-1 without gaps.",
    "all documents",
    "the check is pairwise, so the first element is a boundary the pairwise check never sees",
    DM + ":_skipped_token", DM + ":_WordList.__init__")
add("Token equality distinguishes tokens with different heads",
    "t1 == t2 holds iff all observable fields (span, pos, lemma, both head indices, deprel, sub_index, replacement, extras) are equal; == on tokens is an equivalence relation.",
    "all pairs of tokens",
    "needs a pair differing in exactly one field for every field",
    DM + ":Token.__eq__", DM + ":Pos.__eq__", DM + ":TokenExtras.__eq__")
add("Pos equality, hash and order agree",
    "Equal Pos values (features compared regardless of insertion order) have equal hashes and compare neither less nor greater; for Pos values with upos and xpos present exactly one of <, ==, > holds and < is transitive.",
    "all pairs and triples of Pos values",
    "order axioms quantify over all triples",
    DM + ":Pos")
add("Any two Pos values can be ordered",
    "a < b never raises for Pos values a and b (Pos is declared @total_ordering).",
    "all pairs of Pos values",
    "fails only for pairs that agree on the first field and have a missing second field on one side",
    DM + ":Pos.__lt__")
add("str(document) always works and shows the text",
    "str(d) returns for every constructed document; when no two tokens share a span, deleting the inserted annotations gives back the document text.",
    "all documents",
    "boundary (empty document) and all layouts",
    DM + ":Document.__str__")

# ---------------------------------------------------------------- CoNLL-U IO
add("Reader offsets are faithful",
    "For every document CoNLLUReader yields, slicing the document text at a token's span gives exactly the FORM column of its line (for words of a multiword token: of the range line), the text is the concatenation of the FORMs with one space after each form that is not marked SpaceAfter, and words of a range line keep their own FORM as text.",
    "all input texts the reader accepts",
    "an invariant over every prefix of the input stream",
    IO + ":_ReaderState._process_token", IO + ":_MultiWordReaderState._process_token")
add("doc_sentences_limit only regroups sentences",
    "Reading the same well-formed input with limit k yields documents with exactly k sentences each except possibly the last, no empty document, and the sequence of sentences (token annotations, texts, sentence-relative heads) is the same for every k.",
    "all inputs, all limits k >= 1",
    "all sizes and all limits",
    IO + ":CoNLLUReader._read", IO + ":_AbstractReaderState.end_of_sentence")
add("Written documents read back equal",
    "For documents in reader-normal form (tokens separated by nothing or one space, text ending in one space, fully parsed, fields free of the CoNLL-U metacharacters) CoNLLUReader reading what CoNLLUWriter wrote yields documents with the same text, sentences, spans, words, lemmas, tags, features, heads and relations.",
    "all such documents, any number of sentences and multiword tokens not ending a non-final sentence, any grouping",
    "round trip over all documents",
    IO + ":CoNLLUWriter", IO + ":CoNLLUReader", IO + ":to_conll")
add("A multiword token is written exactly once",
    "CoNLLUWriter writes, for every document and sentence, one range line per multiword token followed by its words, and one line per other token, word ids running 1..n in each sentence, a blank line after each sentence, and nothing else.",
    "all documents",
    "depends on the position of the multiword token relative to sentence ends: a state-machine history property",
    IO + ":CoNLLUWriter.__write_CoNLL_U", IO + ":_MultiwordTokenWriterState")
add("Spacing survives a read-write-read cycle",
    "Writing a document the reader yielded and reading it again gives a document with the same text.",
    "all inputs",
    "fails only at the last token of a document",
    IO + ":to_conll", DM + ":DocumentToken.space_after")
add("Column selection",
    "A reader restricted to a set of columns yields tokens whose other annotations are None, and whose selected annotations are those of the full reader; a writer restricted to a set of columns writes '_' in the unselected columns and never fails because of the restriction.",
    "all column sets, all inputs",
    "2^k column sets times all documents",
    IO + ":_line_parser", IO + ":_column_extractors", IO + ":to_conll")
add("Comments and empty nodes contribute nothing",
    "Inserting comment lines or empty-node lines (ids with a dot) anywhere in a CoNLL-U input does not change the documents the reader yields.",
    "all inputs, all insertion points",
    "all insertion points, including inside a multiword range",
    IO + ":CoNLLUReader._read", IO + ":_ReaderState._process_token")
add("Evaluation can load whatever the writer wrote",
    "The text CoNLLUWriter produces for a document whose sentences are each unparsed or dependency trees is accepted by load_conllu (no UDError): unparsed sentences get a chain of heads with a single root; the loaded words carry the columns that were written.",
    "all documents (with no sentence-final multiword token before another sentence)",
    "composition of two state machines on all documents",
    IO + ":to_conll", UD + ":load_conllu", EV + ":TaggerTester._convert_to_internal")

# ---------------------------------------------------------------- evaluation script
add("load_conllu accepts exactly single-rooted trees",
    "For a sentence of words with heads in 0..n, the loader's parent linking succeeds iff heads contain no cycle and exactly one word has head 0; the parent it links is the word the HEAD column names.",
    "all head vectors",
    "n^n head vectors; recursion and the temporary 'remapping' mark need an invariant",
    UD + ":load_conllu.process_word")
add("Loaded spans tile the characters",
    "For every accepted file, token spans are consecutive, non-empty, start at 0 and end at the number of characters; sentence spans likewise; every word's span is a token span; the characters are the concatenated forms without spaces.",
    "all accepted inputs",
    "stream invariant",
    UD + ":load_conllu")
add("Span score counts the common spans",
    "For sorted span lists the Tokens and Sentences scores count exactly the spans present in both files, and swapping the files swaps precision and recall.",
    "all pairs of span lists with increasing starts",
    "two-pointer merge correctness over all lists",
    UD + ":evaluate.spans_score")
add("Word alignment is a monotone partial matching",
    "The alignment pairs words in increasing order on both sides, uses each word at most once, pairs only words that both lie outside multiword tokens and have identical spans or have equal lower-cased forms, and always terminates.",
    "all pairs of word lists",
    "loop with data-dependent jumps; termination and injectivity for all inputs",
    UD + ":evaluate.align_words", UD + ":evaluate.find_multiword_span")
add("Multiword alignment is a longest common subsequence",
    "Inside a multiword span the number of aligned words equals the maximum length of a common subsequence of the two lower-cased form sequences.",
    "all pairs of form sequences",
    "optimality against every common subsequence",
    UD + ":evaluate.compute_lcs", UD + ":evaluate.align_words")
add("Scores are well formed",
    "For every metric precision, recall and F1 lie in [0,1], F1 is the harmonic mean of precision and recall when defined, and aligned accuracy, if present, lies in [0,1].",
    "all pairs of loaded files, all metrics including weighted ones with non-negative weights",
    "needs correct <= aligned <= gold and correct <= system for every alignment and weight",
    UD + ":evaluate.Score", UD + ":evaluate.alignment_score")
add("A file evaluated against itself is perfect",
    "evaluate(x, x) gives precision = recall = F1 = 1 for every metric with a non-zero total, and aligned accuracy 1.",
    "all loaded files",
    "the multiword path must realign every file with itself",
    UD + ":evaluate")
add("With identical tokenization scores are plain accuracies",
    "If the system output has the same tokens, words and sentences as gold, Tokens, Sentences and Words are 1 and each tag metric equals the fraction of words whose columns agree; heads are compared position by position.",
    "all pairs of files differing only in annotation columns",
    "needs the alignment to be the identity on every such pair",
    UD + ":evaluate.align_words", UD + ":evaluate.alignment_score", UD + ":Alignment.fill_parents")
add("Mismatching texts are refused",
    "evaluate raises UDError iff the character sequences of the two files differ.",
    "all pairs of loaded files",
    "iff over all inputs",
    UD + ":evaluate")

# ---------------------------------------------------------------- lemma rules
add("A lemma rule reproduces its training pair",
    "LemmaSuffixTransformation.get_rule(w, l) is applicable to w and transforms w to l, and it is the rule with the longest kept prefix.",
    "all pairs of strings",
    "all strings",
    LR + ":LemmaSuffixTransformation.get_rule", LR + ":LemmaSuffixTransformation.transform")
add("The trie returns exactly the documented rules",
    "get_applicable_rules(w) of a trie built from a rule list returns, shortest suffix first and in insertion order, exactly the regular rules whose word suffix is a proper suffix of w, followed by the exceptions stored at the deepest node reached.",
    "all rule lists, all words",
    "tree shapes and words are unbounded",
    LR + ":LemmaTransformationTrie.build", LR + ":LemmaTransformationTrie.get_applicable_rules")
add("Rules the trie offers are applicable, and all applicable ones are offered",
    "Every rule returned for w satisfies is_applicable(w) (so transform never raises), and every rule of the list with is_applicable(w) is returned.",
    "all rule lists, all words",
    "soundness and completeness over all words",
    LR + ":LemmaTransformationTrie.get_applicable_rules")
add("Exceptions are offered only for the whole word",
    "A rule learned as an exception (no common prefix) is offered only for the very word it was learned from.",
    "all rule lists, all words",
    "depends on where the walk through the trie stops",
    LR + ":LemmaTransformationTrie.get_applicable_rules")
add("The gold lemma rule is always selectable in training",
    "For every training set and threshold, for every training token whose rule is in the vocabulary, the applicability mask of its word is true at its label index, and interpreting that label gives back the lower-cased lemma.",
    "all datasets, thresholds and tokens",
    "composition of counting, vocabulary, trie and interpretation on all datasets",
    EX + ":CachedSuffixRulesBuilder", EX + ":ApplicableSuffixTransformations", EX + ":SuffixTransformationFeatureExtractor", EX + ":SuffixTransformationInterpreter")
add("Lemma prediction never raises",
    "For every in-range rule index the interpreter assigns a lemma: the transformed lower-cased word if the rule applies and the lower-cased word itself otherwise, leaving all other annotations unchanged.",
    "all tokens, all predicted indices",
    "all tokens times all predictions",
    EX + ":SuffixTransformationInterpreter.interpret")

# ---------------------------------------------------------------- features
add("Vocabularies are bijections with the most common label first",
    "The label list built from counts has no duplicates, contains exactly the labels above the threshold plus the most frequent one, which has index 0; the inverse map sends every listed label to its position.",
    "all count tables, all thresholds",
    "all tables",
    EX + ":_id2obj", EX + ":_obj2id")
add("Pos splitters lose nothing",
    "combine(split(p).values()) equals p for every splitting strategy (pos_joint, pos_XF, pos_UXF for every Pos; pos_gran for every Pos whose feature names were seen in training).",
    "all Pos values, all training sets",
    "all feature dictionaries",
    EX + ":PosNoSplitter", EX + ":PosUXFSplitter", EX + ":PosXFSplitter", EX + ":PosGranularSplitter")
add("Tag labels round-trip",
    "For every training set and every token in it, interpreting the label ids extracted for the token assigns it its own Pos and keeps lemma, syntax, span and extras; all ids are below the advertised label counts.",
    "all training sets, all tokens",
    "composition over all datasets",
    EX + ":PosDictFeatureExtractorBuilder", EX + ":PosDictFeatureExtractor", EX + ":PosDictInterpreter")
add("Building tag labels never fails on readable data",
    "For every non-empty dataset whose tokens have a Pos, building the label vocabulary succeeds for every splitting strategy.",
    "all datasets",
    "fails only on datasets mixing present and missing XPOS",
    EX + ":PosDictFeatureExtractorBuilder.build", EX + ":_id2obj")
add("Character lemma labels round-trip",
    "The label has exactly max_word_length ids, all below the advertised size; interpreting it gives back the lemma when all its characters are in the vocabulary and it fits (length + 2 <= max_word_length), and a prefix of the known characters otherwise; every in-range prediction is interpretable.",
    "all lemmas, vocabularies, lengths and predictions",
    "boundary arithmetic for all lengths",
    EX + ":LemmaCharExtractor", EX + ":LemmaCharInterpreter")
add("An unseen lemma is never labelled as another lemma",
    "LemmaDictFeatureExtractor gives a lemma outside the vocabulary a label that does not denote a different lemma.",
    "all vocabularies and lemmas",
    "needs an unseen lemma at evaluation time",
    EX + ":LemmaDictFeatureExtractor")
add("Padded features are rectangular and unaltered",
    "After padding every sequence at the same depth of a feature has the same length, every original entry is still at its place, all added entries are padding (0), and nothing is added beyond the longest sequence; a feature mixing lists and scalars at one depth is rejected.",
    "all nested features of any depth and shape",
    "all shapes; in-place mutation with shared padding objects",
    BU + ":_pad_sequence", BU + ":PaddingFeatureExtractor")
add("Sparsification replaces only by OOV",
    "Sparsified features keep their shape, each scalar is kept or replaced by OOV; with rate 1 everything is replaced and with rate 0 nothing is.",
    "all features, all rates, all outcomes of the random source",
    "the random source's boundary outcome 0.0 is practically unobservable in tests",
    BU + ":_sparse_rate_sequence")
add("Merging builders changes nothing but the grouping",
    "The merged builder's extractor computes for every input the union of the features the given builders compute separately, with the same wrapping (padding, per-sentence, per-token, sparsified) of every basic extractor.",
    "all builder trees",
    "all trees of wrappers",
    BU + ":merge", BU + ":CompositeFeatureExtractorBuilder.merge", BU + ":PaddingFeatureExtractorBuilder.merge", BU + ":IterableFeatureExtractorBuilder.merge")
add("Feature names never silently collide",
    "Combining extractors either raises ValueError or returns a dictionary containing every feature of every part with its value unchanged; it raises iff two parts produce a common name.",
    "all lists of dictionaries",
    "all overlaps",
    BU + ":_merge_dicts", BU + ":CompositeFeatureExtractor")
add("Predictions are attached to the right tokens",
    "Interpreting per-token label lists assigns the i-th element of every label list to the i-th token, for every number of label names and tokens; extraction followed by per-element regrouping is the identity.",
    "all token lists and label dictionaries",
    "transposition for all sizes",
    BU + ":IterableFeatureExtractor", BU + ":IterableInterpreter")
add("Embedding rows and word indices agree",
    "Word ids are distinct, at least 2 (4 for subwords) and below the matrix height; the initial values assign to each word's row exactly its last vector in the file, row 0 is zero, reserved ids are never assigned to words, and all vectors have the advertised width.",
    "all embedding files",
    "all files",
    EX + ":_read_embeddings", EX + ":WordEmbeddingFeatureExtractorBuilder", EX + ":EmbeddingInitializer")
add("Subword and word ids are always in range",
    "Every feature id produced for any token (seen or unseen) is below the embedding height advertised by the builder; known symbols get distinct ids, unknown ones OOV; the id list starts with START and ends with END.",
    "all training sets, all tokens",
    "all unseen tokens",
    EX + ":TokenCharactersFeatureExtractorBuilder", EX + ":SubwordFeatureExtractor", EX + ":TrainableEmbeddingsExtractorBuilder")

# ---------------------------------------------------------------- harness
add("Parameter search returns the best and deletes the rest",
    "params_search returns the first parameter set with the maximal comparison score together with its model, scores and path; at every moment of the search the disposal callback has been called exactly once for every finished candidate except the current best, and never for the best.",
    "all sequences of candidates and scores, every prefix of the search",
    "history property over all sequences",
    EV + ":ParametersEstimator.params_search", EV + ":_is_better", EV + ":score_comparator")
add("The best epoch is kept",
    "SingleSeedEvaluator returns the scores of the first epoch with maximal score and tests with that epoch's tagger; every other epoch's directory, and no other path, is disposed exactly once.",
    "all score sequences",
    "history property over all sequences",
    EV + ":SingleSeedEvaluator.evaluate")
add("Averaged scores are arithmetic means",
    "For a non-empty list of seeds the averager returns for every requested metric the mean of precision, recall, F1 and aligned accuracy; it works for every metric evaluate reports.",
    "all lists of score tables, all metric lists",
    "fails only for metrics without aligned accuracy",
    EV + ":get_metrics_averager", UD + ":evaluate")
add("Grid search enumerates the cartesian product",
    "The parameter sets built from a valid grid are in one-to-one correspondence with the choices of one alternative per grid key, each equal to the base hyperparameters with the chosen alternatives applied; the base is not modified.",
    "all grids and base dictionaries",
    "exponentially many combinations; aliasing between results",
    GR + ":main", GR + ":__build_list_of_new_hyperparams", GR + ":__merge_dicts")
add("Merging hyperparameters never invents or drops a key",
    "Merging a grid dictionary raises ValueError iff it names a key absent from the base at the same depth; otherwise paths not mentioned keep their value and mentioned leaves get the new value.",
    "all nested dictionaries",
    "all nestings",
    GR + ":__merge_dicts")
add("Overlapping grid parameters are refused",
    "If two grid keys can set the same hyperparameter, the grid is rejected.",
    "all grids",
    "only the first key of each dictionary is inspected",
    GR + ":__check_is_grid_valid", GR + ":__take_all_key_path")
add("Shuffling is a bounded permutation, reproducible by seed",
    "Each pass over ShuffledDataset yields every element exactly once, moves no element by max_batch_size or more positions, and the k-th pass depends only on the seed, k and the data.",
    "all datasets, seeds, batch sizes >= 1, random outcomes",
    "all random outcomes",
    DS + ":ShuffledDataset.__iter__")
add("Minibatches partition the training sentences",
    "The minibatches of an epoch contain every sentence of every document exactly once, in order; all have batch_size sentences except possibly a smaller non-empty last one.",
    "all datasets, all batch sizes >= 1",
    "all sizes",
    NT + ":_get_minibatches")
add("Learning rate schedule",
    "The learning rate stays positive and never increases for lr_decay >= 0 and lr_decrease_factor >= 1; with lr_decay 0 and no stagnation it is constant; with time-based decay it equals initial_lr / (1 + lr_decay * epoch).",
    "all epochs, decay values and accuracy histories",
    "all histories",
    NT + ":NeuralTaggerTrainer.train", NT + ":_get_lr")

# ---------------------------------------------------------------- processors
add("Processors compose left to right and preserve the stream",
    "DocumentComplexProcessor(ps).process(docs) equals applying the processors in order; nesting is associative; with the library's processors one document comes out per document in, in order.",
    "all processor lists and document streams",
    "all compositions",
    PR + ":DocumentComplexProcessor", TG + ":StubTagger", PA + ":StubParser")
add("Every entered processor is exited",
    "Using DocumentComplexProcessor as a context manager calls __exit__ once on every component whose __enter__ succeeded, whatever raises.",
    "all lists of components, all points of failure",
    "all crash points",
    PR + ":DocumentComplexProcessor.__enter__", PR + ":DocumentComplexProcessor.__exit__")
add("Stub parser and tagger give valid documents",
    "For every constructed document StubParser returns a document that passes validate_syntax with a chain tree in every sentence and unchanged text, spans, sentences and morphology; StubTagger returns the document with every Pos set to the most frequent training Pos and every lemma set to the word's text, syntax unchanged.",
    "all documents, all training sets",
    "all documents",
    PA + ":StubParser._parse", TG + ":StubTagger._tag", TG + ":StubTaggerTrainer.get_most_frequent_pos")
add("UDPipe conversion keeps alignment and morphology",
    "For every document and whatever an UDPipe model writes into its words, the result has the same text, spans and sentences; with a model that changes nothing, lemma, upos, xpos and features of every token with non-empty metacharacter-free values survive the round trip, and heads are mapped word id h -> token h-1, 0 -> root.",
    "all documents, all model outputs",
    "the external model is arbitrary",
    UP + ":convert_to_ud", UP + ":convert_from_ud", UP + ":_AbstractUDPipeProcessor._process")
add("Neural tagging preserves the document",
    "For every document and every model whose predictions have the sentence's length and in-range ids, NeuralTagger.tag yields exactly one document per input document with the same text, spans, sentences, syntax and extras, and the morphology that the labels denote.",
    "all documents, all models",
    "the trained model is arbitrary",
    NT + ":NeuralTagger.tag", BU + ":IterableInterpreter", EX + ":PosDictInterpreter")
add("Test data given to a tagger contains no gold annotation",
    "In TaggerTester.test every document the tagger receives has the gold text, spans, sentences and word texts but no pos, lemma, head or relation on any token.",
    "all gold documents",
    "information-flow property over all documents",
    EV + ":TaggerTester.test")
add("Perfect predictions score 1",
    "If a tagger's output has the gold annotations, DataSetTaggerTester reports 1 for every metric; more generally for a tagger that keeps segmentation, the reported UPOS score is the fraction of words tagged correctly.",
    "all datasets, all taggers",
    "end-to-end composition of writer, loader and scorer",
    EV + ":DataSetTaggerTester", EV + ":TaggerTester.test")
add("Annotations cannot be changed from outside",
    "No sequence of mutations of dictionaries passed to or obtained from Pos and TokenExtras changes what an existing Pos or TokenExtras reports.",
    "all histories of client operations",
    "aliasing property over all histories",
    DM + ":Pos.feats", DM + ":TokenExtras")
add("Saved networks reattach to the same tensors",
    "Mapping a network to names and attaching it to a graph in which these names denote the same tensors gives the same inputs, outputs, gold, loss, optimizer and initializers; feeding rejects unknown input names and feeds every given value to its own placeholder.",
    "all networks with uniquely named tensors, all feeds",
    "all networks",
    NW + ":NeuralNetworkMapping", NW + ":NeuralNetwork.get_feed_dict")

add("Only the winning models are left after a search",
    "After a search that ends regularly, exactly the directories of the tested epochs are left, one for each seed of the winning parameter set: every other epoch's directory of the winner and every directory of the other parameter sets was removed, and a removed directory is one the trainer saved to.",
    "all candidates, seeds, epochs, scores and base directories",
    "composition of three nested loops and path arithmetic",
    EV + ":ParametersEstimator.params_search", EV + ":AverageEvaluator.evaluate", EV + ":SingleSeedEvaluator.evaluate")
add("Training yields every epoch once",
    "With a dev tester, training yields one pair per epoch, in order: the scores of the model saved after that epoch in its own directory, trained from the state the previous epoch left with the learning rate of this epoch; without a tester it yields nothing.",
    "all documents, networks, testers and numbers of epochs",
    "loop invariant over all runs, including those that raise",
    "babylondigger/neural/tagger/neural_tagger.py:NeuralTaggerTrainer.train")
add("Labels have canonical numbers",
    "Label 0 apart, rules, lemmas, parts of Pos and symbols are numbered in strictly ascending order, and the numbering is the same for any order of the training tokens if one label is more frequent than every other; with a tie the order of the documents decides.",
    "all datasets and all reorderings of their tokens",
    "quantifies over all permutations of a dataset",
    EX + ":_id2obj", EX + ":PosDictFeatureExtractorBuilder.build", EX + ":CachedSuffixRulesBuilder.build_rules")
add("Label 0 of a Pos part is the most frequent value",
    "For each part a Pos is split into, label 0 is the value most training tokens have, the first seen among equally frequent ones, although values are counted through the counts of whole labels.",
    "all datasets and all ways to split",
    "two-stage counting over all multisets of labels",
    EX + ":_count_parts", EX + ":PosDictFeatureExtractorBuilder.build")
add("Pretrained vectors are in the matrices after initialization",
    "After Model.initialize of a network whose first initializer is the global one, every row for which a vector was given contains this vector and every other row has its initial contents, whatever the session contained before; initialization fails exactly if the vectors of some matrix are missing or empty.",
    "all networks, all vectors, all states of the session",
    "quantifies over all sequences of initializers and all states",
    "babylondigger/neural/initializers.py:MatrixInitializer.initialize", "babylondigger/neural/model.py:Model.initialize")
add("A built network feeds what its parts read",
    "MultitaskNetworkBuilder.build calls shared part and tasks one after another; if they use different names, every placeholder a part is built on is an input or gold of the network under its name and every output can be fetched; the global initializer comes first.",
    "all shared builders, all lists of task builders",
    "the parts are arbitrary",
    NW + ":MultitaskNetworkBuilder.build", "babylondigger/neural/tagger/task_builders.py:LemmaSuffixBinaryTaskNetworkBuilder")
add("Saved models are tested in the order of the epochs",
    "PretrainedTaggerTrainer tests every saved model exactly once, in the order in which the models were saved.",
    "all directories, all numbers of epochs, all testers",
    "needs more epochs than any test trains",
    NT + ":PretrainedTaggerTrainer.train")
add("The feature providers of a network can be asked for again",
    "MultitaskNetworkBuilder.feature_providers returns the providers of the shared part and of all tasks, however often it is called.",
    "all builders",
    "aliasing of a list kept by the shared builder",
    NW + ":MultitaskNetworkBuilder.feature_providers")
add("Perfect predictions score 1 against a gold file",
    "If a tagger's output has the annotations that the gold file gives, FileTaggerTester reports 1 for every metric.",
    "all gold files, all taggers",
    "the gold file is loaded directly but predictions go through reader, data model and writer; needs all files",
    EV + ":FileTaggerTester", IO + ":CoNLLUWriter")
add("Tagging with the gold labels gives the gold morphology",
    "If the network predicts for every sentence exactly the labels that the same sentence of a training document has, NeuralTagger gives every token what its labels were made from: the Pos up to the order of features, the lemma, the lower-cased lemma when its transformation rule is frequent enough, the frequent symbols of the lemma up to the label length.",
    "all training sets, all label configurations with distinct names, all training documents",
    "ties together vocabularies, label extractors, merging, padding, interpreters and document rebuilding; round trips through all of them for all configurations",
    NT + ":NeuralTagger.tag", EX + ":PosDictFeatureExtractorBuilder", "babylondigger/features/provider.py:FeatureExtractorBuilderProvider")

add("A configuration sets up extractors and a network that fit together",
    "Whatever neural_tagger.py sets up from a configuration and a training set: for every batch of segmentable sentences the features are extracted and fed to exactly the inputs of the network, with the shapes of its placeholders, ids below the numbers of rows of the matrices they are looked up in and masks as wide as the logits; for batches of training sentences the labels are fed as well, below the numbers of classes; the initial values fill the rows of the matrices with the vectors of the configured files.",
    "all configurations, training sets, batches, sparsification rates and random draws",
    "shapes and vocabulary sizes depend on the data and on any combination of features and tasks",
    NT + ":NeuralTaggerTrainer.train", "babylondigger/features/provider.py", "babylondigger/neural/tagger/shared_builders.py", "babylondigger/neural/tagger/task_builders.py")
add("Every task that has a name in the configuration can be trained",
    "For each key of _task_builders there is a network: a complete configuration with this task is set up.",
    "all configurations and training sets",
    "no test builds every combination",
    "babylondigger/neural/tagger/network_provider.py:_task_builders", "babylondigger/neural/tagger/task_builders.py:LemmaSuffixBinaryTaskNetworkBuilder")

TD = "babylondigger/wrappers/tdozat.py"
add("The tdozat wrapper gives every token the prediction made for it",
    "Whatever batches the dataset is cut into and in whatever order they come, TDozatDocumentProcessor.process gives every token lemma, Pos, features, head, relation and extra fields that the network predicted for its position in its sentence; text, words and sentences are kept.",
    "all lists of documents, all networks, batches, numberings and extra fields",
    "needs many documents, sentences and batch orders; alignment errors show only when predictions differ",
    TD + ":TDozatDocumentProcessor.process", TD + ":_DocumentDataset.itersents")
add("A failed call of the tdozat wrapper leaves no trace",
    "After TDozatDocumentProcessor.process raised, later calls give the same documents as if it had not been called.",
    "all networks, documents and orders of calls",
    "state kept between calls",
    TD + ":TDozatDocumentProcessor.process")
add("The session of the tdozat wrapper is closed and needed",
    "Outside of a with statement process raises RuntimeError; a with statement leaves no session open.",
    "all sequences of entering, processing and exiting, failing or not",
    "resource leaks on failing paths",
    TD + ":TDozatDocumentProcessor.__enter__", TD + ":TDozatDocumentProcessor.__exit__")
add("Extra fields of the tdozat wrapper are the outputs they name",
    "Every extra field is the output at the end of its path, ValueError is raised exactly when some path leads nowhere, and extra_fields takes precedence over the flags of TDozatParser and TDozatTagger.",
    "all outputs, paths and flags",
    "needs all shapes of nested outputs",
    TD + ":TDozatDocumentProcessor.__init__", TD + ":TDozatParser", TD + ":TDozatTagger")

add("A lazily loaded tagger holds its session exactly while it is in use",
    "LazyNeuralTagger.tag opens a session with the first document asked for and has closed it when it ends, raises or is closed, also if loading fails; taggers and trainers used in turn do not disturb each other.",
    "all sequences of creating, advancing, closing and throwing into any number of generators, with any failures",
    "leaks occur on failing and interleaved paths",
    NT + ":LazyNeuralTagger.tag", NT + ":NeuralTagger.load", "babylondigger/neural/model.py:Model.load")
add("Files are closed after use",
    "A file opened by CoNLLUReader.read_from_file or by load_conllu_file is closed when the reader ends or is closed, or when the file was read.",
    "all sequences of calls on any number of readers",
    "a leaked file has no visible effect on results",
    IO + ":CoNLLUReader.read_from_file", UD + ":load_conllu_file")

SH = "babylondigger/neural/tagger/shared_builders.py"
TK = "babylondigger/neural/tagger/task_builders.py"
UT = "babylondigger/neural/utils.py"
add("A sentence gets the same labels in a batch as alone",
    "What the network predicts for the words of a sentence does not depend on the other sentences of the batch.",
    "all networks (features, aggregators, encoders, tasks, parameters), all batches",
    "depends on the lengths of other words and sentences and on the parameters",
    UT + ":subword_average", UT + ":subword_cnn", UT + ":bilstm_layer", SH, TK)
add("Which words a prediction depends on",
    "With WE_charCNN the labels of a word depend on that word only, with Dilated_CNN on the words in the window of the stacked convolutions if it ends inside of the sentence; apart from the length of the longest word of the batch, on which features of subwords and lemma_combo depend as well.",
    "all networks without BiLSTM, all pairs of batches with equally long longest words and of sentences in them that agree in the window",
    "quantifies over all parameters and sentences",
    UT + ":apply_conv_layer", SH + ":DilatedCNNSharedNetworkBuilder")
add("The loss of a batch is the mean over its words",
    "The padding of shorter sentences does not count, every word counts the same, the parts of a label count with their weights.",
    "all batches, logits, cross entropies and weights",
    "padding and masking errors show for particular lengths only",
    TK + ":DenseTaskNetworkBuilder._loss", TK + ":LemmaCOMBOTaskNetworkBuilder._loss", TK + ":LemmaSuffixBinaryTaskNetworkBuilder._loss", SH + ":WECharCNNSharedNetworkBuilder.build")
add("A suffix tagger chooses the best rule that applies",
    "The rule predicted for a word is the first of the best rated among those that apply to it, and the lemma is what that rule makes of the word; if none applies, it is the most frequent rule.",
    "all networks, rules, words and logits above the lowest number",
    "needs all masks and logits",
    TK + ":LemmaSuffixTaskNetworkBuilder._logits", EX + ":SuffixTransformationInterpreter")
add("In training the gold rule of a word is among those the network may choose",
    "The label of a training word for lemma_suffix is not masked out.",
    "all training sets and thresholds",
    "depends on frequencies in the training set",
    EX + ":SuffixTransformationFeatureExtractor", TK + ":LemmaSuffixTaskNetworkBuilder._logits")

add("The models tested at the end of an experiment are those with the best dev scores",
    "After an experiment without an error the test scores reported are those of the best epoch of each run of the best hyperparameters, although models were saved, deleted and loaded again in between.",
    "all hyperparameters, seeds, numbers of epochs, trained models, scores and files present before",
    "models overwritten or deleted too early show for particular orders of scores only",
    EV + ":main", EV + ":SingleSeedEvaluator", EV + ":AverageEvaluator", EV + ":ParametersEstimator", NT + ":NeuralTaggerTrainer.train")
add("delete_after removes exactly what an experiment made",
    "With delete_after an experiment leaves nothing behind but predictions and touches no other file that was there before; without it nothing is removed.",
    "all settings, methods, outcomes and files present before",
    "depends on what is on disk and on where an exception is raised",
    EV + ":main", EV + ":__build_estimator")
add("An experiment can be run with every method offered",
    "For each name of trainer_names an experiment with suitable settings ends without an error; other names are refused before anything is done.",
    "all settings, hyperparameters, seeds and files present before",
    "some methods fail for all settings, others for combinations of them",
    "babylondigger/evaluation/trainers.py:get_trainer", EV + ":main", TG + ":StubTaggerTrainer", NT + ":PretrainedTaggerTrainer")
add("Predictions of an experiment are kept apart",
    "After an experiment without an error, with different seeds and a directory for results that is not deleted with the models, the predictions of every epoch of every run, and the test predictions of the best epochs, are in files of their own.",
    "all experiments that train without an error",
    "names built from several numbers could clash",
    EV + ":SingleSeedEvaluator.evaluate", EV + ":TaggerTester.test")

add("Encoders, features and tasks can be combined freely",
    "A network can be built from any features, encoder and tasks that work separately, if the layer that each task starts from exists and has a suitable size.",
    "all configurations of features, encoders and tasks, all sizes",
    "names of variables clash and sizes disagree for particular combinations only",
    NW + ":MultitaskNetworkBuilder.build", SH + ":CharCNNBiLSTMCNNSharedNetworkBuilder.build", TK + ":LemmaCOMBOTaskNetworkBuilder._logits", UT + ":apply_conv_layer", UT + ":sent_level_cnn")
add("Layers take what the layers before them give",
    "In every network that is built each dense, recurrent and convolutional layer has weights from the size of the layer it starts from to its own size, the last layer of a part of a label has as many outputs as there are labels, and no two variables share a name.",
    "all configurations of features, encoders and tasks, all sizes",
    "weights of a wrong size or shared by accident show only for particular configurations",
    UT + ":apply_conv_layer", UT + ":bilstm_layer", UT + ":highway", SH + ":WECharCNNSharedNetworkBuilder.build", TK + ":DenseTaskNetworkBuilder._logits", TK + ":LemmaCOMBOTaskNetworkBuilder._logits")

add("A file of weights is read line by line",
    "A file of weights is accepted if and only if every line that neither begins with # nor is blank has two columns, the second one a number; the weight of a relation is the one of its last line; otherwise ValueError is raised.",
    "all texts, all ways to read numbers",
    "depends on white space, comments and repeated lines",
    UD + ":load_deprel_weights")
add("The weight of a relation is the weight of its words",
    "In the weighted score every word counts with the weight that the file of weights gives for its relation, and with 1 if it gives none.",
    "all pairs of loadable files, all weights",
    "relations are cut at the colon in one place and not in the other",
    UD + ":load_deprel_weights", UD + ":load_conllu", UD + ":evaluate")
add("The weighted score generalises LAS and CLAS",
    "With weight 1 for all relations that occur the weighted score is LAS, with weight 0 for functional and 1 for other relations it is CLAS; weights change no other metric.",
    "all pairs of loadable files, all weights",
    "an error shows only for weights that differ from those tried",
    UD + ":evaluate", UD + ":CLAS_weights")
add("Only the proportions of weights matter",
    "Multiplying all weights of a file of weights by the same number other than 0 does not change the weighted score.",
    "all pairs of loadable files, all weights",
    "relations without a weight have a weight of their own",
    UD + ":evaluate")
add("Scores that are printed are percentages",
    "Every number of the printed table lies between 0 and 100.",
    "all files, all weights, all ways to print numbers",
    "negative weights are accepted",
    UD + ":main", UD + ":load_deprel_weights")
add("The script prints what was computed",
    "The script prints something if and only if the files can be read and have the same characters: the LAS F1 score, or, with weights or if asked to, a table with one row for each metric in a fixed order, the weighted score last and only with weights; each row shows 100 times the precision, recall, F1 and aligned accuracy of its metric. Without negative weights the bars of the rows stand below those of the title.",
    "all files and command lines, all ways to print numbers",
    "a metric that is missing or a cell in a wrong place shows for some settings only",
    UD + ":main", UD + ":evaluate_wrapper")
add("A file compared with itself is printed as perfect",
    "If the gold file is given as system file too, all rows of the table show 100, except for metrics that count nothing in the file, which show 0.",
    "all loadable files, all weights, all ways to print numbers",
    "metrics that count nothing are special",
    UD + ":main", UD + ":evaluate")

MO = "babylondigger/neural/model.py"
add("A saved tagger is loaded as it was",
    "If saving a tagger raises nothing, loading from the same path gives a tagger with the same extractor, interpreter, network, graph and values of variables, which predicts the same; saving raises nothing if nothing is in the way and all variables have values.",
    "all taggers, file systems and paths, all formats in which what is written can be read",
    "what was at the path before, the directory the program is in and the kind of network vary",
    NT + ":NeuralTagger.save", NT + ":NeuralTagger.load", MO + ":Model.save", MO + ":Model.load")
add("Saving a tagger leaves others alone",
    "Saving to a path, even if it is interrupted, does not change what is loaded from another path; after training the tagger of every epoch is loaded as it was after that epoch.",
    "all taggers, file systems and paths, all numbers of epochs",
    "an error shows only for several epochs and after training went on",
    NT + ":NeuralTagger.save", NT + ":NeuralTaggerTrainer.train", MO + ":Model.save")
add("An interrupted saving leaves nothing that can be loaded by mistake",
    "If saving is interrupted at any point, then what is loaded from the path afterwards, if anything, is a tagger that was saved there as a whole.",
    "all taggers, file systems and paths, all points of interruption",
    "interruptions between two files are rare",
    NT + ":NeuralTagger.save", MO + ":Model.save")
add("Pretrained models are those of the last training",
    "After training with a model directory the taggers tested by PretrainedTaggerTrainer for this directory are those of this training.",
    "all taggers, file systems and paths, all numbers of epochs",
    "depends on what earlier trainings left",
    NT + ":PretrainedTaggerTrainer.train", NT + ":NeuralTaggerTrainer.train")

add("A grid search reports a combination of the grid",
    "If a grid search ends without an error, the reported hyperparameters are the base with one alternative of each key of the grid, no model is left and all files but the results of the testers are as before.",
    "all settings, trainings, file systems and methods; accepted grids whose alternatives only have paths of the base and dictionaries where it has them",
    "the combinations are shared objects and the search replaces the best one many times",
    GR + ":main", EV + ":main")
add("Hyperparameters get the same scores alone and among others",
    "The reported hyperparameters of a search get the same scores in an experiment of their own, and no others of the search get better ones.",
    "all settings, hyperparameters, grids and trainings that only look at values",
    "all trainings of a search share a data set, so an effect of one on the next shows only in long searches",
    EV + ":main", EV + ":__build_dataset", DS + ":ShuffledDataset.__iter__", GR + ":main")
add("Mistakes in the settings are found before anything is trained",
    "If something that is needed is missing in the settings, an experiment ends with an error and without having changed a file.",
    "all settings, hyperparameters, grids and file systems",
    "each key would have to be left out once, and trainings are long",
    EV + ":main", EV + ":__build_estimator", EV + ":__build_tester", EV + ":__build_dataset")
add("Repeating an experiment gives the same results",
    "Two experiments with the same settings, hyperparameters and data report the same hyperparameters and scores.",
    "all settings, hyperparameters and trainings, all times and file systems, with and without deleting models",
    "differences are rare if they only depend on the time",
    EV + ":main", EV + ":__build_dataset", DS + ":ShuffledDataset.__init__")

add("Predictions are made without dropout",
    "When a network predicts, the dropout probability has its default 1 and the network computes what it would compute without dropout, whatever the random numbers; in a training step it is the dropout of the settings.",
    "all networks of the four encoders and the task builders, all batches, weights and random numbers",
    "a value dropped in a prediction changes few answers and not always the same ones",
    NW + ":MultitaskNetworkBuilder.build", NW + ":NeuralNetwork.get_feed_dict", NT + ":_train_epoch")
add("Dropout acts behind every layer that is given its probability",
    "In a training step values are dropped at random behind every layer whose builder is given the dropout probability.",
    "all networks of the four encoders and the task builders, all batches, weights, probabilities and random numbers",
    "results of trainings with and without a dropout somewhere differ only statistically",
    UT + ":bilstm_layer", SH + ":CharCNNBiLSTMSharedNetworkBuilder.build", SH + ":DilatedCNNSharedNetworkBuilder.build", TK + ":LemmaCOMBOTaskNetworkBuilder._logits")
add("The setting dropout is the share of values that are left out in training",
    "With dropout d, a share d of the values is left out in training and values stay what they are on average; 0 switches dropout off.",
    "all probabilities, values and equally likely random numbers",
    "it is random which values are left out, and 0.5 reads the same both ways",
    NT + ":_train_epoch", SH + ":CharCNNBiLSTMSharedNetworkBuilder.build")

add("The gradient of a training step is at most 5 long",
    "The gradients with which the variables are changed in a step point in the direction of the gradients of the loss and have a length of at most 5 together; shorter ones are not changed.",
    "all gradients, of any variables, with any number of look-ups",
    "lengths are not printed, and the loss goes down all the same",
    NW + ":MultitaskNetworkBuilder._optimizer")
add("Embeddings that are set not to be trained stay as they are",
    "If 'trainable' of a feature is false, training does not change its embeddings.",
    "all features with embeddings, optimizers, numbers of steps and gradients",
    "small changes of some rows of a large matrix are not seen in the results",
    UT + ":embedding_layer", UT + ":subwords_features_builder", TK + ":LemmaCOMBOTaskNetworkBuilder._get_char_embeddings", NW + ":MultitaskNetworkBuilder._optimizer")
add("A training step changes only the embeddings of words in its batch",
    "The rows of an embedding that no word of a batch looks up are the same after its step.",
    "all optimizers, variables, numbers of steps and gradients",
    "small changes of some rows of a large matrix are not seen in the results",
    NW + ":MultitaskNetworkBuilder._optimizer", NT + ":_train_epoch")

add("Trees of any depth can be loaded for evaluation",
    "load_conllu loads every file whose sentences are trees with a single root, whatever python's recursion limit is.",
    "all files of well-formed trees, all recursion limits",
    "sentences that need a thousand nested calls are rare, and the result is an error of python, not of the script",
    UD + ":load_conllu")

add("A gold file is scored like the documents read from it",
    "For a gold file that the reader and the script accept, FileTaggerTester on the file and DataSetTaggerTester on the documents read from it report the same scores for a tagger, or fail with the same exception.",
    "all gold files that are accepted, all taggers, with and without saved results",
    "two readers of the same format, one of them followed by a writer; needs all files, with comments, ranges, line ends and unused columns",
    EV + ":FileTaggerTester", EV + ":DataSetTaggerTester", IO + ":CoNLLUReader", IO + ":CoNLLUWriter", UD + ":load_conllu", UD + ":evaluate")

add("A training step moves the numbers against their gradients",
    "A step lowers every number of the trained variables whose gradient is positive, raises those whose gradient is negative and leaves the others; with GD by the learning rate times the gradient, with one factor of at most 1 for all numbers.",
    "all optimizers, variables, gradients, learning rates and numbers of steps",
    "single numbers of the network are not looked at",
    NW + ":MultitaskNetworkBuilder._optimizer", NT + ":_train_epoch")

add("A document written to a file is read back as from a string",
    "Whatever comes back when documents are written to a string and read from it also comes back when they are written to a file and read from it.",
    "all documents for which the round trip over strings holds, all columns and limits",
    "needs characters that encodings and line ends treat specially, in every field",
    IO + ":CoNLLUWriter.write_to_file", IO + ":CoNLLUReader.read_from_file")

add("Documents read from files can be written to a file",
    "Documents read from any files are written to a file without an encoding error, and the file reads, for the reader and for the script, as the string does that the writer makes of them.",
    "all files, documents, limits and columns that contain FEATS",
    "needs all byte sequences that can be decoded, with all line ends",
    IO + ":CoNLLUReader.read_from_file", IO + ":CoNLLUWriter.write_to_file", UD + ":load_conllu_file")

add("A write that fails leaves the file as it was",
    "If write_to_file raises, the file has the contents it had before.",
    "all previous contents, documents and columns",
    "failures while writing are not tested",
    IO + ":CoNLLUWriter.write_to_file", IO + ":CoNLLUWriter._write")

add("A byte order mark at the start of a file does not matter",
    "The reader and the script read a file that begins with the byte order mark of UTF-8 as the file without it.",
    "all files that can be decoded, all limits and columns",
    "needs all first lines; the mark is invisible in test data",
    IO + ":CoNLLUReader.read_from_file", UD + ":load_conllu_file")

add("Scores computed in floating point are the exact scores rounded once",
    "With the floating point numbers python computes with, every reported score lies between 0 and 1, F1 lies between precision and recall, and a file scores exactly 1 against itself; scores of the metrics that count words or spans are the exact fractions, rounded once to the nearest double, and so are those with whole weights whose sums do not exceed 2^53.",
    "all files, all weights that are not negative, every metric",
    "the errors are in the last bit, tests compare with tolerance",
    UD + ":Score", UD + ":spans_score", UD + ":alignment_score", UD + ":evaluate")

add("Floating point does not change which model is better",
    "Comparing the sums of the reported floating point scores of two models gives the same answer as comparing the sums of the exact scores.",
    "all gold files and outputs, all sets of metrics, every attribute",
    "needs scores that are nearly or exactly equal",
    EV + ":score_comparator", UD + ":Score")

add("The average over seeds lies between the lowest and the highest score",
    "Each number calculate_average_scores computes from reported floating point scores lies between the lowest and the highest of the numbers it averages.",
    "all reported tables, any number of seeds, all metrics with aligned accuracy, every attribute",
    "the errors are in the last bit and depend on the number of seeds",
    EV + ":calculate_average_scores")

add("The printed tables show the scores",
    "The table of get_metrics_printer has a line for each metric in the given order, up to the first one that is missing, where it raises KeyError; the table of the evaluation script has one for each metric. Each line shows the name and the four numbers in per cent with two digits after the point, off by at most half a hundredth and a rounding error, and the columns are aligned; a higher score is never printed as a lower number.",
    "all files, weights that are not negative, tables, lists of metrics whose names have no bar or white space",
    "output on the screen is not tested; needs numbers between two hundredths",
    EV + ":get_metrics_printer", UD + ":main")

add("100.00 stands for a perfect score and 0.00 for none",
    "A score is printed as 100.00 exactly if it is 1, and as 0.00 exactly if it is 0.",
    "all files, weights and metrics, every attribute",
    "needs large files or very different weights",
    EV + ":get_metrics_printer", UD + ":main", UD + ":Score")

add("Options can be written in every notation and in any order",
    "Whatever values, switches and positional arguments are given to evaluation, grid_eval and the evaluation script, written apart or with =, in full or abbreviated as long as only one option begins so, short or long, in any order: the programs get exactly these, the last one if a value is given twice.",
    "all values and files, all abbreviations, all orders; without the argument --",
    "command lines are not tested",
    EV + ":_build_parser", EV + ":_parse_arguments", GR + ":__parse_arguments_with_grid", UD + ":main")

add("A command line that is incomplete or wrong is refused with a usage message",
    "If an argument is missing that is needed, or one is given that is not known, the programs end with a usage message.",
    "all command lines of evaluation, grid_eval and the evaluation script",
    "command lines are not tested",
    EV + ":_build_parser", EV + ":_parse_arguments", GR + ":__parse_arguments_with_grid", UD + ":main")

add("grid_eval understands the command lines of evaluation",
    "A command line that evaluation accepts is accepted by the parser of grid_eval, with the same values.",
    "all command lines",
    "needs values that look like options",
    EV + ":_build_parser", GR + ":__parse_arguments_with_grid")

add("Models are deleted exactly if --delete_after is given",
    "After evaluation or grid_eval ends without an error, the models are still there if --delete_after was not given, and nothing is left in the directory of models if it was.",
    "all command lines in the notations of C134, all settings, hyperparameters, grids and trainings",
    "the programs are not run in tests; a grid search trains many models",
    EV + ":main", EV + ":_parse_arguments", GR + ":main", GR + ":__parse_arguments_with_grid")

with open(os.path.join(os.path.dirname(__file__), "..", "properties.jsonl"), "w") as f:
    for p in P:
        f.write(json.dumps(p, ensure_ascii=False) + "\n")
for p in P:
    print(p["id"], p["title"])
