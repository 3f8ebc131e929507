{"id": "C01", "title": "Tokens of a document never overlap", "statement": "Whenever Document(text, tokens, sentences) returns, the document's tokens are the given tokens sorted by (start, end, sub_index), none lost or duplicated, and every pair of them (not only neighbours) either has disjoint spans in text order or shares exactly one span with strictly increasing sub_index.", "quantifier": "all texts, all token lists in any order, all sentence lists", "why_tests_cant": "the constructor only compares neighbours after sorting; that this suffices for all pairs of an arbitrarily long list is an induction, not a sample", "anchors": ["babylondigger/datamodel.py:_WordList.__init__", "babylondigger/datamodel.py:Token.intersects", "babylondigger/datamodel.py:_check_for_sequence"]}
{"id": "C02", "title": "Sentences tile the tokens, and any tiling is accepted", "statement": "Whenever Document(...) returns for a non-empty token list, its sentence boundaries start at 0, end at the token count, and each ends where the next starts; concatenating the tokens of its sentences gives the document's tokens. Conversely any list of sentences that is a tiling (in any order), with non-overlapping well-numbered tokens and consistent heads, is accepted.", "quantifier": "all token lists and sentence lists", "why_tests_cant": "both directions quantify over every list; tests show only a few accepted and rejected ones", "anchors": ["babylondigger/datamodel.py:Document.__init__", "babylondigger/datamodel.py:Sentence.__init__", "babylondigger/datamodel.py:Document.sentences"]}
{"id": "C03", "title": "Construction does not depend on the order tokens and sentences are passed in", "statement": "If tokens' is a permutation of tokens and sentences' of sentences then Document(text, tokens, sentences, v) and Document(text, tokens', sentences', v) either both fail or both return the same document.", "quantifier": "all permutations of all inputs", "why_tests_cant": "the number of permutations is factorial in the input size", "anchors": ["babylondigger/datamodel.py:Document.__init__", "babylondigger/datamodel.py:_WordList.__init__"]}
{"id": "C04", "title": "The two head notations are interchangeable", "statement": "Specifying a token's head as an index in the sentence, as the corresponding index in the document, or as both, gives the same document; for every token of a constructed document with a head both views are present and (outside roots) document index = sentence index + sentence start; an inconsistent pair is rejected.", "quantifier": "all documents, all ways of mixing notations per token, heads inside the token's sentence or root", "why_tests_cant": "exponentially many mixtures per document", "anchors": ["babylondigger/datamodel.py:Token.fill_heads", "babylondigger/datamodel.py:_WordList.__fill_token_heads"]}
{"id": "C05", "title": "validate_syntax accepts exactly the dependency trees", "statement": "Document(..., validate_syntax=True) returns iff each sentence either has no head at all, or is a dependency tree: every token has a head, exactly one token is the root, every other head lies inside the sentence, and every token reaches the root by following heads. In particular the check always terminates.", "quantifier": "all documents with any head assignment", "why_tests_cant": "head assignments of a sentence of n tokens number about n^n; the marking algorithm's correctness is a loop invariant", "anchors": ["babylondigger/datamodel.py:Document.__validate_syntax"]}
{"id": "C06", "title": "A head outside the sentence is rejected under validate_syntax", "statement": "With validate_syntax=True a token whose head (given as an index in the document) is a token of another sentence makes construction fail.", "quantifier": "all documents and all out-of-sentence heads", "why_tests_cant": "the failing offset is one specific value (the token just before the sentence) that sampling easily misses, or hits while another check masks it as in test_syntax_out_of_sentence", "anchors": ["babylondigger/datamodel.py:Token.fill_heads", "babylondigger/datamodel.py:Token.is_root", "babylondigger/datamodel.py:Document.__validate_syntax"]}
{"id": "C07", "title": "Rebuilding a document from its own parts gives the same document", "statement": "Document(d.text, d.tokens, d.sentences_boundaries) == d, and Document.from_document(d, d.tokens) == d, for every constructed document d.", "quantifier": "all documents the constructor can return", "why_tests_cant": "must hold for every reachable document", "anchors": ["babylondigger/datamodel.py:Document.from_document", "babylondigger/datamodel.py:Token.fill_heads"]}
{"id": "C08", "title": "Annotation setters change only what they name", "statement": "with_morphology, with_syntax, with_extras and update_extras never fail on a constructed token and return a token equal to the original in every observable field except the ones being set; setters of disjoint field groups commute.", "quantifier": "all tokens and all new values, all call sequences", "why_tests_cant": "a frame condition over every field and every value", "anchors": ["babylondigger/datamodel.py:Token.with_morphology", "babylondigger/datamodel.py:Token.with_syntax", "babylondigger/datamodel.py:Token.with_extras", "babylondigger/datamodel.py:Token.update_extras", "babylondigger/datamodel.py:DocumentToken"]}
{"id": "C09", "title": "from_document keeps text, segmentation and token spans", "statement": "Document.from_document(d, tokens), if it returns, has the text and the sentence boundaries of d and the same number of tokens with the same spans.", "quantifier": "all documents and all replacement token lists", "why_tests_cant": "quantifies over every replacement list; the failing one (the empty list) is a boundary case", "anchors": ["babylondigger/datamodel.py:Document.from_document"]}
{"id": "C10", "title": "Navigation is consistent", "statement": "For every constructed document, get_token(i) for -n <= i < n is the same token as get_token(i mod n); is_first/is_last hold exactly at the ends; next and previous are inverse to each other, never wrap around, and walking next from the first token visits every token once in order. Same for sentences.", "quantifier": "all documents, all indices including negative ones", "why_tests_cant": "all lengths and all indices", "anchors": ["babylondigger/datamodel.py:_NavigableItem", "babylondigger/datamodel.py:_WordList.get_token", "babylondigger/datamodel.py:Document.get_sentence"]}
{"id": "C11", "title": "Following .head reaches the root", "statement": "In a document constructed with validate_syntax=True, from every token of an annotated sentence a finite number (less than the sentence length) of .head steps ends in None, never raises, never leaves the sentence, and the sentence view and the document view of the same token have the same head token.", "quantifier": "all validated documents, all tokens", "why_tests_cant": "termination over every tree shape", "anchors": ["babylondigger/datamodel.py:NavigableToken.head", "babylondigger/datamodel.py:NavigableToken.head_index", "babylondigger/datamodel.py:Document.__validate_syntax"]}
{"id": "C12", "title": "Sentence views always open and show exactly their slice", "statement": "For every constructed document and every sentence index, get_sentence succeeds, exposes exactly the document's tokens [start, end) in order with the same texts, and its text is the document substring from its first token's start to its last token's end.", "quantifier": "all documents, all sentence indices", "why_tests_cant": "the sentence object re-runs the overlap and multiword checks on a slice; that they cannot fail there needs a proof for every slice", "anchors": ["babylondigger/datamodel.py:NavigableSentence", "babylondigger/datamodel.py:Document.get_sentence"]}
{"id": "C13", "title": "Words of a multiword token are numbered 0..k-1", "statement": "In every constructed document the words sharing a span with a text replacement have sub_index 0,1,...,k-1 without gaps.", "quantifier": "all documents", "why_tests_cant": "the check is pairwise, so the first element is a boundary the pairwise check never sees", "anchors": ["babylondigger/datamodel.py:_skipped_token", "babylondigger/datamodel.py:_WordList.__init__"]}
{"id": "C14", "title": "Token equality distinguishes tokens with different heads", "statement": "t1 == t2 holds iff all observable fields (span, pos, lemma, both head indices, deprel, sub_index, replacement, extras) are equal; == on tokens is an equivalence relation.", "quantifier": "all pairs of tokens", "why_tests_cant": "needs a pair differing in exactly one field for every field", "anchors": ["babylondigger/datamodel.py:Token.__eq__", "babylondigger/datamodel.py:Pos.__eq__", "babylondigger/datamodel.py:TokenExtras.__eq__"]}
{"id": "C15", "title": "Pos equality, hash and order agree", "statement": "Equal Pos values (features compared regardless of insertion order) have equal hashes and compare neither less nor greater; for Pos values with upos and xpos present exactly one of <, ==, > holds and < is transitive.", "quantifier": "all pairs and triples of Pos values", "why_tests_cant": "order axioms quantify over all triples", "anchors": ["babylondigger/datamodel.py:Pos"]}
{"id": "C16", "title": "Any two Pos values can be ordered", "statement": "a < b never raises for Pos values a and b (Pos is declared @total_ordering).", "quantifier": "all pairs of Pos values", "why_tests_cant": "fails only for pairs that agree on the first field and have a missing second field on one side", "anchors": ["babylondigger/datamodel.py:Pos.__lt__"]}
{"id": "C17", "title": "str(document) always works and shows the text", "statement": "str(d) returns for every constructed document; when no two tokens share a span, deleting the inserted annotations gives back the document text.", "quantifier": "all documents", "why_tests_cant": "boundary (empty document) and all layouts", "anchors": ["babylondigger/datamodel.py:Document.__str__"]}
{"id": "C18", "title": "Reader offsets are faithful", "statement": "For every document CoNLLUReader yields, slicing the document text at a token's span gives exactly the FORM column of its line (for words of a multiword token: of the range line), the text is the concatenation of the FORMs with one space after each form that is not marked SpaceAfter, and words of a range line keep their own FORM as text.", "quantifier": "all input texts the reader accepts", "why_tests_cant": "an invariant over every prefix of the input stream", "anchors": ["babylondigger/evaluation/conllu_io.py:_ReaderState._process_token", "babylondigger/evaluation/conllu_io.py:_MultiWordReaderState._process_token"]}
{"id": "C19", "title": "doc_sentences_limit only regroups sentences", "statement": "Reading the same well-formed input with limit k yields documents with exactly k sentences each except possibly the last, no empty document, and the sequence of sentences (token annotations, texts, sentence-relative heads) is the same for every k.", "quantifier": "all inputs, all limits k >= 1", "why_tests_cant": "all sizes and all limits", "anchors": ["babylondigger/evaluation/conllu_io.py:CoNLLUReader._read", "babylondigger/evaluation/conllu_io.py:_AbstractReaderState.end_of_sentence"]}
{"id": "C20", "title": "Written documents read back equal", "statement": "For documents in reader-normal form (tokens separated by nothing or one space, text ending in one space, fully parsed, fields free of the CoNLL-U metacharacters) CoNLLUReader reading what CoNLLUWriter wrote yields documents with the same text, sentences, spans, words, lemmas, tags, features, heads and relations.", "quantifier": "all such documents, any number of sentences and multiword tokens not ending a non-final sentence, any grouping", "why_tests_cant": "round trip over all documents", "anchors": ["babylondigger/evaluation/conllu_io.py:CoNLLUWriter", "babylondigger/evaluation/conllu_io.py:CoNLLUReader", "babylondigger/evaluation/conllu_io.py:to_conll"]}
{"id": "C21", "title": "A multiword token is written exactly once", "statement": "CoNLLUWriter writes, for every document and sentence, one range line per multiword token followed by its words, and one line per other token, word ids running 1..n in each sentence, a blank line after each sentence, and nothing else.", "quantifier": "all documents", "why_tests_cant": "depends on the position of the multiword token relative to sentence ends: a state-machine history property", "anchors": ["babylondigger/evaluation/conllu_io.py:CoNLLUWriter.__write_CoNLL_U", "babylondigger/evaluation/conllu_io.py:_MultiwordTokenWriterState"]}
{"id": "C22", "title": "Spacing survives a read-write-read cycle", "statement": "Writing a document the reader yielded and reading it again gives a document with the same text.", "quantifier": "all inputs", "why_tests_cant": "fails only at the last token of a document", "anchors": ["babylondigger/evaluation/conllu_io.py:to_conll", "babylondigger/datamodel.py:DocumentToken.space_after"]}
{"id": "C23", "title": "Column selection", "statement": "A reader restricted to a set of columns yields tokens whose other annotations are None, and whose selected annotations are those of the full reader; a writer restricted to a set of columns writes '_' in the unselected columns and never fails because of the restriction.", "quantifier": "all column sets, all inputs", "why_tests_cant": "2^k column sets times all documents", "anchors": ["babylondigger/evaluation/conllu_io.py:_line_parser", "babylondigger/evaluation/conllu_io.py:_column_extractors", "babylondigger/evaluation/conllu_io.py:to_conll"]}
{"id": "C24", "title": "Comments and empty nodes contribute nothing", "statement": "Inserting comment lines or empty-node lines (ids with a dot) anywhere in a CoNLL-U input does not change the documents the reader yields.", "quantifier": "all inputs, all insertion points", "why_tests_cant": "all insertion points, including inside a multiword range", "anchors": ["babylondigger/evaluation/conllu_io.py:CoNLLUReader._read", "babylondigger/evaluation/conllu_io.py:_ReaderState._process_token"]}
{"id": "C25", "title": "Evaluation can load whatever the writer wrote", "statement": "The text CoNLLUWriter produces for a document whose sentences are each unparsed or dependency trees is accepted by load_conllu (no UDError): unparsed sentences get a chain of heads with a single root; the loaded words carry the columns that were written.", "quantifier": "all documents (with no sentence-final multiword token before another sentence)", "why_tests_cant": "composition of two state machines on all documents", "anchors": ["babylondigger/evaluation/conllu_io.py:to_conll", "babylondigger/evaluation/conll17_ud_eval.py:load_conllu", "babylondigger/evaluation/evaluation.py:TaggerTester._convert_to_internal"]}
{"id": "C26", "title": "load_conllu accepts exactly single-rooted trees", "statement": "For a sentence of words with heads in 0..n, the loader's parent linking succeeds iff heads contain no cycle and exactly one word has head 0; the parent it links is the word the HEAD column names.", "quantifier": "all head vectors", "why_tests_cant": "n^n head vectors; recursion and the temporary 'remapping' mark need an invariant", "anchors": ["babylondigger/evaluation/conll17_ud_eval.py:load_conllu.process_word"]}
{"id": "C27", "title": "Loaded spans tile the characters", "statement": "For every accepted file, token spans are consecutive, non-empty, start at 0 and end at the number of characters; sentence spans likewise; every word's span is a token span; the characters are the concatenated forms without spaces.", "quantifier": "all accepted inputs", "why_tests_cant": "stream invariant", "anchors": ["babylondigger/evaluation/conll17_ud_eval.py:load_conllu"]}
{"id": "C28", "title": "Span score counts the common spans", "statement": "For sorted span lists the Tokens and Sentences scores count exactly the spans present in both files, and swapping the files swaps precision and recall.", "quantifier": "all pairs of span lists with increasing starts", "why_tests_cant": "two-pointer merge correctness over all lists", "anchors": ["babylondigger/evaluation/conll17_ud_eval.py:evaluate.spans_score"]}
{"id": "C29", "title": "Word alignment is a monotone partial matching", "statement": "The alignment pairs words in increasing order on both sides, uses each word at most once, pairs only words that both lie outside multiword tokens and have identical spans or have equal lower-cased forms, and always terminates.", "quantifier": "all pairs of word lists", "why_tests_cant": "loop with data-dependent jumps; termination and injectivity for all inputs", "anchors": ["babylondigger/evaluation/conll17_ud_eval.py:evaluate.align_words", "babylondigger/evaluation/conll17_ud_eval.py:evaluate.find_multiword_span"]}
{"id": "C30", "title": "Multiword alignment is a longest common subsequence", "statement": "Inside a multiword span the number of aligned words equals the maximum length of a common subsequence of the two lower-cased form sequences.", "quantifier": "all pairs of form sequences", "why_tests_cant": "optimality against every common subsequence", "anchors": ["babylondigger/evaluation/conll17_ud_eval.py:evaluate.compute_lcs", "babylondigger/evaluation/conll17_ud_eval.py:evaluate.align_words"]}
{"id": "C31", "title": "Scores are well formed", "statement": "For every metric precision, recall and F1 lie in [0,1], F1 is the harmonic mean of precision and recall when defined, and aligned accuracy, if present, lies in [0,1].", "quantifier": "all pairs of loaded files, all metrics including weighted ones with non-negative weights", "why_tests_cant": "needs correct <= aligned <= gold and correct <= system for every alignment and weight", "anchors": ["babylondigger/evaluation/conll17_ud_eval.py:evaluate.Score", "babylondigger/evaluation/conll17_ud_eval.py:evaluate.alignment_score"]}
{"id": "C32", "title": "A file evaluated against itself is perfect", "statement": "evaluate(x, x) gives precision = recall = F1 = 1 for every metric with a non-zero total, and aligned accuracy 1.", "quantifier": "all loaded files", "why_tests_cant": "the multiword path must realign every file with itself", "anchors": ["babylondigger/evaluation/conll17_ud_eval.py:evaluate"]}
{"id": "C33", "title": "With identical tokenization scores are plain accuracies", "statement": "If the system output has the same tokens, words and sentences as gold, Tokens, Sentences and Words are 1 and each tag metric equals the fraction of words whose columns agree; heads are compared position by position.", "quantifier": "all pairs of files differing only in annotation columns", "why_tests_cant": "needs the alignment to be the identity on every such pair", "anchors": ["babylondigger/evaluation/conll17_ud_eval.py:evaluate.align_words", "babylondigger/evaluation/conll17_ud_eval.py:evaluate.alignment_score", "babylondigger/evaluation/conll17_ud_eval.py:Alignment.fill_parents"]}
{"id": "C34", "title": "Mismatching texts are refused", "statement": "evaluate raises UDError iff the character sequences of the two files differ.", "quantifier": "all pairs of loaded files", "why_tests_cant": "iff over all inputs", "anchors": ["babylondigger/evaluation/conll17_ud_eval.py:evaluate"]}
{"id": "C35", "title": "A lemma rule reproduces its training pair", "statement": "LemmaSuffixTransformation.get_rule(w, l) is applicable to w and transforms w to l, and it is the rule with the longest kept prefix.", "quantifier": "all pairs of strings", "why_tests_cant": "all strings", "anchors": ["babylondigger/lemmas/transformation_rules.py:LemmaSuffixTransformation.get_rule", "babylondigger/lemmas/transformation_rules.py:LemmaSuffixTransformation.transform"]}
{"id": "C36", "title": "The trie returns exactly the documented rules", "statement": "get_applicable_rules(w) of a trie built from a rule list returns, shortest suffix first and in insertion order, exactly the regular rules whose word suffix is a proper suffix of w, followed by the exceptions stored at the deepest node reached.", "quantifier": "all rule lists, all words", "why_tests_cant": "tree shapes and words are unbounded", "anchors": ["babylondigger/lemmas/transformation_rules.py:LemmaTransformationTrie.build", "babylondigger/lemmas/transformation_rules.py:LemmaTransformationTrie.get_applicable_rules"]}
{"id": "C37", "title": "Rules the trie offers are applicable, and all applicable ones are offered", "statement": "Every rule returned for w satisfies is_applicable(w) (so transform never raises), and every rule of the list with is_applicable(w) is returned.", "quantifier": "all rule lists, all words", "why_tests_cant": "soundness and completeness over all words", "anchors": ["babylondigger/lemmas/transformation_rules.py:LemmaTransformationTrie.get_applicable_rules"]}
{"id": "C38", "title": "Exceptions are offered only for the whole word", "statement": "A rule learned as an exception (no common prefix) is offered only for the very word it was learned from.", "quantifier": "all rule lists, all words", "why_tests_cant": "depends on where the walk through the trie stops", "anchors": ["babylondigger/lemmas/transformation_rules.py:LemmaTransformationTrie.get_applicable_rules"]}
{"id": "C39", "title": "The gold lemma rule is always selectable in training", "statement": "For every training set and threshold, for every training token whose rule is in the vocabulary, the applicability mask of its word is true at its label index, and interpreting that label gives back the lower-cased lemma.", "quantifier": "all datasets, thresholds and tokens", "why_tests_cant": "composition of counting, vocabulary, trie and interpretation on all datasets", "anchors": ["babylondigger/features/extractors.py:CachedSuffixRulesBuilder", "babylondigger/features/extractors.py:ApplicableSuffixTransformations", "babylondigger/features/extractors.py:SuffixTransformationFeatureExtractor", "babylondigger/features/extractors.py:SuffixTransformationInterpreter"]}
{"id": "C40", "title": "Lemma prediction never raises", "statement": "For every in-range rule index the interpreter assigns a lemma: the transformed lower-cased word if the rule applies and the lower-cased word itself otherwise, leaving all other annotations unchanged.", "quantifier": "all tokens, all predicted indices", "why_tests_cant": "all tokens times all predictions", "anchors": ["babylondigger/features/extractors.py:SuffixTransformationInterpreter.interpret"]}
{"id": "C41", "title": "Vocabularies are bijections with the most common label first", "statement": "The label list built from counts has no duplicates, contains exactly the labels above the threshold plus the most frequent one, which has index 0; the inverse map sends every listed label to its position.", "quantifier": "all count tables, all thresholds", "why_tests_cant": "all tables", "anchors": ["babylondigger/features/extractors.py:_id2obj", "babylondigger/features/extractors.py:_obj2id"]}
{"id": "C42", "title": "Pos splitters lose nothing", "statement": "combine(split(p).values()) equals p for every splitting strategy (pos_joint, pos_XF, pos_UXF for every Pos; pos_gran for every Pos whose feature names were seen in training).", "quantifier": "all Pos values, all training sets", "why_tests_cant": "all feature dictionaries", "anchors": ["babylondigger/features/extractors.py:PosNoSplitter", "babylondigger/features/extractors.py:PosUXFSplitter", "babylondigger/features/extractors.py:PosXFSplitter", "babylondigger/features/extractors.py:PosGranularSplitter"]}
{"id": "C43", "title": "Tag labels round-trip", "statement": "For every training set and every token in it, interpreting the label ids extracted for the token assigns it its own Pos and keeps lemma, syntax, span and extras; all ids are below the advertised label counts.", "quantifier": "all training sets, all tokens", "why_tests_cant": "composition over all datasets", "anchors": ["babylondigger/features/extractors.py:PosDictFeatureExtractorBuilder", "babylondigger/features/extractors.py:PosDictFeatureExtractor", "babylondigger/features/extractors.py:PosDictInterpreter"]}
{"id": "C44", "title": "Building tag labels never fails on readable data", "statement": "For every non-empty dataset whose tokens have a Pos, building the label vocabulary succeeds for every splitting strategy.", "quantifier": "all datasets", "why_tests_cant": "fails only on datasets mixing present and missing XPOS", "anchors": ["babylondigger/features/extractors.py:PosDictFeatureExtractorBuilder.build", "babylondigger/features/extractors.py:_id2obj"]}
{"id": "C45", "title": "Character lemma labels round-trip", "statement": "The label has exactly max_word_length ids, all below the advertised size; interpreting it gives back the lemma when all its characters are in the vocabulary and it fits (length + 2 <= max_word_length), and a prefix of the known characters otherwise; every in-range prediction is interpretable.", "quantifier": "all lemmas, vocabularies, lengths and predictions", "why_tests_cant": "boundary arithmetic for all lengths", "anchors": ["babylondigger/features/extractors.py:LemmaCharExtractor", "babylondigger/features/extractors.py:LemmaCharInterpreter"]}
{"id": "C46", "title": "An unseen lemma is never labelled as another lemma", "statement": "LemmaDictFeatureExtractor gives a lemma outside the vocabulary a label that does not denote a different lemma.", "quantifier": "all vocabularies and lemmas", "why_tests_cant": "needs an unseen lemma at evaluation time", "anchors": ["babylondigger/features/extractors.py:LemmaDictFeatureExtractor"]}
{"id": "C47", "title": "Padded features are rectangular and unaltered", "statement": "After padding every sequence at the same depth of a feature has the same length, every original entry is still at its place, all added entries are padding (0), and nothing is added beyond the longest sequence; a feature mixing lists and scalars at one depth is rejected.", "quantifier": "all nested features of any depth and shape", "why_tests_cant": "all shapes; in-place mutation with shared padding objects", "anchors": ["babylondigger/features/builder.py:_pad_sequence", "babylondigger/features/builder.py:PaddingFeatureExtractor"]}
{"id": "C48", "title": "Sparsification replaces only by OOV", "statement": "Sparsified features keep their shape, each scalar is kept or replaced by OOV; with rate 1 everything is replaced and with rate 0 nothing is.", "quantifier": "all features, all rates, all outcomes of the random source", "why_tests_cant": "the random source's boundary outcome 0.0 is practically unobservable in tests", "anchors": ["babylondigger/features/builder.py:_sparse_rate_sequence"]}
{"id": "C49", "title": "Merging builders changes nothing but the grouping", "statement": "The merged builder's extractor computes for every input the union of the features the given builders compute separately, with the same wrapping (padding, per-sentence, per-token, sparsified) of every basic extractor.", "quantifier": "all builder trees", "why_tests_cant": "all trees of wrappers", "anchors": ["babylondigger/features/builder.py:merge", "babylondigger/features/builder.py:CompositeFeatureExtractorBuilder.merge", "babylondigger/features/builder.py:PaddingFeatureExtractorBuilder.merge", "babylondigger/features/builder.py:IterableFeatureExtractorBuilder.merge"]}
{"id": "C50", "title": "Feature names never silently collide", "statement": "Combining extractors either raises ValueError or returns a dictionary containing every feature of every part with its value unchanged; it raises iff two parts produce a common name.", "quantifier": "all lists of dictionaries", "why_tests_cant": "all overlaps", "anchors": ["babylondigger/features/builder.py:_merge_dicts", "babylondigger/features/builder.py:CompositeFeatureExtractor"]}
{"id": "C51", "title": "Predictions are attached to the right tokens", "statement": "Interpreting per-token label lists assigns the i-th element of every label list to the i-th token, for every number of label names and tokens; extraction followed by per-element regrouping is the identity.", "quantifier": "all token lists and label dictionaries", "why_tests_cant": "transposition for all sizes", "anchors": ["babylondigger/features/builder.py:IterableFeatureExtractor", "babylondigger/features/builder.py:IterableInterpreter"]}
{"id": "C52", "title": "Embedding rows and word indices agree", "statement": "Word ids are distinct, at least 2 (4 for subwords) and below the matrix height; the initial values assign to each word's row exactly its last vector in the file, row 0 is zero, reserved ids are never assigned to words, and all vectors have the advertised width.", "quantifier": "all embedding files", "why_tests_cant": "all files", "anchors": ["babylondigger/features/extractors.py:_read_embeddings", "babylondigger/features/extractors.py:WordEmbeddingFeatureExtractorBuilder", "babylondigger/features/extractors.py:EmbeddingInitializer"]}
{"id": "C53", "title": "Subword and word ids are always in range", "statement": "Every feature id produced for any token (seen or unseen) is below the embedding height advertised by the builder; known symbols get distinct ids, unknown ones OOV; the id list starts with START and ends with END.", "quantifier": "all training sets, all tokens", "why_tests_cant": "all unseen tokens", "anchors": ["babylondigger/features/extractors.py:TokenCharactersFeatureExtractorBuilder", "babylondigger/features/extractors.py:SubwordFeatureExtractor", "babylondigger/features/extractors.py:TrainableEmbeddingsExtractorBuilder"]}
{"id": "C54", "title": "Parameter search returns the best and deletes the rest", "statement": "params_search returns the first parameter set with the maximal comparison score together with its model, scores and path; at every moment of the search the disposal callback has been called exactly once for every finished candidate except the current best, and never for the best.", "quantifier": "all sequences of candidates and scores, every prefix of the search", "why_tests_cant": "history property over all sequences", "anchors": ["babylondigger/evaluation/evaluation.py:ParametersEstimator.params_search", "babylondigger/evaluation/evaluation.py:_is_better", "babylondigger/evaluation/evaluation.py:score_comparator"]}
{"id": "C55", "title": "The best epoch is kept", "statement": "SingleSeedEvaluator returns the scores of the first epoch with maximal score and tests with that epoch's tagger; every other epoch's directory, and no other path, is disposed exactly once.", "quantifier": "all score sequences", "why_tests_cant": "history property over all sequences", "anchors": ["babylondigger/evaluation/evaluation.py:SingleSeedEvaluator.evaluate"]}
{"id": "C56", "title": "Averaged scores are arithmetic means", "statement": "For a non-empty list of seeds the averager returns for every requested metric the mean of precision, recall, F1 and aligned accuracy; it works for every metric evaluate reports.", "quantifier": "all lists of score tables, all metric lists", "why_tests_cant": "fails only for metrics without aligned accuracy", "anchors": ["babylondigger/evaluation/evaluation.py:get_metrics_averager", "babylondigger/evaluation/conll17_ud_eval.py:evaluate"]}
{"id": "C57", "title": "Grid search enumerates the cartesian product", "statement": "The parameter sets built from a valid grid are in one-to-one correspondence with the choices of one alternative per grid key, each equal to the base hyperparameters with the chosen alternatives applied; the base is not modified.", "quantifier": "all grids and base dictionaries", "why_tests_cant": "exponentially many combinations; aliasing between results", "anchors": ["babylondigger/evaluation/grid_eval.py:main", "babylondigger/evaluation/grid_eval.py:__build_list_of_new_hyperparams", "babylondigger/evaluation/grid_eval.py:__merge_dicts"]}
{"id": "C58", "title": "Merging hyperparameters never invents or drops a key", "statement": "Merging a grid dictionary raises ValueError iff it names a key absent from the base at the same depth; otherwise paths not mentioned keep their value and mentioned leaves get the new value.", "quantifier": "all nested dictionaries", "why_tests_cant": "all nestings", "anchors": ["babylondigger/evaluation/grid_eval.py:__merge_dicts"]}
{"id": "C59", "title": "Overlapping grid parameters are refused", "statement": "If two grid keys can set the same hyperparameter, the grid is rejected.", "quantifier": "all grids", "why_tests_cant": "only the first key of each dictionary is inspected", "anchors": ["babylondigger/evaluation/grid_eval.py:__check_is_grid_valid", "babylondigger/evaluation/grid_eval.py:__take_all_key_path"]}
{"id": "C60", "title": "Shuffling is a bounded permutation, reproducible by seed", "statement": "Each pass over ShuffledDataset yields every element exactly once, moves no element by max_batch_size or more positions, and the k-th pass depends only on the seed, k and the data.", "quantifier": "all datasets, seeds, batch sizes >= 1, random outcomes", "why_tests_cant": "all random outcomes", "anchors": ["babylondigger/evaluation/dataset.py:ShuffledDataset.__iter__"]}
{"id": "C61", "title": "Minibatches partition the training sentences", "statement": "The minibatches of an epoch contain every sentence of every document exactly once, in order; all have batch_size sentences except possibly a smaller non-empty last one.", "quantifier": "all datasets, all batch sizes >= 1", "why_tests_cant": "all sizes", "anchors": ["babylondigger/neural/tagger/neural_tagger.py:_get_minibatches"]}
{"id": "C62", "title": "Learning rate schedule", "statement": "The learning rate stays positive and never increases for lr_decay >= 0 and lr_decrease_factor >= 1; with lr_decay 0 and no stagnation it is constant; with time-based decay it equals initial_lr / (1 + lr_decay * epoch).", "quantifier": "all epochs, decay values and accuracy histories", "why_tests_cant": "all histories", "anchors": ["babylondigger/neural/tagger/neural_tagger.py:NeuralTaggerTrainer.train", "babylondigger/neural/tagger/neural_tagger.py:_get_lr"]}
{"id": "C63", "title": "Processors compose left to right and preserve the stream", "statement": "DocumentComplexProcessor(ps).process(docs) equals applying the processors in order; nesting is associative; with the library's processors one document comes out per document in, in order.", "quantifier": "all processor lists and document streams", "why_tests_cant": "all compositions", "anchors": ["babylondigger/processor.py:DocumentComplexProcessor", "babylondigger/tagger.py:StubTagger", "babylondigger/parser.py:StubParser"]}
{"id": "C64", "title": "Every entered processor is exited", "statement": "Using DocumentComplexProcessor as a context manager calls __exit__ once on every component whose __enter__ succeeded, whatever raises.", "quantifier": "all lists of components, all points of failure", "why_tests_cant": "all crash points", "anchors": ["babylondigger/processor.py:DocumentComplexProcessor.__enter__", "babylondigger/processor.py:DocumentComplexProcessor.__exit__"]}
{"id": "C65", "title": "Stub parser and tagger give valid documents", "statement": "For every constructed document StubParser returns a document that passes validate_syntax with a chain tree in every sentence and unchanged text, spans, sentences and morphology; StubTagger returns the document with every Pos set to the most frequent training Pos and every lemma set to the word's text, syntax unchanged.", "quantifier": "all documents, all training sets", "why_tests_cant": "all documents", "anchors": ["babylondigger/parser.py:StubParser._parse", "babylondigger/tagger.py:StubTagger._tag", "babylondigger/tagger.py:StubTaggerTrainer.get_most_frequent_pos"]}
{"id": "C66", "title": "UDPipe conversion keeps alignment and morphology", "statement": "For every document and whatever an UDPipe model writes into its words, the result has the same text, spans and sentences; with a model that changes nothing, lemma, upos, xpos and features of every token with non-empty metacharacter-free values survive the round trip, and heads are mapped word id h -> token h-1, 0 -> root.", "quantifier": "all documents, all model outputs", "why_tests_cant": "the external model is arbitrary", "anchors": ["babylondigger/wrappers/udpipe1_2.py:convert_to_ud", "babylondigger/wrappers/udpipe1_2.py:convert_from_ud", "babylondigger/wrappers/udpipe1_2.py:_AbstractUDPipeProcessor._process"]}
{"id": "C67", "title": "Neural tagging preserves the document", "statement": "For every document and every model whose predictions have the sentence's length and in-range ids, NeuralTagger.tag yields exactly one document per input document with the same text, spans, sentences, syntax and extras, and the morphology that the labels denote.", "quantifier": "all documents, all models", "why_tests_cant": "the trained model is arbitrary", "anchors": ["babylondigger/neural/tagger/neural_tagger.py:NeuralTagger.tag", "babylondigger/features/builder.py:IterableInterpreter", "babylondigger/features/extractors.py:PosDictInterpreter"]}
{"id": "C68", "title": "Test data given to a tagger contains no gold annotation", "statement": "In TaggerTester.test every document the tagger receives has the gold text, spans, sentences and word texts but no pos, lemma, head or relation on any token.", "quantifier": "all gold documents", "why_tests_cant": "information-flow property over all documents", "anchors": ["babylondigger/evaluation/evaluation.py:TaggerTester.test"]}
{"id": "C69", "title": "Perfect predictions score 1", "statement": "If a tagger's output has the gold annotations, DataSetTaggerTester reports 1 for every metric; more generally for a tagger that keeps segmentation, the reported UPOS score is the fraction of words tagged correctly.", "quantifier": "all datasets, all taggers", "why_tests_cant": "end-to-end composition of writer, loader and scorer", "anchors": ["babylondigger/evaluation/evaluation.py:DataSetTaggerTester", "babylondigger/evaluation/evaluation.py:TaggerTester.test"]}
{"id": "C70", "title": "Annotations cannot be changed from outside", "statement": "No sequence of mutations of dictionaries passed to or obtained from Pos and TokenExtras changes what an existing Pos or TokenExtras reports.", "quantifier": "all histories of client operations", "why_tests_cant": "aliasing property over all histories", "anchors": ["babylondigger/datamodel.py:Pos.feats", "babylondigger/datamodel.py:TokenExtras"]}
{"id": "C71", "title": "Saved networks reattach to the same tensors", "statement": "Mapping a network to names and attaching it to a graph in which these names denote the same tensors gives the same inputs, outputs, gold, loss, optimizer and initializers; feeding rejects unknown input names and feeds every given value to its own placeholder.", "quantifier": "all networks with uniquely named tensors, all feeds", "why_tests_cant": "all networks", "anchors": ["babylondigger/neural/network.py:NeuralNetworkMapping", "babylondigger/neural/network.py:NeuralNetwork.get_feed_dict"]}
{"id": "C72", "title": "Only the winning models are left after a search", "statement": "After a search that ends regularly, exactly the directories of the tested epochs are left, one for each seed of the winning parameter set: every other epoch's directory of the winner and every directory of the other parameter sets was removed, and a removed directory is one the trainer saved to.", "quantifier": "all candidates, seeds, epochs, scores and base directories", "why_tests_cant": "composition of three nested loops and path arithmetic", "anchors": ["babylondigger/evaluation/evaluation.py:ParametersEstimator.params_search", "babylondigger/evaluation/evaluation.py:AverageEvaluator.evaluate", "babylondigger/evaluation/evaluation.py:SingleSeedEvaluator.evaluate"]}
{"id": "C73", "title": "Training yields every epoch once", "statement": "With a dev tester, training yields one pair per epoch, in order: the scores of the model saved after that epoch in its own directory, trained from the state the previous epoch left with the learning rate of this epoch; without a tester it yields nothing.", "quantifier": "all documents, networks, testers and numbers of epochs", "why_tests_cant": "loop invariant over all runs, including those that raise", "anchors": ["babylondigger/neural/tagger/neural_tagger.py:NeuralTaggerTrainer.train"]}
{"id": "C74", "title": "Labels have canonical numbers", "statement": "Label 0 apart, rules, lemmas, parts of Pos and symbols are numbered in strictly ascending order, and the numbering is the same for any order of the training tokens if one label is more frequent than every other; with a tie the order of the documents decides.", "quantifier": "all datasets and all reorderings of their tokens", "why_tests_cant": "quantifies over all permutations of a dataset", "anchors": ["babylondigger/features/extractors.py:_id2obj", "babylondigger/features/extractors.py:PosDictFeatureExtractorBuilder.build", "babylondigger/features/extractors.py:CachedSuffixRulesBuilder.build_rules"]}
{"id": "C75", "title": "Label 0 of a Pos part is the most frequent value", "statement": "For each part a Pos is split into, label 0 is the value most training tokens have, the first seen among equally frequent ones, although values are counted through the counts of whole labels.", "quantifier": "all datasets and all ways to split", "why_tests_cant": "two-stage counting over all multisets of labels", "anchors": ["babylondigger/features/extractors.py:_count_parts", "babylondigger/features/extractors.py:PosDictFeatureExtractorBuilder.build"]}
{"id": "C76", "title": "Pretrained vectors are in the matrices after initialization", "statement": "After Model.initialize of a network whose first initializer is the global one, every row for which a vector was given contains this vector and every other row has its initial contents, whatever the session contained before; initialization fails exactly if the vectors of some matrix are missing or empty.", "quantifier": "all networks, all vectors, all states of the session", "why_tests_cant": "quantifies over all sequences of initializers and all states", "anchors": ["babylondigger/neural/initializers.py:MatrixInitializer.initialize", "babylondigger/neural/model.py:Model.initialize"]}
{"id": "C77", "title": "A built network feeds what its parts read", "statement": "MultitaskNetworkBuilder.build calls shared part and tasks one after another; if they use different names, every placeholder a part is built on is an input or gold of the network under its name and every output can be fetched; the global initializer comes first.", "quantifier": "all shared builders, all lists of task builders", "why_tests_cant": "the parts are arbitrary", "anchors": ["babylondigger/neural/network.py:MultitaskNetworkBuilder.build", "babylondigger/neural/tagger/task_builders.py:LemmaSuffixBinaryTaskNetworkBuilder"]}
{"id": "C78", "title": "Saved models are tested in the order of the epochs", "statement": "PretrainedTaggerTrainer tests every saved model exactly once, in the order in which the models were saved.", "quantifier": "all directories, all numbers of epochs, all testers", "why_tests_cant": "needs more epochs than any test trains", "anchors": ["babylondigger/neural/tagger/neural_tagger.py:PretrainedTaggerTrainer.train"]}
{"id": "C79", "title": "The feature providers of a network can be asked for again", "statement": "MultitaskNetworkBuilder.feature_providers returns the providers of the shared part and of all tasks, however often it is called.", "quantifier": "all builders", "why_tests_cant": "aliasing of a list kept by the shared builder", "anchors": ["babylondigger/neural/network.py:MultitaskNetworkBuilder.feature_providers"]}
{"id": "C80", "title": "Perfect predictions score 1 against a gold file", "statement": "If a tagger's output has the annotations that the gold file gives, FileTaggerTester reports 1 for every metric.", "quantifier": "all gold files, all taggers", "why_tests_cant": "the gold file is loaded directly but predictions go through reader, data model and writer; needs all files", "anchors": ["babylondigger/evaluation/evaluation.py:FileTaggerTester", "babylondigger/evaluation/conllu_io.py:CoNLLUWriter"]}
{"id": "C81", "title": "Tagging with the gold labels gives the gold morphology", "statement": "If the network predicts for every sentence exactly the labels that the same sentence of a training document has, NeuralTagger gives every token what its labels were made from: the Pos up to the order of features, the lemma, the lower-cased lemma when its transformation rule is frequent enough, the frequent symbols of the lemma up to the label length.", "quantifier": "all training sets, all label configurations with distinct names, all training documents", "why_tests_cant": "ties together vocabularies, label extractors, merging, padding, interpreters and document rebuilding; round trips through all of them for all configurations", "anchors": ["babylondigger/neural/tagger/neural_tagger.py:NeuralTagger.tag", "babylondigger/features/extractors.py:PosDictFeatureExtractorBuilder", "babylondigger/features/provider.py:FeatureExtractorBuilderProvider"]}
{"id": "C82", "title": "A configuration sets up extractors and a network that fit together", "statement": "Whatever neural_tagger.py sets up from a configuration and a training set: for every batch of segmentable sentences the features are extracted and fed to exactly the inputs of the network, with the shapes of its placeholders, ids below the numbers of rows of the matrices they are looked up in and masks as wide as the logits; for batches of training sentences the labels are fed as well, below the numbers of classes; the initial values fill the rows of the matrices with the vectors of the configured files.", "quantifier": "all configurations, training sets, batches, sparsification rates and random draws", "why_tests_cant": "shapes and vocabulary sizes depend on the data and on any combination of features and tasks", "anchors": ["babylondigger/neural/tagger/neural_tagger.py:NeuralTaggerTrainer.train", "babylondigger/features/provider.py", "babylondigger/neural/tagger/shared_builders.py", "babylondigger/neural/tagger/task_builders.py"]}
{"id": "C83", "title": "Every task that has a name in the configuration can be trained", "statement": "For each key of _task_builders there is a network: a complete configuration with this task is set up.", "quantifier": "all configurations and training sets", "why_tests_cant": "no test builds every combination", "anchors": ["babylondigger/neural/tagger/network_provider.py:_task_builders", "babylondigger/neural/tagger/task_builders.py:LemmaSuffixBinaryTaskNetworkBuilder"]}
{"id": "C84", "title": "The tdozat wrapper gives every token the prediction made for it", "statement": "Whatever batches the dataset is cut into and in whatever order they come, TDozatDocumentProcessor.process gives every token lemma, Pos, features, head, relation and extra fields that the network predicted for its position in its sentence; text, words and sentences are kept.", "quantifier": "all lists of documents, all networks, batches, numberings and extra fields", "why_tests_cant": "needs many documents, sentences and batch orders; alignment errors show only when predictions differ", "anchors": ["babylondigger/wrappers/tdozat.py:TDozatDocumentProcessor.process", "babylondigger/wrappers/tdozat.py:_DocumentDataset.itersents"]}
{"id": "C85", "title": "A failed call of the tdozat wrapper leaves no trace", "statement": "After TDozatDocumentProcessor.process raised, later calls give the same documents as if it had not been called.", "quantifier": "all networks, documents and orders of calls", "why_tests_cant": "state kept between calls", "anchors": ["babylondigger/wrappers/tdozat.py:TDozatDocumentProcessor.process"]}
{"id": "C86", "title": "The session of the tdozat wrapper is closed and needed", "statement": "Outside of a with statement process raises RuntimeError; a with statement leaves no session open.", "quantifier": "all sequences of entering, processing and exiting, failing or not", "why_tests_cant": "resource leaks on failing paths", "anchors": ["babylondigger/wrappers/tdozat.py:TDozatDocumentProcessor.__enter__", "babylondigger/wrappers/tdozat.py:TDozatDocumentProcessor.__exit__"]}
{"id": "C87", "title": "Extra fields of the tdozat wrapper are the outputs they name", "statement": "Every extra field is the output at the end of its path, ValueError is raised exactly when some path leads nowhere, and extra_fields takes precedence over the flags of TDozatParser and TDozatTagger.", "quantifier": "all outputs, paths and flags", "why_tests_cant": "needs all shapes of nested outputs", "anchors": ["babylondigger/wrappers/tdozat.py:TDozatDocumentProcessor.__init__", "babylondigger/wrappers/tdozat.py:TDozatParser", "babylondigger/wrappers/tdozat.py:TDozatTagger"]}
{"id": "C88", "title": "A lazily loaded tagger holds its session exactly while it is in use", "statement": "LazyNeuralTagger.tag opens a session with the first document asked for and has closed it when it ends, raises or is closed, also if loading fails; taggers and trainers used in turn do not disturb each other.", "quantifier": "all sequences of creating, advancing, closing and throwing into any number of generators, with any failures", "why_tests_cant": "leaks occur on failing and interleaved paths", "anchors": ["babylondigger/neural/tagger/neural_tagger.py:LazyNeuralTagger.tag", "babylondigger/neural/tagger/neural_tagger.py:NeuralTagger.load", "babylondigger/neural/model.py:Model.load"]}
{"id": "C89", "title": "Files are closed after use", "statement": "A file opened by CoNLLUReader.read_from_file or by load_conllu_file is closed when the reader ends or is closed, or when the file was read.", "quantifier": "all sequences of calls on any number of readers", "why_tests_cant": "a leaked file has no visible effect on results", "anchors": ["babylondigger/evaluation/conllu_io.py:CoNLLUReader.read_from_file", "babylondigger/evaluation/conll17_ud_eval.py:load_conllu_file"]}
{"id": "C90", "title": "A sentence gets the same labels in a batch as alone", "statement": "What the network predicts for the words of a sentence does not depend on the other sentences of the batch.", "quantifier": "all networks (features, aggregators, encoders, tasks, parameters), all batches", "why_tests_cant": "depends on the lengths of other words and sentences and on the parameters", "anchors": ["babylondigger/neural/utils.py:subword_average", "babylondigger/neural/utils.py:subword_cnn", "babylondigger/neural/utils.py:bilstm_layer", "babylondigger/neural/tagger/shared_builders.py", "babylondigger/neural/tagger/task_builders.py"]}
{"id": "C91", "title": "Which words a prediction depends on", "statement": "With WE_charCNN the labels of a word depend on that word only, with Dilated_CNN on the words in the window of the stacked convolutions if it ends inside of the sentence; apart from the length of the longest word of the batch, on which features of subwords and lemma_combo depend as well.", "quantifier": "all networks without BiLSTM, all pairs of batches with equally long longest words and of sentences in them that agree in the window", "why_tests_cant": "quantifies over all parameters and sentences", "anchors": ["babylondigger/neural/utils.py:apply_conv_layer", "babylondigger/neural/tagger/shared_builders.py:DilatedCNNSharedNetworkBuilder"]}
{"id": "C92", "title": "The loss of a batch is the mean over its words", "statement": "The padding of shorter sentences does not count, every word counts the same, the parts of a label count with their weights.", "quantifier": "all batches, logits, cross entropies and weights", "why_tests_cant": "padding and masking errors show for particular lengths only", "anchors": ["babylondigger/neural/tagger/task_builders.py:DenseTaskNetworkBuilder._loss", "babylondigger/neural/tagger/task_builders.py:LemmaCOMBOTaskNetworkBuilder._loss", "babylondigger/neural/tagger/task_builders.py:LemmaSuffixBinaryTaskNetworkBuilder._loss", "babylondigger/neural/tagger/shared_builders.py:WECharCNNSharedNetworkBuilder.build"]}
{"id": "C93", "title": "A suffix tagger chooses the best rule that applies", "statement": "The rule predicted for a word is the first of the best rated among those that apply to it, and the lemma is what that rule makes of the word; if none applies, it is the most frequent rule.", "quantifier": "all networks, rules, words and logits above the lowest number", "why_tests_cant": "needs all masks and logits", "anchors": ["babylondigger/neural/tagger/task_builders.py:LemmaSuffixTaskNetworkBuilder._logits", "babylondigger/features/extractors.py:SuffixTransformationInterpreter"]}
{"id": "C94", "title": "In training the gold rule of a word is among those the network may choose", "statement": "The label of a training word for lemma_suffix is not masked out.", "quantifier": "all training sets and thresholds", "why_tests_cant": "depends on frequencies in the training set", "anchors": ["babylondigger/features/extractors.py:SuffixTransformationFeatureExtractor", "babylondigger/neural/tagger/task_builders.py:LemmaSuffixTaskNetworkBuilder._logits"]}
{"id": "C95", "title": "The models tested at the end of an experiment are those with the best dev scores", "statement": "After an experiment without an error the test scores reported are those of the best epoch of each run of the best hyperparameters, although models were saved, deleted and loaded again in between.", "quantifier": "all hyperparameters, seeds, numbers of epochs, trained models, scores and files present before", "why_tests_cant": "models overwritten or deleted too early show for particular orders of scores only", "anchors": ["babylondigger/evaluation/evaluation.py:main", "babylondigger/evaluation/evaluation.py:SingleSeedEvaluator", "babylondigger/evaluation/evaluation.py:AverageEvaluator", "babylondigger/evaluation/evaluation.py:ParametersEstimator", "babylondigger/neural/tagger/neural_tagger.py:NeuralTaggerTrainer.train"]}
{"id": "C96", "title": "delete_after removes exactly what an experiment made", "statement": "With delete_after an experiment leaves nothing behind but predictions and touches no other file that was there before; without it nothing is removed.", "quantifier": "all settings, methods, outcomes and files present before", "why_tests_cant": "depends on what is on disk and on where an exception is raised", "anchors": ["babylondigger/evaluation/evaluation.py:main", "babylondigger/evaluation/evaluation.py:__build_estimator"]}
{"id": "C97", "title": "An experiment can be run with every method offered", "statement": "For each name of trainer_names an experiment with suitable settings ends without an error; other names are refused before anything is done.", "quantifier": "all settings, hyperparameters, seeds and files present before", "why_tests_cant": "some methods fail for all settings, others for combinations of them", "anchors": ["babylondigger/evaluation/trainers.py:get_trainer", "babylondigger/evaluation/evaluation.py:main", "babylondigger/tagger.py:StubTaggerTrainer", "babylondigger/neural/tagger/neural_tagger.py:PretrainedTaggerTrainer"]}
{"id": "C98", "title": "Predictions of an experiment are kept apart", "statement": "After an experiment without an error, with different seeds and a directory for results that is not deleted with the models, the predictions of every epoch of every run, and the test predictions of the best epochs, are in files of their own.", "quantifier": "all experiments that train without an error", "why_tests_cant": "names built from several numbers could clash", "anchors": ["babylondigger/evaluation/evaluation.py:SingleSeedEvaluator.evaluate", "babylondigger/evaluation/evaluation.py:TaggerTester.test"]}
{"id": "C99", "title": "Encoders, features and tasks can be combined freely", "statement": "A network can be built from any features, encoder and tasks that work separately, if the layer that each task starts from exists and has a suitable size.", "quantifier": "all configurations of features, encoders and tasks, all sizes", "why_tests_cant": "names of variables clash and sizes disagree for particular combinations only", "anchors": ["babylondigger/neural/network.py:MultitaskNetworkBuilder.build", "babylondigger/neural/tagger/shared_builders.py:CharCNNBiLSTMCNNSharedNetworkBuilder.build", "babylondigger/neural/tagger/task_builders.py:LemmaCOMBOTaskNetworkBuilder._logits", "babylondigger/neural/utils.py:apply_conv_layer", "babylondigger/neural/utils.py:sent_level_cnn"]}
{"id": "C100", "title": "Layers take what the layers before them give", "statement": "In every network that is built each dense, recurrent and convolutional layer has weights from the size of the layer it starts from to its own size, the last layer of a part of a label has as many outputs as there are labels, and no two variables share a name.", "quantifier": "all configurations of features, encoders and tasks, all sizes", "why_tests_cant": "weights of a wrong size or shared by accident show only for particular configurations", "anchors": ["babylondigger/neural/utils.py:apply_conv_layer", "babylondigger/neural/utils.py:bilstm_layer", "babylondigger/neural/utils.py:highway", "babylondigger/neural/tagger/shared_builders.py:WECharCNNSharedNetworkBuilder.build", "babylondigger/neural/tagger/task_builders.py:DenseTaskNetworkBuilder._logits", "babylondigger/neural/tagger/task_builders.py:LemmaCOMBOTaskNetworkBuilder._logits"]}
{"id": "C101", "title": "A file of weights is read line by line", "statement": "A file of weights is accepted if and only if every line that neither begins with # nor is blank has two columns, the second one a number; the weight of a relation is the one of its last line; otherwise ValueError is raised.", "quantifier": "all texts, all ways to read numbers", "why_tests_cant": "depends on white space, comments and repeated lines", "anchors": ["babylondigger/evaluation/conll17_ud_eval.py:load_deprel_weights"]}
{"id": "C102", "title": "The weight of a relation is the weight of its words", "statement": "In the weighted score every word counts with the weight that the file of weights gives for its relation, and with 1 if it gives none.", "quantifier": "all pairs of loadable files, all weights", "why_tests_cant": "relations are cut at the colon in one place and not in the other", "anchors": ["babylondigger/evaluation/conll17_ud_eval.py:load_deprel_weights", "babylondigger/evaluation/conll17_ud_eval.py:load_conllu", "babylondigger/evaluation/conll17_ud_eval.py:evaluate"]}
{"id": "C103", "title": "The weighted score generalises LAS and CLAS", "statement": "With weight 1 for all relations that occur the weighted score is LAS, with weight 0 for functional and 1 for other relations it is CLAS; weights change no other metric.", "quantifier": "all pairs of loadable files, all weights", "why_tests_cant": "an error shows only for weights that differ from those tried", "anchors": ["babylondigger/evaluation/conll17_ud_eval.py:evaluate", "babylondigger/evaluation/conll17_ud_eval.py:CLAS_weights"]}
{"id": "C104", "title": "Only the proportions of weights matter", "statement": "Multiplying all weights of a file of weights by the same number other than 0 does not change the weighted score.", "quantifier": "all pairs of loadable files, all weights", "why_tests_cant": "relations without a weight have a weight of their own", "anchors": ["babylondigger/evaluation/conll17_ud_eval.py:evaluate"]}
{"id": "C105", "title": "Scores that are printed are percentages", "statement": "Every number of the printed table lies between 0 and 100.", "quantifier": "all files, all weights, all ways to print numbers", "why_tests_cant": "negative weights are accepted", "anchors": ["babylondigger/evaluation/conll17_ud_eval.py:main", "babylondigger/evaluation/conll17_ud_eval.py:load_deprel_weights"]}
{"id": "C106", "title": "The script prints what was computed", "statement": "The script prints something if and only if the files can be read and have the same characters: the LAS F1 score, or, with weights or if asked to, a table with one row for each metric in a fixed order, the weighted score last and only with weights; each row shows 100 times the precision, recall, F1 and aligned accuracy of its metric. Without negative weights the bars of the rows stand below those of the title.", "quantifier": "all files and command lines, all ways to print numbers", "why_tests_cant": "a metric that is missing or a cell in a wrong place shows for some settings only", "anchors": ["babylondigger/evaluation/conll17_ud_eval.py:main", "babylondigger/evaluation/conll17_ud_eval.py:evaluate_wrapper"]}
{"id": "C107", "title": "A file compared with itself is printed as perfect", "statement": "If the gold file is given as system file too, all rows of the table show 100, except for metrics that count nothing in the file, which show 0.", "quantifier": "all loadable files, all weights, all ways to print numbers", "why_tests_cant": "metrics that count nothing are special", "anchors": ["babylondigger/evaluation/conll17_ud_eval.py:main", "babylondigger/evaluation/conll17_ud_eval.py:evaluate"]}
{"id": "C108", "title": "A saved tagger is loaded as it was", "statement": "If saving a tagger raises nothing, loading from the same path gives a tagger with the same extractor, interpreter, network, graph and values of variables, which predicts the same; saving raises nothing if nothing is in the way and all variables have values.", "quantifier": "all taggers, file systems and paths, all formats in which what is written can be read", "why_tests_cant": "what was at the path before, the directory the program is in and the kind of network vary", "anchors": ["babylondigger/neural/tagger/neural_tagger.py:NeuralTagger.save", "babylondigger/neural/tagger/neural_tagger.py:NeuralTagger.load", "babylondigger/neural/model.py:Model.save", "babylondigger/neural/model.py:Model.load"]}
{"id": "C109", "title": "Saving a tagger leaves others alone", "statement": "Saving to a path, even if it is interrupted, does not change what is loaded from another path; after training the tagger of every epoch is loaded as it was after that epoch.", "quantifier": "all taggers, file systems and paths, all numbers of epochs", "why_tests_cant": "an error shows only for several epochs and after training went on", "anchors": ["babylondigger/neural/tagger/neural_tagger.py:NeuralTagger.save", "babylondigger/neural/tagger/neural_tagger.py:NeuralTaggerTrainer.train", "babylondigger/neural/model.py:Model.save"]}
{"id": "C110", "title": "An interrupted saving leaves nothing that can be loaded by mistake", "statement": "If saving is interrupted at any point, then what is loaded from the path afterwards, if anything, is a tagger that was saved there as a whole.", "quantifier": "all taggers, file systems and paths, all points of interruption", "why_tests_cant": "interruptions between two files are rare", "anchors": ["babylondigger/neural/tagger/neural_tagger.py:NeuralTagger.save", "babylondigger/neural/model.py:Model.save"]}
{"id": "C111", "title": "Pretrained models are those of the last training", "statement": "After training with a model directory the taggers tested by PretrainedTaggerTrainer for this directory are those of this training.", "quantifier": "all taggers, file systems and paths, all numbers of epochs", "why_tests_cant": "depends on what earlier trainings left", "anchors": ["babylondigger/neural/tagger/neural_tagger.py:PretrainedTaggerTrainer.train", "babylondigger/neural/tagger/neural_tagger.py:NeuralTaggerTrainer.train"]}
{"id": "C112", "title": "A grid search reports a combination of the grid", "statement": "If a grid search ends without an error, the reported hyperparameters are the base with one alternative of each key of the grid, no model is left and all files but the results of the testers are as before.", "quantifier": "all settings, trainings, file systems and methods; accepted grids whose alternatives only have paths of the base and dictionaries where it has them", "why_tests_cant": "the combinations are shared objects and the search replaces the best one many times", "anchors": ["babylondigger/evaluation/grid_eval.py:main", "babylondigger/evaluation/evaluation.py:main"]}
{"id": "C113", "title": "Hyperparameters get the same scores alone and among others", "statement": "The reported hyperparameters of a search get the same scores in an experiment of their own, and no others of the search get better ones.", "quantifier": "all settings, hyperparameters, grids and trainings that only look at values", "why_tests_cant": "all trainings of a search share a data set, so an effect of one on the next shows only in long searches", "anchors": ["babylondigger/evaluation/evaluation.py:main", "babylondigger/evaluation/evaluation.py:__build_dataset", "babylondigger/evaluation/dataset.py:ShuffledDataset.__iter__", "babylondigger/evaluation/grid_eval.py:main"]}
{"id": "C114", "title": "Mistakes in the settings are found before anything is trained", "statement": "If something that is needed is missing in the settings, an experiment ends with an error and without having changed a file.", "quantifier": "all settings, hyperparameters, grids and file systems", "why_tests_cant": "each key would have to be left out once, and trainings are long", "anchors": ["babylondigger/evaluation/evaluation.py:main", "babylondigger/evaluation/evaluation.py:__build_estimator", "babylondigger/evaluation/evaluation.py:__build_tester", "babylondigger/evaluation/evaluation.py:__build_dataset"]}
{"id": "C115", "title": "Repeating an experiment gives the same results", "statement": "Two experiments with the same settings, hyperparameters and data report the same hyperparameters and scores.", "quantifier": "all settings, hyperparameters and trainings, all times and file systems, with and without deleting models", "why_tests_cant": "differences are rare if they only depend on the time", "anchors": ["babylondigger/evaluation/evaluation.py:main", "babylondigger/evaluation/evaluation.py:__build_dataset", "babylondigger/evaluation/dataset.py:ShuffledDataset.__init__"]}
{"id": "C116", "title": "Predictions are made without dropout", "statement": "When a network predicts, the dropout probability has its default 1 and the network computes what it would compute without dropout, whatever the random numbers; in a training step it is the dropout of the settings.", "quantifier": "all networks of the four encoders and the task builders, all batches, weights and random numbers", "why_tests_cant": "a value dropped in a prediction changes few answers and not always the same ones", "anchors": ["babylondigger/neural/network.py:MultitaskNetworkBuilder.build", "babylondigger/neural/network.py:NeuralNetwork.get_feed_dict", "babylondigger/neural/tagger/neural_tagger.py:_train_epoch"]}
{"id": "C117", "title": "Dropout acts behind every layer that is given its probability", "statement": "In a training step values are dropped at random behind every layer whose builder is given the dropout probability.", "quantifier": "all networks of the four encoders and the task builders, all batches, weights, probabilities and random numbers", "why_tests_cant": "results of trainings with and without a dropout somewhere differ only statistically", "anchors": ["babylondigger/neural/utils.py:bilstm_layer", "babylondigger/neural/tagger/shared_builders.py:CharCNNBiLSTMSharedNetworkBuilder.build", "babylondigger/neural/tagger/shared_builders.py:DilatedCNNSharedNetworkBuilder.build", "babylondigger/neural/tagger/task_builders.py:LemmaCOMBOTaskNetworkBuilder._logits"]}
{"id": "C118", "title": "The setting dropout is the share of values that are left out in training", "statement": "With dropout d, a share d of the values is left out in training and values stay what they are on average; 0 switches dropout off.", "quantifier": "all probabilities, values and equally likely random numbers", "why_tests_cant": "it is random which values are left out, and 0.5 reads the same both ways", "anchors": ["babylondigger/neural/tagger/neural_tagger.py:_train_epoch", "babylondigger/neural/tagger/shared_builders.py:CharCNNBiLSTMSharedNetworkBuilder.build"]}
{"id": "C119", "title": "The gradient of a training step is at most 5 long", "statement": "The gradients with which the variables are changed in a step point in the direction of the gradients of the loss and have a length of at most 5 together; shorter ones are not changed.", "quantifier": "all gradients, of any variables, with any number of look-ups", "why_tests_cant": "lengths are not printed, and the loss goes down all the same", "anchors": ["babylondigger/neural/network.py:MultitaskNetworkBuilder._optimizer"]}
{"id": "C120", "title": "Embeddings that are set not to be trained stay as they are", "statement": "If 'trainable' of a feature is false, training does not change its embeddings.", "quantifier": "all features with embeddings, optimizers, numbers of steps and gradients", "why_tests_cant": "small changes of some rows of a large matrix are not seen in the results", "anchors": ["babylondigger/neural/utils.py:embedding_layer", "babylondigger/neural/utils.py:subwords_features_builder", "babylondigger/neural/tagger/task_builders.py:LemmaCOMBOTaskNetworkBuilder._get_char_embeddings", "babylondigger/neural/network.py:MultitaskNetworkBuilder._optimizer"]}
{"id": "C121", "title": "A training step changes only the embeddings of words in its batch", "statement": "The rows of an embedding that no word of a batch looks up are the same after its step.", "quantifier": "all optimizers, variables, numbers of steps and gradients", "why_tests_cant": "small changes of some rows of a large matrix are not seen in the results", "anchors": ["babylondigger/neural/network.py:MultitaskNetworkBuilder._optimizer", "babylondigger/neural/tagger/neural_tagger.py:_train_epoch"]}
{"id": "C122", "title": "Trees of any depth can be loaded for evaluation", "statement": "load_conllu loads every file whose sentences are trees with a single root, whatever python's recursion limit is.", "quantifier": "all files of well-formed trees, all recursion limits", "why_tests_cant": "sentences that need a thousand nested calls are rare, and the result is an error of python, not of the script", "anchors": ["babylondigger/evaluation/conll17_ud_eval.py:load_conllu"]}
{"id": "C123", "title": "A gold file is scored like the documents read from it", "statement": "For a gold file that the reader and the script accept, FileTaggerTester on the file and DataSetTaggerTester on the documents read from it report the same scores for a tagger, or fail with the same exception.", "quantifier": "all gold files that are accepted, all taggers, with and without saved results", "why_tests_cant": "two readers of the same format, one of them followed by a writer; needs all files, with comments, ranges, line ends and unused columns", "anchors": ["babylondigger/evaluation/evaluation.py:FileTaggerTester", "babylondigger/evaluation/evaluation.py:DataSetTaggerTester", "babylondigger/evaluation/conllu_io.py:CoNLLUReader", "babylondigger/evaluation/conllu_io.py:CoNLLUWriter", "babylondigger/evaluation/conll17_ud_eval.py:load_conllu", "babylondigger/evaluation/conll17_ud_eval.py:evaluate"]}
{"id": "C124", "title": "A training step moves the numbers against their gradients", "statement": "A step lowers every number of the trained variables whose gradient is positive, raises those whose gradient is negative and leaves the others; with GD by the learning rate times the gradient, with one factor of at most 1 for all numbers.", "quantifier": "all optimizers, variables, gradients, learning rates and numbers of steps", "why_tests_cant": "single numbers of the network are not looked at", "anchors": ["babylondigger/neural/network.py:MultitaskNetworkBuilder._optimizer", "babylondigger/neural/tagger/neural_tagger.py:_train_epoch"]}
{"id": "C125", "title": "A document written to a file is read back as from a string", "statement": "Whatever comes back when documents are written to a string and read from it also comes back when they are written to a file and read from it.", "quantifier": "all documents for which the round trip over strings holds, all columns and limits", "why_tests_cant": "needs characters that encodings and line ends treat specially, in every field", "anchors": ["babylondigger/evaluation/conllu_io.py:CoNLLUWriter.write_to_file", "babylondigger/evaluation/conllu_io.py:CoNLLUReader.read_from_file"]}
{"id": "C126", "title": "Documents read from files can be written to a file", "statement": "Documents read from any files are written to a file without an encoding error, and the file reads, for the reader and for the script, as the string does that the writer makes of them.", "quantifier": "all files, documents, limits and columns that contain FEATS", "why_tests_cant": "needs all byte sequences that can be decoded, with all line ends", "anchors": ["babylondigger/evaluation/conllu_io.py:CoNLLUReader.read_from_file", "babylondigger/evaluation/conllu_io.py:CoNLLUWriter.write_to_file", "babylondigger/evaluation/conll17_ud_eval.py:load_conllu_file"]}
{"id": "C127", "title": "A write that fails leaves the file as it was", "statement": "If write_to_file raises, the file has the contents it had before.", "quantifier": "all previous contents, documents and columns", "why_tests_cant": "failures while writing are not tested", "anchors": ["babylondigger/evaluation/conllu_io.py:CoNLLUWriter.write_to_file", "babylondigger/evaluation/conllu_io.py:CoNLLUWriter._write"]}
{"id": "C128", "title": "A byte order mark at the start of a file does not matter", "statement": "The reader and the script read a file that begins with the byte order mark of UTF-8 as the file without it.", "quantifier": "all files that can be decoded, all limits and columns", "why_tests_cant": "needs all first lines; the mark is invisible in test data", "anchors": ["babylondigger/evaluation/conllu_io.py:CoNLLUReader.read_from_file", "babylondigger/evaluation/conll17_ud_eval.py:load_conllu_file"]}
{"id": "C129", "title": "Scores computed in floating point are the exact scores rounded once", "statement": "With the floating point numbers python computes with, every reported score lies between 0 and 1, F1 lies between precision and recall, and a file scores exactly 1 against itself; scores of the metrics that count words or spans are the exact fractions, rounded once to the nearest double, and so are those with whole weights whose sums do not exceed 2^53.", "quantifier": "all files, all weights that are not negative, every metric", "why_tests_cant": "the errors are in the last bit, tests compare with tolerance", "anchors": ["babylondigger/evaluation/conll17_ud_eval.py:Score", "babylondigger/evaluation/conll17_ud_eval.py:spans_score", "babylondigger/evaluation/conll17_ud_eval.py:alignment_score", "babylondigger/evaluation/conll17_ud_eval.py:evaluate"]}
{"id": "C130", "title": "Floating point does not change which model is better", "statement": "Comparing the sums of the reported floating point scores of two models gives the same answer as comparing the sums of the exact scores.", "quantifier": "all gold files and outputs, all sets of metrics, every attribute", "why_tests_cant": "needs scores that are nearly or exactly equal", "anchors": ["babylondigger/evaluation/evaluation.py:score_comparator", "babylondigger/evaluation/conll17_ud_eval.py:Score"]}
{"id": "C131", "title": "The average over seeds lies between the lowest and the highest score", "statement": "Each number calculate_average_scores computes from reported floating point scores lies between the lowest and the highest of the numbers it averages.", "quantifier": "all reported tables, any number of seeds, all metrics with aligned accuracy, every attribute", "why_tests_cant": "the errors are in the last bit and depend on the number of seeds", "anchors": ["babylondigger/evaluation/evaluation.py:calculate_average_scores"]}
{"id": "C132", "title": "The printed tables show the scores", "statement": "The table of get_metrics_printer has a line for each metric in the given order, up to the first one that is missing, where it raises KeyError; the table of the evaluation script has one for each metric. Each line shows the name and the four numbers in per cent with two digits after the point, off by at most half a hundredth and a rounding error, and the columns are aligned; a higher score is never printed as a lower number.", "quantifier": "all files, weights that are not negative, tables, lists of metrics whose names have no bar or white space", "why_tests_cant": "output on the screen is not tested; needs numbers between two hundredths", "anchors": ["babylondigger/evaluation/evaluation.py:get_metrics_printer", "babylondigger/evaluation/conll17_ud_eval.py:main"]}
{"id": "C133", "title": "100.00 stands for a perfect score and 0.00 for none", "statement": "A score is printed as 100.00 exactly if it is 1, and as 0.00 exactly if it is 0.", "quantifier": "all files, weights and metrics, every attribute", "why_tests_cant": "needs large files or very different weights", "anchors": ["babylondigger/evaluation/evaluation.py:get_metrics_printer", "babylondigger/evaluation/conll17_ud_eval.py:main", "babylondigger/evaluation/conll17_ud_eval.py:Score"]}
{"id": "C134", "title": "Options can be written in every notation and in any order", "statement": "Whatever values, switches and positional arguments are given to evaluation, grid_eval and the evaluation script, written apart or with =, in full or abbreviated as long as only one option begins so, short or long, in any order: the programs get exactly these, the last one if a value is given twice.", "quantifier": "all values and files, all abbreviations, all orders; without the argument --", "why_tests_cant": "command lines are not tested", "anchors": ["babylondigger/evaluation/evaluation.py:_build_parser", "babylondigger/evaluation/evaluation.py:_parse_arguments", "babylondigger/evaluation/grid_eval.py:__parse_arguments_with_grid", "babylondigger/evaluation/conll17_ud_eval.py:main"]}
{"id": "C135", "title": "A command line that is incomplete or wrong is refused with a usage message", "statement": "If an argument is missing that is needed, or one is given that is not known, the programs end with a usage message.", "quantifier": "all command lines of evaluation, grid_eval and the evaluation script", "why_tests_cant": "command lines are not tested", "anchors": ["babylondigger/evaluation/evaluation.py:_build_parser", "babylondigger/evaluation/evaluation.py:_parse_arguments", "babylondigger/evaluation/grid_eval.py:__parse_arguments_with_grid", "babylondigger/evaluation/conll17_ud_eval.py:main"]}
{"id": "C136", "title": "grid_eval understands the command lines of evaluation", "statement": "A command line that evaluation accepts is accepted by the parser of grid_eval, with the same values.", "quantifier": "all command lines", "why_tests_cant": "needs values that look like options", "anchors": ["babylondigger/evaluation/evaluation.py:_build_parser", "babylondigger/evaluation/grid_eval.py:__parse_arguments_with_grid"]}
{"id": "C137", "title": "Models are deleted exactly if --delete_after is given", "statement": "After evaluation or grid_eval ends without an error, the models are still there if --delete_after was not given, and nothing is left in the directory of models if it was.", "quantifier": "all command lines in the notations of C134, all settings, hyperparameters, grids and trainings", "why_tests_cant": "the programs are not run in tests; a grid search trains many models", "anchors": ["babylondigger/evaluation/evaluation.py:main", "babylondigger/evaluation/evaluation.py:_parse_arguments", "babylondigger/evaluation/grid_eval.py:main", "babylondigger/evaluation/grid_eval.py:__parse_arguments_with_grid"]}
