{
 "claims": [
  {
   "property": "C01",
   "status": "proved",
   "theorems": [
    "C01_tokens_never_overlap"
   ],
   "note": "Any token list with or without sentences, validated or not."
  },
  {
   "property": "C02",
   "status": "proved",
   "theorems": [
    "C02_sentences_tile",
    "C02_tilings_accepted"
   ],
   "note": "Both directions; the converse is an iff."
  },
  {
   "property": "C03",
   "status": "proved",
   "theorems": [
    "C03_input_order_irrelevant"
   ],
   "note": "Both fail or both return the same document."
  },
  {
   "property": "C04",
   "status": "partial",
   "theorems": [
    "C04_notations_interchangeable",
    "C04_both_views_present",
    "C04_contradiction_rejected_partial",
    "C04_contradiction_rejected_refuted"
   ],
   "note": "Interchangeability and presence of both views are proved in full. REFUTED: the clause 'an inconsistent pair is rejected' - (document head 1, sentence head -1) is accepted as a root. Proved for pairs in which neither index is -1."
  },
  {
   "property": "C05",
   "status": "proved",
   "theorems": [
    "C05_accepts_exactly_trees",
    "C05_check_terminates"
   ],
   "note": "Iff, and the outcome is acceptance or ValueError."
  },
  {
   "property": "C06",
   "status": "partial",
   "theorems": [
    "C06_head_outside_refuted",
    "C06_head_outside_partial"
   ],
   "note": "REFUTED: the head index sentence_start-1 becomes sentence index -1 and is accepted as a root. Every other outside index is rejected."
  },
  {
   "property": "C07",
   "status": "partial",
   "theorems": [
    "C07_rebuild_refuted",
    "C07_rebuild_partial",
    "C07_rebuild_normal_heads"
   ],
   "note": "REFUTED, even for validated documents. Exact condition proved (iff): -1 appears in both views or neither."
  },
  {
   "property": "C08",
   "status": "proved",
   "theorems": [
    "C08_setters_frame",
    "C08_setters_commute"
   ],
   "note": ""
  },
  {
   "property": "C09",
   "status": "partial",
   "theorems": [
    "C09_from_document_refuted",
    "C09_from_document_partial"
   ],
   "note": "REFUTED: from_document(d, []) returns an empty document. Proved for every non-empty token list."
  },
  {
   "property": "C10",
   "status": "proved",
   "theorems": [
    "C10_token_index",
    "C10_token_walk",
    "C10_sentence_index",
    "C10_sentence_walk"
   ],
   "note": ""
  },
  {
   "property": "C11",
   "status": "proved",
   "theorems": [
    "C11_head_reaches_root"
   ],
   "note": ""
  },
  {
   "property": "C12",
   "status": "proved",
   "theorems": [
    "C12_sentence_views"
   ],
   "note": ""
  },
  {
   "property": "C13",
   "status": "partial",
   "theorems": [
    "C13_numbering_refuted",
    "C13_numbering_partial"
   ],
   "note": "REFUTED: the sub_index of the very first token is never checked. Proved for every other group and for the first one when it starts with 0."
  },
  {
   "property": "C14",
   "status": "partial",
   "theorems": [
    "C14_token_equality_refuted",
    "C14_token_equality_partial",
    "C14_token_equality_equivalence"
   ],
   "note": "REFUTED: __eq__ compares other._head_sentence_index with itself, so sentence heads are ignored. Proved: == is exactly equality of all other fields, and an equivalence relation."
  },
  {
   "property": "C15",
   "status": "proved",
   "theorems": [
    "C15_equality_hash_order",
    "C15_trichotomy",
    "C15_transitive"
   ],
   "note": "Hash is any function of the hashed tuple."
  },
  {
   "property": "C16",
   "status": "partial",
   "theorems": [
    "C16_order_total_refuted",
    "C16_order_total_partial"
   ],
   "note": "REFUTED: None against str raises TypeError. Exact condition proved (iff), and no other exception is possible."
  },
  {
   "property": "C17",
   "status": "partial",
   "theorems": [
    "C17_str_refuted",
    "C17_str_partial"
   ],
   "note": "REFUTED: str of a document without tokens raises IndexError. Proved for every document with tokens."
  },
  {
   "property": "C18",
   "status": "proved",
   "theorems": [
    "C18_reader_faithful",
    "C18_slices"
   ],
   "note": "Every yielded document, whether or not the reader later stops with an error."
  },
  {
   "property": "C19",
   "status": "proved",
   "theorems": [
    "C19_chunks",
    "C19_limit_only_regroups",
    "C19_heads_hypothesis_needed"
   ],
   "note": "Well-formed means accepted with one limit and no negative HEAD; the third theorem shows a negative HEAD can be accepted with one limit and rejected with another."
  },
  {
   "property": "C20",
   "status": "proved",
   "theorems": [
    "C20_round_trip",
    "C20_round_trip_many",
    "C20_reader_documents"
   ],
   "note": "reader_normal is spelled out in Spec_Conllu; C20_reader_documents shows the reader produces such documents."
  },
  {
   "property": "C21",
   "status": "partial",
   "theorems": [
    "C21_written_once_refuted",
    "C21_written_once_partial",
    "C21_groups"
   ],
   "note": "REFUTED: a multiword token ending a sentence is written again at the start of the next sentence of the document. Proved for documents where only the last sentence may end with a multiword token."
  },
  {
   "property": "C22",
   "status": "partial",
   "theorems": [
    "C22_spacing_refuted",
    "C22_leading_space_refuted",
    "C22_spacing_partial"
   ],
   "note": "REFUTED: SpaceAfter=No on the last word is lost, and a FORM beginning with whitespace after SpaceAfter=No gains a space. Proved for all other yielded documents that can be written, any columns."
  },
  {
   "property": "C23",
   "status": "partial",
   "theorems": [
    "C23_reader_columns",
    "C23_writer_fails_refuted",
    "C23_writer_head_refuted",
    "C23_writer_partial",
    "C23_writer_output_partial",
    "C23_writer_cells_partial"
   ],
   "note": "Reader half proved in full. REFUTED for the writer: without FEATS it raises TypeError on tagged tokens, and without HEAD it writes invented heads. Exact failure condition and all other columns proved."
  },
  {
   "property": "C24",
   "status": "partial",
   "theorems": [
    "C24_empty_node_refuted",
    "C24_comments",
    "C24_empty_node_partial"
   ],
   "note": "REFUTED: an empty node inside a range is taken for a word of the range. Comments proved in full; empty nodes proved outside ranges."
  },
  {
   "property": "C25",
   "status": "partial",
   "theorems": [
    "C25_loads_written_refuted",
    "C25_loads_written_partial"
   ],
   "note": "REFUTED: a token made of spaces is written with an empty-looking FORM, which load_conllu refuses. Proved for all other documents with clean fields (no tab or line break), including the exact columns and parents that are loaded."
  },
  {
   "property": "C26",
   "status": "proved",
   "theorems": [
    "C26_links_trees",
    "C26_accepts_trees",
    "C26_parents"
   ],
   "note": "Per sentence for arbitrary previous words, and for whole files. Python's recursion limit is not modelled."
  },
  {
   "property": "C27",
   "status": "proved",
   "theorems": [
    "C27_spans_tile",
    "C27_faithful"
   ],
   "note": ""
  },
  {
   "property": "C28",
   "status": "proved",
   "theorems": [
    "C28_counts_common_spans",
    "C28_swap"
   ],
   "note": "Scores are exact rationals, python computes in floats."
  },
  {
   "property": "C29",
   "status": "proved",
   "theorems": [
    "C29_aligns",
    "C29_matching",
    "C29_plain"
   ],
   "note": "For words with non-empty spans, which is what load_conllu produces (C27). str.lower is an arbitrary function."
  },
  {
   "property": "C30",
   "status": "proved",
   "theorems": [
    "C30_longest"
   ],
   "note": "str.lower is an arbitrary function."
  },
  {
   "property": "C31",
   "status": "proved",
   "theorems": [
    "C31_well_formed",
    "C31_meaning"
   ],
   "note": "Scores are exact rationals, python computes in floats."
  },
  {
   "property": "C32",
   "status": "proved",
   "theorems": [
    "C32_self_perfect"
   ],
   "note": ""
  },
  {
   "property": "C33",
   "status": "proved",
   "theorems": [
    "C33_plain_accuracy"
   ],
   "note": ""
  },
  {
   "property": "C34",
   "status": "proved",
   "theorems": [
    "C34_refuses_other_text"
   ],
   "note": "The text of the error message is not modelled."
  },
  {
   "property": "C35",
   "status": "proved",
   "theorems": [
    "C35_rule_reproduces",
    "C35_transform"
   ],
   "note": ""
  },
  {
   "property": "C36",
   "status": "proved",
   "theorems": [
    "C36_trie_exact",
    "C36_longest_known_exists"
   ],
   "note": ""
  },
  {
   "property": "C37",
   "status": "partial",
   "theorems": [
    "C37_offered_applicable",
    "C37_complete_refuted",
    "C37_complete_exception_refuted",
    "C37_offered_partial"
   ],
   "note": "REFUTED: a regular rule whose suffix is the whole word, and an exception shorter than the longest known suffix, are applicable but not offered. Soundness and the exact set of offered rules are proved."
  },
  {
   "property": "C38",
   "status": "partial",
   "theorems": [
    "C38_exception_whole_word_refuted",
    "C38_exception_whole_word_partial",
    "C38_exception_origin_partial"
   ],
   "note": "REFUTED: the exception learned from go is offered for forgo. Proved for words that are known as a whole."
  },
  {
   "property": "C39",
   "status": "proved",
   "theorems": [
    "C39_gold_selectable",
    "C39_vocabulary",
    "C39_builds",
    "C39_mask"
   ],
   "note": "Lower-casing is an arbitrary function. The cache of CachedSuffixRulesBuilder is not modelled."
  },
  {
   "property": "C40",
   "status": "proved",
   "theorems": [
    "C40_interpret_total"
   ],
   "note": ""
  },
  {
   "property": "C41",
   "status": "proved",
   "theorems": [
    "C41_label_list",
    "C41_inverse",
    "C41_counts",
    "C41_total"
   ],
   "note": ""
  },
  {
   "property": "C42",
   "status": "partial",
   "theorems": [
    "C42_split_combine_refuted",
    "C42_split_combine_partial"
   ],
   "note": "REFUTED for pos_gran: a feature named UPOS or XPOS overwrites the tag in the split dictionary. Proved for all strategies otherwise."
  },
  {
   "property": "C43",
   "status": "partial",
   "theorems": [
    "C43_labels_round_trip_refuted",
    "C43_labels_round_trip_partial",
    "C43_predictions"
   ],
   "note": "REFUTED for pos_gran with a feature named UPOS or XPOS. Proved otherwise, and every prediction in range is interpreted."
  },
  {
   "property": "C44",
   "status": "partial",
   "theorems": [
    "C44_builds_refuted",
    "C44_builds_partial",
    "C44_needs_tokens"
   ],
   "note": "REFUTED for pos_joint and pos_XF: missing and present XPOS cannot be sorted. Proved when tags are sortable, always for pos_UXF and pos_gran."
  },
  {
   "property": "C45",
   "status": "proved",
   "theorems": [
    "C45_label",
    "C45_round_trip",
    "C45_predictions",
    "C45_subword_segments"
   ],
   "note": "The segmenter is any function; the BPE encoder is an arbitrary function."
  },
  {
   "property": "C46",
   "status": "partial",
   "theorems": [
    "C46_unseen_lemma_refuted",
    "C46_seen_lemma_partial",
    "C46_unseen_lemma_label"
   ],
   "note": "REFUTED: OOV = 1 is the id of the second lemma of the vocabulary. Proved for the lemmas of the training set."
  },
  {
   "property": "C47",
   "status": "proved",
   "theorems": [
    "C47_padding",
    "C47_padding_in_place"
   ],
   "note": "For values, and for list objects extended in place with shared padding objects. In place: no list object occurs at two depths (an Example shows why)."
  },
  {
   "property": "C48",
   "status": "partial",
   "theorems": [
    "C48_sparsification",
    "C48_rate_one",
    "C48_refuted",
    "C48_rate_zero_partial"
   ],
   "note": "REFUTED for rate 0: the outcome 0.0 of random.random() is not greater than 0. Proved for outcomes above 0; the other clauses in full."
  },
  {
   "property": "C49",
   "status": "proved",
   "theorems": [
    "C49_structure",
    "C49_features",
    "C49_initializers"
   ],
   "note": "Whenever the separate features exist and are disjoint, the merged extractor computes their union. Basic extractors and sparsification are arbitrary functions."
  },
  {
   "property": "C50",
   "status": "proved",
   "theorems": [
    "C50_merge_dicts"
   ],
   "note": "Iff: union if the parts are disjoint, ValueError otherwise."
  },
  {
   "property": "C51",
   "status": "proved",
   "theorems": [
    "C51_interpretation",
    "C51_no_labels",
    "C51_regrouping"
   ],
   "note": "For at least one label name; without label names zip() yields nothing and all the tokens are lost (C51_no_labels)."
  },
  {
   "property": "C52",
   "status": "proved",
   "theorems": [
    "C52_embedding_rows",
    "C52_reads"
   ],
   "note": "Conversion of a word to a float is an arbitrary partial function."
  },
  {
   "property": "C53",
   "status": "proved",
   "theorems": [
    "C53_subword_ids",
    "C53_trainable_ids",
    "C53_trainable_words_unknown"
   ],
   "note": "Words longer than one character never get an id of their own with trainable embeddings."
  },
  {
   "property": "C54",
   "status": "proved",
   "theorems": [
    "C54_search_every",
    "C54_search_moments",
    "C54_search_best"
   ],
   "note": "Scores are exact rationals instead of floats."
  },
  {
   "property": "C55",
   "status": "proved",
   "theorems": [
    "C55_best_epoch",
    "C55_any_outcome",
    "C55_removes_saved"
   ],
   "note": "For comparable scores; model paths without braces (the epoch number is formatted into the whole path)."
  },
  {
   "property": "C56",
   "status": "partial",
   "theorems": [
    "C56_every_metric_refuted",
    "C56_means_partial",
    "C56_any_list"
   ],
   "note": "REFUTED: Tokens, Sentences and Words have no aligned accuracy, the averager raises a TypeError for every metric list with one of them. The means are proved for the eight other metrics; a metric listed k times gives k times its mean."
  },
  {
   "property": "C72",
   "status": "proved",
   "theorems": [
    "C72_only_winners_left",
    "C55_removes_saved"
   ],
   "note": "For different seeds within a candidate."
  },
  {
   "property": "C57",
   "status": "partial",
   "theorems": [
    "C57_product_refuted",
    "C57_product_partial"
   ],
   "note": "REFUTED: a dictionary taken from the grid in place of a plain value is the grid's own object, a later parameter set changes it in the earlier ones. Proved for all grids whose alternatives only have paths of the base, with dictionaries where the base has dictionaries."
  },
  {
   "property": "C58",
   "status": "partial",
   "theorems": [
    "C58_keeps_unnamed_refuted",
    "C58_merge_partial",
    "C58_loaded"
   ],
   "note": "REFUTED: a grid value in place of a dictionary of the base drops all paths below it although they are not named. The error case and the result of every other merge are proved for all dictionaries that share no object."
  },
  {
   "property": "C59",
   "status": "partial",
   "theorems": [
    "C59_overlap_refuted",
    "C59_single_partial",
    "C59_accepted"
   ],
   "note": "REFUTED: the check only looks at the first key of each level and only compares whole paths. Proved for alternatives with a single value and a common path; which grids are accepted is characterised."
  },
  {
   "property": "C60",
   "status": "proved",
   "theorems": [
    "C60_bounded_permutation",
    "C60_reproducible",
    "C60_refused"
   ],
   "note": "For every generator whose draws are in range."
  },
  {
   "property": "C61",
   "status": "proved",
   "theorems": [
    "C61_partition",
    "C61_epoch"
   ],
   "note": ""
  },
  {
   "property": "C62",
   "status": "partial",
   "theorems": [
    "C62_time_based_refuted",
    "C62_rate_partial",
    "C62_falling",
    "C62_constant"
   ],
   "note": "REFUTED: the decay is applied to the rate of the epoch before, not to the initial rate, so the rate falls faster than initial_lr / (1 + lr_decay * epoch). Positivity, monotonicity, the constant case and the actual formula are proved."
  },
  {
   "property": "C73",
   "status": "proved",
   "theorems": [
    "C73_epochs"
   ],
   "note": ""
  },
  {
   "property": "C63",
   "status": "proved",
   "theorems": [
    "C63_composition",
    "C63_one_for_one"
   ],
   "note": "Streams are functions from the number of the next() call to its outcome. The processors are the two stubs, the UDPipe wrapper and nested complex processors."
  },
  {
   "property": "C64",
   "status": "partial",
   "theorems": [
    "C64_exited_refuted",
    "C64_exited_partial"
   ],
   "note": "REFUTED: when the second component's __enter__ raises the first has been entered and is never exited; when an __exit__ raises later components are not exited. The partial theorem gives the exact sequence of calls in every case."
  },
  {
   "property": "C65",
   "status": "partial",
   "theorems": [
    "C65_parser",
    "C65_tagger_refuted",
    "C65_tagger_partial",
    "C65_most_frequent"
   ],
   "note": "Parser and training proved in full. REFUTED for the tagger's syntax: a token whose two head indices disagree about -1 becomes a root when the document is rebuilt. The partial theorem gives unchanged syntax when they agree, and exactly what changes otherwise."
  },
  {
   "property": "C66",
   "status": "proved",
   "theorems": [
    "C66_aligned",
    "C66_identity",
    "C66_any_model"
   ],
   "note": "The UDPipe model is any function from words to words or an exception."
  },
  {
   "property": "C70",
   "status": "proved",
   "theorems": [
    "C70_frozen",
    "C70_pos_created",
    "C70_extras_created",
    "C70_feats_reported",
    "C70_feature_reported",
    "C70_extras_reported",
    "C70_item_reported",
    "C70_extras_updated",
    "C70_typing_needed"
   ],
   "note": "Dictionaries and lists are heap objects, deepcopy is modelled with its memo (cycles included). Feature values are immutable, as the annotation Dict[str, str] says; C70_typing_needed shows that the claim is false without this."
  },
  {
   "property": "C74",
   "status": "proved",
   "theorems": [
    "C74_rules_sorted",
    "C74_lemmas_sorted",
    "C74_parts_sorted",
    "C74_symbols_sorted",
    "C74_documents",
    "C74_rules_reordered",
    "C74_lemmas_reordered",
    "C74_parts_reordered",
    "C74_symbols_reordered",
    "C74_tie_matters"
   ],
   "note": "Parts of Pos are compared with python's == (feature dictionaries with another order of entries are equal)."
  },
  {
   "property": "C75",
   "status": "proved",
   "theorems": [
    "C75_part_zero"
   ],
   "note": "Hypothesis: the feature dictionaries have unique keys, as python dictionaries do."
  },
  {
   "property": "C71",
   "status": "proved",
   "theorems": [
    "C71_attach",
    "C71_round_trip",
    "C71_missing_name",
    "C71_feed_rejects",
    "C71_feed_values",
    "C71_train_predict",
    "C71_same_feed",
    "C71_distinct_needed"
   ],
   "note": "Tensors and operations are arbitrary types; a graph is a list of uniquely named tensors and operations. Attaching is characterised exactly (iff). C71_distinct_needed shows that the hypothesis of different placeholders is needed."
  },
  {
   "property": "C76",
   "status": "proved",
   "theorems": [
    "C76_initialized",
    "C76_needs_vectors",
    "C76_exception",
    "C76_order_matters"
   ],
   "note": "tf.scatter_update is modelled as row by row assignment, the global initializer as giving every matrix its initial contents. C76_order_matters shows that the position of the global initializer is needed."
  },
  {
   "property": "C77",
   "status": "proved",
   "theorems": [
    "C77_built",
    "C77_every_placeholder",
    "C77_names_needed",
    "C77_no_initializers"
   ],
   "note": "Builders are arbitrary functions on the state of the graph. C77_names_needed: with a name used twice a placeholder is not fed. C77_no_initializers: a builder whose initializers() returns None (LemmaSuffixBinaryTaskNetworkBuilder does not override it) can never be part of a network."
  },
  {
   "property": "C78",
   "status": "partial",
   "theorems": [
    "C78_models_partial",
    "C78_few_epochs_partial",
    "C78_order_refuted"
   ],
   "note": "REFUTED: paths are sorted as strings, so epoch-10 is tested before epoch-2; the order differs from the order of the epochs for every number of epochs above ten. Proved: every directory below the model directory is tested exactly once in the order of the paths, and up to ten epochs in the order of the epochs."
  },
  {
   "property": "C79",
   "status": "partial",
   "theorems": [
    "C79_first_call_partial",
    "C79_second_call_refuted"
   ],
   "note": "REFUTED: the list kept by the shared builder is extended in place, so a second call repeats the providers of the tasks; it gives the same list exactly if no task has a provider. Proved: the first call is right."
  },
  {
   "property": "C68",
   "status": "proved",
   "theorems": [
    "C68_no_gold",
    "C68_independent"
   ],
   "note": "Extras are kept; the reader leaves them empty. C68_independent: gold data with other annotations give the tagger the same input."
  },
  {
   "property": "C69",
   "status": "partial",
   "theorems": [
    "C69_perfect_refuted",
    "C69_perfect_partial",
    "C69_accuracy"
   ],
   "note": "REFUTED: if no word counts for a metric its score is 0 for perfect predictions too (CLAS of a text with functional relations only). Proved: every metric for which some gold word counts is 1 for perfect predictions, and for a tagger that keeps the segmentation every metric is the fraction of right words. The tagger is any function of the documents it gets."
  },
  {
   "property": "C80",
   "status": "partial",
   "theorems": [
    "C80_file_refuted",
    "C80_file_partial",
    "C80_any_file_partial"
   ],
   "note": "REFUTED: FEATS are compared as strings; the writer sorts them by code point, so a gold file in the usual order (Number before NumForm) gives perfect predictions a Feats score of 0. C80_file_partial: 1 for every metric if the gold file is as the writer writes it. C80_any_file_partial: for every gold file that reader and script accept, with any comments, line ends, MISC and DEPS, 1 for every metric that counts a word, Feats and AllTags if all FEATS are in code point order. Missing there: ten-column lines that begin with #, negative HEADs."
  },
  {
   "property": "C67",
   "status": "partial",
   "theorems": [
    "C67_neural_tagging_refuted",
    "C67_neural_tagging_partial",
    "C67_ended",
    "C67_lazy",
    "C67_columns_needed"
   ],
   "note": "REFUTED: the syntax can change: Document.from_document turns heads that say -1 inconsistently into roots (same cause as C65). Proved for every iterator of documents: one tagged document for each, same text, spans, sentences and extras, the morphology the labels denote (labels grouped by class, the last label that writes an attribute counts), the syntax kept up to that quirk and kept exactly when the two head indices agree about -1. The features and the network are arbitrary functions. Assumed of the training set: well-formed feature dictionaries, and no feature named UPOS or XPOS when features are labels. C67_columns_needed shows what happens when predictions have no columns."
  },
  {
   "property": "C81",
   "status": "proved",
   "theorems": [
    "C81_gold_labels",
    "C81_reproduced",
    "C81_labels_exist",
    "C81_denotes_once"
   ],
   "note": "The network is any function that predicts these labels. Label names have to be distinct (otherwise merging the extractors fails) and label lengths not negative. C81_denotes_once shows in addition that the relation used in C67 to say what a prediction denotes leaves no freedom. Example C81_rare_rule: a rule below the threshold is lost."
  },
  {
   "property": "C82",
   "status": "proved",
   "theorems": [
    "C82_fed",
    "C82_trained",
    "C82_initialized",
    "C82_tasks",
    "C82_used"
   ],
   "note": "TensorFlow is modelled by what has to hold of the graph: dimensions of placeholders, rows of looked up matrices, sizes of updated matrices, classes of masks and of gold labels; layers and numbers they compute are not modelled. Segmenters, lower-casing and float parsing are arbitrary functions. Assumed of the training set as in C67 and C81; of lemma_combo that label lengths are not negative and, for the initialization, that its file has vectors of the configured size (Example C82_size: otherwise they do not fit the matrix)."
  },
  {
   "property": "C83",
   "status": "partial",
   "theorems": [
    "C83_tasks_refuted",
    "C83_tasks_partial"
   ],
   "note": "REFUTED: no configuration with lemma_binary is ever set up: its builder inherits initializers(), which returns None. C83_tasks_partial says exactly which configurations are set up."
  },
  {
   "property": "C84",
   "status": "proved",
   "theorems": [
    "C84_dataset",
    "C84_predictions"
   ],
   "note": "The package tdozat_parser is not in the repository; assumed of it: cache_predictions appends numbers and rows, sentences are numbered from 0 in the order in which they are yielded, every batch has the same fields and a row for each of its sentences. The dataset is also given an empty list for each document; C84_dataset says which numbers sentences have if these are skipped and if they are counted, Example C84_numbering_matters what happens in the second case. argsort is any function that sorts."
  },
  {
   "property": "C85",
   "status": "partial",
   "theorems": [
    "C85_after_failure_refuted",
    "C85_calls_partial",
    "C85_leftover"
   ],
   "note": "REFUTED: predictions are dropped only at the end of a call that returns; after a failure the rows of the failed call stay and are given to other sentences. C85_calls_partial: calls that return, and calls whose documents raise, leave no trace."
  },
  {
   "property": "C86",
   "status": "partial",
   "theorems": [
    "C86_sessions_refuted",
    "C86_context_partial"
   ],
   "note": "REFUTED: the message of the RuntimeError uses self.__name__, which raises AttributeError; a session is left open if restoring fails or if contexts are nested. C86_context_partial: a context that was entered once closes its session however the calls end."
  },
  {
   "property": "C87",
   "status": "proved",
   "theorems": [
    "C87_extra_fields",
    "C87_flags"
   ],
   "note": "The outputs of the network are any tree of dictionaries."
  },
  {
   "property": "C88",
   "status": "partial",
   "theorems": [
    "C88_interrupt_refuted",
    "C88_sessions_partial",
    "C88_one_session",
    "C88_results"
   ],
   "note": "REFUTED: Model.load closes its session only for Exceptions; a KeyboardInterrupt while restoring leaves it open. C88_sessions_partial: without that, the sessions that are open are exactly those of suspended generators."
  },
  {
   "property": "C89",
   "status": "partial",
   "theorems": [
    "C89_files_refuted",
    "C89_reader_partial"
   ],
   "note": "REFUTED: the file is opened before the generator is started, closing a reader that was never advanced leaves it open; load_conllu_file never closes. C89_reader_partial: readers that were advanced once."
  },
  {
   "property": "C90",
   "status": "partial",
   "theorems": [
    "C90_batch_refuted",
    "C90_alone_partial"
   ],
   "note": "REFUTED: every subword aggregator includes the padding up to the longest word of the batch, lemma_combo embeds it, Dilated_CNN convolves over the padding of the sentence. C90_alone_partial: without Dilated_CNN, if the longest words are in the sentence."
  },
  {
   "property": "C91",
   "status": "proved",
   "theorems": [
    "C91_window"
   ],
   "note": "The window must end inside of the sentence; with subword features, or lemma_combo whose padding row is not zero, the longest words of the batches must be equally long (C90)."
  },
  {
   "property": "C92",
   "status": "proved",
   "theorems": [
    "C92_dense",
    "C92_unweighted",
    "C92_missing_weight",
    "C92_combo",
    "C92_binary"
   ],
   "note": "Rational numbers, any cross entropy, batches with a word. Without loss_weights it depends on whether tf.stack accepts a dictionary, which is left open. lemma_combo counts the padding of lemmas up to max_word_length."
  },
  {
   "property": "C93",
   "status": "proved",
   "theorems": [
    "C93_network",
    "C93_lemma"
   ],
   "note": "Logits above the lowest float32, any total order."
  },
  {
   "property": "C94",
   "status": "partial",
   "theorems": [
    "C94_gold_refuted",
    "C94_gold_partial"
   ],
   "note": "REFUTED: a rare rule is replaced by the most frequent one, which need not apply. C94_gold_partial: rules in the vocabulary."
  },
  {
   "property": "C95",
   "status": "partial",
   "theorems": [
    "C95_tested_is_best_refuted",
    "C95_tested_is_best_partial"
   ],
   "note": "REFUTED: a seed listed twice makes runs share the names of their models. C95_tested_is_best_partial: different seeds, and some metric is printed or every candidate has epochs. Training and scoring are arbitrary functions of what came before."
  },
  {
   "property": "C96",
   "status": "partial",
   "theorems": [
    "C96_foreign_files_refuted",
    "C96_left_behind_refuted",
    "C96_restored_partial",
    "C96_kept"
   ],
   "note": "REFUTED: with an empty model_dir foreign files can be removed; after an exception models stay. C96_restored_partial: model_dir not empty. Writing files never fails in the model."
  },
  {
   "property": "C97",
   "status": "partial",
   "theorems": [
    "C97_stub_refuted",
    "C97_pretrained_refuted",
    "C97_neural_partial",
    "C97_unknown"
   ],
   "note": "REFUTED: stub never works, neural_pretrained not with delete_after. C97_neural_partial: neural works under the conditions listed."
  },
  {
   "property": "C98",
   "status": "proved",
   "theorems": [
    "C98_predictions"
   ],
   "note": "Different seeds; the results are not within the directory of the models if that is deleted."
  },
  {
   "property": "C99",
   "status": "partial",
   "theorems": [
    "C99_buildable_refuted",
    "C99_buildable_partial"
   ],
   "note": "REFUTED: BiLSTM_CNN and lemma_combo both name their convolutions cnn_kernel, with equal kernels at the same place the network cannot be built. C99_buildable_partial: exactly which configurations can be built. Sizes are given, placeholders and the optimizer's variables are left out."
  },
  {
   "property": "C100",
   "status": "proved",
   "theorems": [
    "C100_names",
    "C100_dense",
    "C100_recurrent",
    "C100_combo",
    "C100_features",
    "C100_encoder"
   ],
   "note": "Variables made by tf.get_variable and tf.layers.dense; the names given by tensorflow to layers without a name are part of the model."
  },
  {
   "property": "C101",
   "status": "proved",
   "theorems": [
    "C101_weights_file"
   ],
   "note": "float() is any function from text to rationals or errors; ValueError for bad lines under the assumption that float() raises nothing else."
  },
  {
   "property": "C102",
   "status": "partial",
   "theorems": [
    "C102_subtypes_refuted",
    "C102_relations_partial"
   ],
   "note": "REFUTED: relations of words are cut at the colon, so a weight given for a relation with a subtype is never used. C102_relations_partial: a word counts with the weight of its relation up to the colon."
  },
  {
   "property": "C103",
   "status": "proved",
   "theorems": [
    "C103_no_other_metric",
    "C103_las",
    "C103_clas"
   ],
   "note": "Scores are equal as rationals."
  },
  {
   "property": "C104",
   "status": "partial",
   "theorems": [
    "C104_proportions_refuted",
    "C104_proportions_partial"
   ],
   "note": "REFUTED: relations without a weight keep the weight 1. C104_proportions_partial: all relations of the words have a weight."
  },
  {
   "property": "C105",
   "status": "partial",
   "theorems": [
    "C105_range_refuted",
    "C105_range_partial"
   ],
   "note": "REFUTED: with the weight -1 for a relation a table shows 200. C105_range_partial: no weight of the file is negative."
  },
  {
   "property": "C106",
   "status": "proved",
   "theorems": [
    "C106_runs",
    "C106_output"
   ],
   "note": "For every way to print numbers with digits, points and signs; the bars if numbers from 0 to 100 take at most ten characters."
  },
  {
   "property": "C107",
   "status": "proved",
   "theorems": [
    "C107_same_files"
   ],
   "note": "For every way to print numbers that depends on the value only; precision, recall and F1 of metrics that count nothing are 0."
  },
  {
   "property": "C108",
   "status": "proved",
   "theorems": [
    "C108_round_trip",
    "C108_predictions",
    "C108_saves"
   ],
   "note": "Pickles and the files of tf.train.Saver are arbitrary formats in which what is written can be read. Graphs are their tensors, operations and variables."
  },
  {
   "property": "C109",
   "status": "proved",
   "theorems": [
    "C109_other_path",
    "C109_epochs"
   ],
   "note": "Paths without '..' and links. What the tester writes between two epochs is left out."
  },
  {
   "property": "C110",
   "status": "partial",
   "theorems": [
    "C110_whole_refuted",
    "C110_fresh_partial",
    "C110_retrained_partial"
   ],
   "note": "REFUTED: over an older tagger an interruption before the graph is saved leaves the new extractor with the old network, which is loaded without complaint. C110_fresh_partial: a path without a tagger. C110_retrained_partial: same extractor, interpreter and network as before, files of values with checksums."
  },
  {
   "property": "C111",
   "status": "partial",
   "theorems": [
    "C111_this_training_refuted",
    "C111_empty_partial"
   ],
   "note": "REFUTED: the last epochs of a longer earlier training are still there and are tested too. C111_empty_partial: nothing is below the directory before."
  },
  {
   "property": "C112",
   "status": "proved",
   "theorems": [
    "C112_combination",
    "C112_files"
   ],
   "note": "The base has no key twice; for the files, the directory of models is not ''. Lists in json files contain no dictionaries."
  },
  {
   "property": "C113",
   "status": "partial",
   "theorems": [
    "C113_scores_refuted",
    "C113_choice_refuted",
    "C113_unshuffled_partial",
    "C113_grid_partial"
   ],
   "note": "REFUTED: with a shuffler, even with a seed, the order of documents depends on the trainings made before, so the reported hyperparameters may have other scores alone and others may be better alone. C113_unshuffled_partial, C113_grid_partial: no shuffler, something is printed, no seed twice; other files, another time."
  },
  {
   "property": "C114",
   "status": "partial",
   "theorems": [
    "C114_test_set_refuted",
    "C114_missing_partial"
   ],
   "note": "REFUTED: a test set without a path is noticed after the whole search. C114_missing_partial: everything else that is needed. Values of a wrong type are not treated: the model notices them when they are read."
  },
  {
   "property": "C115",
   "status": "partial",
   "theorems": [
    "C115_time_refuted",
    "C115_timeless_partial"
   ],
   "note": "REFUTED: a shuffler without a seed takes the time. C115_timeless_partial: no shuffler or one with a seed, something is printed, no seed twice; a training depends only on its arguments and seed."
  },
  {
   "property": "C116",
   "status": "proved",
   "theorems": [
    "C116_feed",
    "C116_training",
    "C116_prediction"
   ],
   "note": "C116_feed: in a prediction the placeholder keeps its default; C116_training: in a training step it is the setting; all placeholders of the network are different. C116_prediction: with 1 the network with dropout gives the answers of Model_Layers, if random numbers are not negative and x / 1 * 1 is x."
  },
  {
   "property": "C117",
   "status": "partial",
   "theorems": [
    "C117_layers_refuted",
    "C117_combo_refuted",
    "C117_bilstm_partial",
    "C117_dilated_partial",
    "C117_convolution_partial",
    "C117_heads_partial"
   ],
   "note": "REFUTED: behind recurrent layers nothing is dropped (tf.layers.dropout without training=True), and word features with lemma_combo are trained without dropout. The partial theorems say where values are dropped: the input of the encoder, what is skipped to its output, the input of the convolution over bilstm, between the dense layers of every part of a label; everywhere by a random number of each value."
  },
  {
   "property": "C118",
   "status": "partial",
   "theorems": [
    "C118_share_refuted",
    "C118_zero_refuted",
    "C118_one_partial",
    "C118_mean_partial"
   ],
   "note": "REFUTED: of n equally likely random numbers k keep the value with the setting k / n; with 0 a dense task computes the same logits for every word. C118_one_partial: 1 switches dropout off; C118_mean_partial: the mean is kept for settings k / n other than 0. Rational numbers."
  },
  {
   "property": "C119",
   "status": "partial",
   "theorems": [
    "C119_repeated_refuted",
    "C119_length_partial",
    "C119_direction_partial"
   ],
   "note": "REFUTED: the slices of a row that is looked up several times are measured one by one, so their sum can be longer: 5 j for a word looked up j * j times with gradient 5. C119_length_partial: the squared length is at most 25 times the largest number of look-ups of a row (and the error of the root). C119_direction_partial: one factor between 0 and 1 for all gradients. Rational numbers, a root with bounded relative error."
  },
  {
   "property": "C120",
   "status": "partial",
   "theorems": [
    "C120_subwords_refuted",
    "C120_frozen_partial",
    "C120_embeddings_partial"
   ],
   "note": "REFUTED: subwords without embedding_path and the characters of lemma_combo are always trained. C120_frozen_partial: variables that are not trainable never change; C120_embeddings_partial: so for word embeddings, trained embeddings and subwords with embedding_path."
  },
  {
   "property": "C121",
   "status": "partial",
   "theorems": [
    "C121_adam_refuted",
    "C121_rows_partial",
    "C121_new_rows_partial"
   ],
   "note": "REFUTED: Adam changes every number that has momentum. C121_rows_partial: GD and RMSProp never change a row that is in no batch; C121_new_rows_partial: Adam neither, as long as the row has no momentum. The rules of the optimizers are those of tensorflow 1.14."
  },
  {
   "property": "C122",
   "status": "partial",
   "theorems": [
    "C122_deep_refuted",
    "C122_exact_partial",
    "C122_same_partial",
    "C122_shallow_partial",
    "C122_written_partial"
   ],
   "note": "REFUTED: process_word calls itself for the head, so for every limit there is a sentence one word longer (each head is the next word) that raises RecursionError. C122_exact_partial: exactly the files are loaded in which no word has too many new words above it. C122_shallow_partial: sentences no longer or no deeper than the limit, and sentences of any length with heads to the left; C122_written_partial: whatever the writer writes without syntax. C122_same_partial: what is loaded does not depend on the limit. The limit is counted in calls of process_word."
  },
  {
   "property": "C123",
   "status": "partial",
   "theorems": [
    "C123_same_scores_refuted",
    "C123_same_failure_refuted",
    "C123_same_test_partial",
    "C123_accuracy_partial"
   ],
   "note": "REFUTED: FEATS in another order than by code point are rewritten for the documents only (Feats 0 against 1); a ten-column line that begins with # inside a range is a comment for the reader and a word for the script (UDError against scores). C123_same_test_partial: without such lines and without negative HEADs both testers fail with the same exception or report the same, Feats and AllTags if all FEATS are in order; with saved results the predictions are assumed to be written without carriage returns. C123_accuracy_partial: what C69 says of the scores for documents holds for files."
  },
  {
   "property": "C124",
   "status": "partial",
   "theorems": [
    "C124_adam_refuted",
    "C124_gd_partial",
    "C124_rmsprop_partial",
    "C124_adam_partial",
    "C124_means"
   ],
   "note": "REFUTED with Adam, which goes on in the direction of earlier gradients. C124_gd_partial, C124_rmsprop_partial: it holds with the two others, slices of one row added up. C124_adam_partial: with Adam numbers move against the mean of gradient and momentum, so against the gradient if the momentum does not point the other way. Rational numbers, a square root with a bounded relative error, constants in the usual ranges; gradients have the shape of their variables. C124_means: the means of squares, assumed not to be negative, never get negative."
  },
  {
   "property": "C125",
   "status": "partial",
   "theorems": [
    "C125_carriage_return_refuted",
    "C125_surrogate_refuted",
    "C125_round_trip_partial",
    "C125_round_trip_many_partial",
    "C125_codec_partial"
   ],
   "note": "REFUTED: a carriage return in a field comes back from a string but ends a line of a file; a lone surrogate cannot be written to a file. C125_round_trip_partial, C125_round_trip_many_partial: without these characters the round trips of C20 hold for files, on the level of bytes. C125_codec_partial: encoding and decoding are inverse to each other."
  },
  {
   "property": "C126",
   "status": "proved",
   "theorems": [
    "C126_written"
   ],
   "note": "Line ends of the system are \\n. Files are decoded as a whole; python decodes piece by piece and may yield documents before an error."
  },
  {
   "property": "C127",
   "status": "partial",
   "theorems": [
    "C127_kept_refuted",
    "C127_left_partial",
    "C127_success_partial"
   ],
   "note": "REFUTED: the file is emptied when it is opened. C127_left_partial: what is left are whole lines, all documents before the failing one among them, and if a line cannot be encoded exactly the lines before it. C127_success_partial: a write succeeds exactly if the string can be made and encoded, and the file then holds it. Disk errors are not modelled."
  },
  {
   "property": "C128",
   "status": "partial",
   "theorems": [
    "C128_bom_refuted",
    "C128_reader_fails_partial",
    "C128_reader_partial",
    "C128_script_partial"
   ],
   "note": "REFUTED: the mark stays in the first line, since the encoding is utf-8 and not utf-8-sig; the reader raises IndexError at a comment, the script UDError. C128_reader_fails_partial: so for every first line without tabs. C128_reader_partial: it does not matter if the file begins with an ordinary token or an empty node. C128_script_partial: the script rejects every file with the mark unless it begins with an empty node."
  },
  {
   "property": "C129",
   "status": "proved",
   "theorems": [
    "C129_rounding",
    "C129_rounded_once",
    "C129_well_formed",
    "C129_self_perfect"
   ],
   "note": "Floats are modelled as rationals rounded after each operation (53 bits, nearest, ties to even), with the exponent unbounded: no overflow, no subnormal numbers, no nan. Products and sums of floats with CLAS weights and a file's weights are rounded as python does; for weights that are not whole the theorem on rounding says nothing, the ones on range and on a file against itself do."
  },
  {
   "property": "C130",
   "status": "partial",
   "theorems": [
    "C130_same_choice_refuted",
    "C130_one_metric_partial",
    "C130_several_metrics_partial"
   ],
   "note": "REFUTED: with two metrics, 1/10 + 5/10 and 2/10 + 4/10 are a tie, but as floats the second sum is larger, so the later model replaces the earlier one. Proved: with one metric that counts (not CLAS or weighted LAS) the answers are the same for files of up to 2^25 tokens, words and sentences; with several word metrics and outputs tokenized like the gold file, a strictly better model is found better and a strictly worse one not. sum() is python's before 3.12, without compensation; for the two summands of the counterexample that makes no difference."
  },
  {
   "property": "C131",
   "status": "partial",
   "theorems": [
    "C131_average_between_refuted",
    "C131_average_near_partial",
    "C131_average_monotone"
   ],
   "note": "REFUTED: the average of three seeds that all score 0.1 is larger than 0.1. Proved: for one and two seeds the average lies between; for any number it lies in [0, 1], is 1 or 0 if all scores are, and is within (n + 2) / 2^53 of the exact mean; better scores do not give a lower average. WeightedLAS is left out."
  },
  {
   "property": "C132",
   "status": "proved",
   "theorems": [
    "C132_number",
    "C132_order",
    "C132_table",
    "C132_same",
    "C132_assumed",
    "C132_script"
   ],
   "note": "Numbers are floats as in C129, '{:.2f}' rounds their exact value. C132_assumed: the formatting has what C106 and C107 assume of it. Lines are aligned for names of up to 11 characters and scores between 0 and 1. Printing to a screen that fails is not modelled."
  },
  {
   "property": "C133",
   "status": "partial",
   "theorems": [
    "C133_ends_refuted",
    "C133_ends_partial"
   ],
   "note": "REFUTED: with a relation that weighs a millionth and a wrong head at it the weighted LAS is printed as 100.00. Proved for the metrics that count (not CLAS or weighted LAS) and files of up to 9999 tokens, words and sentences."
  },
  {
   "property": "C134",
   "status": "proved",
   "theorems": [
    "C134_understood",
    "C134_order",
    "C134_evaluation",
    "C134_grid",
    "C134_script",
    "C134_names"
   ],
   "note": "argparse (python 3.11.10; other versions treat = in short options differently) is modelled for these parsers; the argument -- and - as a file of weights are left out. Values written apart from their option must not begin with a dash (a dash alone may), files of weights must be there. Several short options in one argument (-vv, -vwfile, -vw file) are covered. json.load is any function."
  },
  {
   "property": "C135",
   "status": "partial",
   "theorems": [
    "C135_refused_refuted",
    "C135_missing_partial",
    "C135_unknown_partial",
    "C135_programs_partial",
    "C135_ends_partial"
   ],
   "note": "REFUTED: --settings is not declared as required, so without it open(None) raises a TypeError. C135_missing_partial: always so. Proved: no program starts if an argument looks like an option (a dash, no digit or point behind it, no space in it) and is not one, nor letters of short options, nor an abbreviation of exactly one (with = only if the option takes a value), nor if there are too many or too few positional arguments. C135_ends_partial: with such an unknown option, and without the argument --, evaluation and grid_eval end with a usage message or the help; which of them is not claimed, and nothing like it for the script or for positional arguments."
  },
  {
   "property": "C136",
   "status": "partial",
   "theorems": [
    "C136_same_refuted",
    "C136_same_partial"
   ],
   "note": "REFUTED: --method '--grid=a b', where an unknown option with a space in it is a value for evaluation, and a known option for grid_eval. Proved if no argument begins with --g; then the whole behaviour is the same."
  },
  {
   "property": "C137",
   "status": "partial",
   "theorems": [
    "C137_kept_refuted",
    "C137_ignored_partial",
    "C137_grid_partial",
    "C137_present_partial",
    "C137_evaluation_partial",
    "C137_models_partial"
   ],
   "note": "REFUTED: grid_eval has --delete_after but always deletes (grid_eval.py:70). C137_ignored_partial: grid_eval ends alike with and without it. C137_grid_partial: it always leaves the directory of models empty. C137_evaluation_partial: evaluation with the option leaves it empty and other files but results as they were; C137_present_partial: without it no file that was there before is removed, even if the experiment fails. C137_models_partial: without it, with the method neural, there is a file for every set of hyperparameters, seed and epoch (below the least number of epochs of any set); that its content is the model trained is not claimed. The directory of models has a name that is not empty. json.load is any function."
  }
 ]
}
