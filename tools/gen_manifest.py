"""Writes /verif/MANIFEST.json.  Run: python3 tools/gen_manifest.py"""
import json
import os
import re

ROOT = os.path.dirname(os.path.dirname(os.path.abspath(__file__)))
CLAIMS = []


def claim(prop, status, theorems, note):
    CLAIMS.append({"property": prop, "status": status, "theorems": theorems.split(), "note": note})


claim("C01", "proved", "C01_tokens_never_overlap", "Any token list with or without sentences, validated or not.")
claim("C02", "proved", "C02_sentences_tile C02_tilings_accepted", "Both directions; the converse is an iff.")
claim("C03", "proved", "C03_input_order_irrelevant", "Both fail or both return the same document.")
claim("C04", "partial",
      "C04_notations_interchangeable C04_both_views_present C04_contradiction_rejected_partial C04_contradiction_rejected_refuted",
      "Interchangeability and presence of both views are proved in full. REFUTED: the clause 'an inconsistent pair is rejected'"
      " - (document head 1, sentence head -1) is accepted as a root. Proved for pairs in which neither index is -1.")
claim("C05", "proved", "C05_accepts_exactly_trees C05_check_terminates", "Iff, and the outcome is acceptance or ValueError.")
claim("C06", "partial", "C06_head_outside_refuted C06_head_outside_partial",
      "REFUTED: the head index sentence_start-1 becomes sentence index -1 and is accepted as a root."
      " Every other outside index is rejected.")
claim("C07", "partial", "C07_rebuild_refuted C07_rebuild_partial C07_rebuild_normal_heads",
      "REFUTED, even for validated documents. Exact condition proved (iff): -1 appears in both views or neither.")
claim("C08", "proved", "C08_setters_frame C08_setters_commute", "")
claim("C09", "partial", "C09_from_document_refuted C09_from_document_partial",
      "REFUTED: from_document(d, []) returns an empty document. Proved for every non-empty token list.")
claim("C10", "proved", "C10_token_index C10_token_walk C10_sentence_index C10_sentence_walk", "")
claim("C11", "proved", "C11_head_reaches_root", "")
claim("C12", "proved", "C12_sentence_views", "")
claim("C13", "partial", "C13_numbering_refuted C13_numbering_partial",
      "REFUTED: the sub_index of the very first token is never checked. Proved for every other group"
      " and for the first one when it starts with 0.")
claim("C14", "partial", "C14_token_equality_refuted C14_token_equality_partial C14_token_equality_equivalence",
      "REFUTED: __eq__ compares other._head_sentence_index with itself, so sentence heads are ignored."
      " Proved: == is exactly equality of all other fields, and an equivalence relation.")
claim("C15", "proved", "C15_equality_hash_order C15_trichotomy C15_transitive", "Hash is any function of the hashed tuple.")
claim("C16", "partial", "C16_order_total_refuted C16_order_total_partial",
      "REFUTED: None against str raises TypeError. Exact condition proved (iff), and no other exception is possible.")
claim("C17", "partial", "C17_str_refuted C17_str_partial",
      "REFUTED: str of a document without tokens raises IndexError. Proved for every document with tokens.")

claim("C18", "proved", "C18_reader_faithful C18_slices",
      "Every yielded document, whether or not the reader later stops with an error.")
claim("C19", "proved", "C19_chunks C19_limit_only_regroups C19_heads_hypothesis_needed",
      "Well-formed means accepted with one limit and no negative HEAD; the third theorem shows a negative HEAD"
      " can be accepted with one limit and rejected with another.")
claim("C20", "proved", "C20_round_trip C20_round_trip_many C20_reader_documents",
      "reader_normal is spelled out in Spec_Conllu; C20_reader_documents shows the reader produces such documents.")
claim("C21", "partial", "C21_written_once_refuted C21_written_once_partial C21_groups",
      "REFUTED: a multiword token ending a sentence is written again at the start of the next sentence of the document."
      " Proved for documents where only the last sentence may end with a multiword token.")
claim("C22", "partial", "C22_spacing_refuted C22_leading_space_refuted C22_spacing_partial",
      "REFUTED: SpaceAfter=No on the last word is lost, and a FORM beginning with whitespace after SpaceAfter=No gains a space."
      " Proved for all other yielded documents that can be written, any columns.")
claim("C23", "partial",
      "C23_reader_columns C23_writer_fails_refuted C23_writer_head_refuted C23_writer_partial C23_writer_output_partial C23_writer_cells_partial",
      "Reader half proved in full. REFUTED for the writer: without FEATS it raises TypeError on tagged tokens, and without HEAD"
      " it writes invented heads. Exact failure condition and all other columns proved.")
claim("C24", "partial", "C24_empty_node_refuted C24_comments C24_empty_node_partial",
      "REFUTED: an empty node inside a range is taken for a word of the range. Comments proved in full; empty nodes proved"
      " outside ranges.")

claim("C25", "partial", "C25_loads_written_refuted C25_loads_written_partial",
      "REFUTED: a token made of spaces is written with an empty-looking FORM, which load_conllu refuses. Proved for all other"
      " documents with clean fields (no tab or line break), including the exact columns and parents that are loaded.")
claim("C26", "proved", "C26_links_trees C26_accepts_trees C26_parents",
      "Per sentence for arbitrary previous words, and for whole files. Python's recursion limit is not modelled.")
claim("C27", "proved", "C27_spans_tile C27_faithful", "")
claim("C28", "proved", "C28_counts_common_spans C28_swap", "Scores are exact rationals, python computes in floats.")
claim("C29", "proved", "C29_aligns C29_matching C29_plain",
      "For words with non-empty spans, which is what load_conllu produces (C27). str.lower is an arbitrary function.")
claim("C30", "proved", "C30_longest", "str.lower is an arbitrary function.")
claim("C31", "proved", "C31_well_formed C31_meaning", "Scores are exact rationals, python computes in floats.")
claim("C32", "proved", "C32_self_perfect", "")
claim("C33", "proved", "C33_plain_accuracy", "")
claim("C34", "proved", "C34_refuses_other_text", "The text of the error message is not modelled.")
claim("C35", "proved", "C35_rule_reproduces C35_transform", "")
claim("C36", "proved", "C36_trie_exact C36_longest_known_exists", "")
claim("C37", "partial", "C37_offered_applicable C37_complete_refuted C37_complete_exception_refuted C37_offered_partial",
      "REFUTED: a regular rule whose suffix is the whole word, and an exception shorter than the longest known suffix, are applicable but not offered. Soundness and the exact set of offered rules are proved.")
claim("C38", "partial", "C38_exception_whole_word_refuted C38_exception_whole_word_partial C38_exception_origin_partial",
      "REFUTED: the exception learned from go is offered for forgo. Proved for words that are known as a whole.")
claim("C39", "proved", "C39_gold_selectable C39_vocabulary C39_builds C39_mask", "Lower-casing is an arbitrary function. The cache of CachedSuffixRulesBuilder is not modelled.")
claim("C40", "proved", "C40_interpret_total", "")
claim("C41", "proved", "C41_label_list C41_inverse C41_counts C41_total", "")
claim("C42", "partial", "C42_split_combine_refuted C42_split_combine_partial",
      "REFUTED for pos_gran: a feature named UPOS or XPOS overwrites the tag in the split dictionary. Proved for all strategies otherwise.")
claim("C43", "partial", "C43_labels_round_trip_refuted C43_labels_round_trip_partial C43_predictions",
      "REFUTED for pos_gran with a feature named UPOS or XPOS. Proved otherwise, and every prediction in range is interpreted.")
claim("C44", "partial", "C44_builds_refuted C44_builds_partial C44_needs_tokens",
      "REFUTED for pos_joint and pos_XF: missing and present XPOS cannot be sorted. Proved when tags are sortable, always for pos_UXF and pos_gran.")
claim("C45", "proved", "C45_label C45_round_trip C45_predictions C45_subword_segments", "The segmenter is any function; the BPE encoder is an arbitrary function.")
claim("C46", "partial", "C46_unseen_lemma_refuted C46_seen_lemma_partial C46_unseen_lemma_label",
      "REFUTED: OOV = 1 is the id of the second lemma of the vocabulary. Proved for the lemmas of the training set.")
claim("C47", "proved", "C47_padding C47_padding_in_place",
      "For values, and for list objects extended in place with shared padding objects. In place: no list object occurs at two depths (an Example shows why).")
claim("C48", "partial", "C48_sparsification C48_rate_one C48_refuted C48_rate_zero_partial",
      "REFUTED for rate 0: the outcome 0.0 of random.random() is not greater than 0. Proved for outcomes above 0; the other clauses in full.")
claim("C49", "proved", "C49_structure C49_features C49_initializers",
      "Whenever the separate features exist and are disjoint, the merged extractor computes their union. Basic extractors and sparsification are arbitrary functions.")
claim("C50", "proved", "C50_merge_dicts", "Iff: union if the parts are disjoint, ValueError otherwise.")
claim("C51", "proved", "C51_interpretation C51_no_labels C51_regrouping",
      "For at least one label name; without label names zip() yields nothing and all the tokens are lost (C51_no_labels).")
claim("C52", "proved", "C52_embedding_rows C52_reads", "Conversion of a word to a float is an arbitrary partial function.")
claim("C53", "proved", "C53_subword_ids C53_trainable_ids C53_trainable_words_unknown", "Words longer than one character never get an id of their own with trainable embeddings.")

claim("C54", "proved", "C54_search_every C54_search_moments C54_search_best", "Scores are exact rationals instead of floats.")
claim("C55", "proved", "C55_best_epoch C55_any_outcome C55_removes_saved",
      "For comparable scores; model paths without braces (the epoch number is formatted into the whole path).")
claim("C56", "partial", "C56_every_metric_refuted C56_means_partial C56_any_list",
      "REFUTED: Tokens, Sentences and Words have no aligned accuracy, the averager raises a TypeError for every metric list with one of them. "
      "The means are proved for the eight other metrics; a metric listed k times gives k times its mean.")
claim("C72", "proved", "C72_only_winners_left C55_removes_saved", "For different seeds within a candidate.")
claim("C57", "partial", "C57_product_refuted C57_product_partial",
      "REFUTED: a dictionary taken from the grid in place of a plain value is the grid's own object, a later parameter set changes it in the earlier ones. "
      "Proved for all grids whose alternatives only have paths of the base, with dictionaries where the base has dictionaries.")
claim("C58", "partial", "C58_keeps_unnamed_refuted C58_merge_partial C58_loaded",
      "REFUTED: a grid value in place of a dictionary of the base drops all paths below it although they are not named. "
      "The error case and the result of every other merge are proved for all dictionaries that share no object.")
claim("C59", "partial", "C59_overlap_refuted C59_single_partial C59_accepted",
      "REFUTED: the check only looks at the first key of each level and only compares whole paths. "
      "Proved for alternatives with a single value and a common path; which grids are accepted is characterised.")
claim("C60", "proved", "C60_bounded_permutation C60_reproducible C60_refused",
      "For every generator whose draws are in range.")
claim("C61", "proved", "C61_partition C61_epoch", "")
claim("C62", "partial", "C62_time_based_refuted C62_rate_partial C62_falling C62_constant",
      "REFUTED: the decay is applied to the rate of the epoch before, not to the initial rate, so the rate falls faster than initial_lr / (1 + lr_decay * epoch). "
      "Positivity, monotonicity, the constant case and the actual formula are proved.")
claim("C73", "proved", "C73_epochs", "")

claim("C63", "proved", "C63_composition C63_one_for_one",
      "Streams are functions from the number of the next() call to its outcome. The processors are the two stubs, the UDPipe wrapper and nested complex processors.")
claim("C64", "partial", "C64_exited_refuted C64_exited_partial",
      "REFUTED: when the second component's __enter__ raises the first has been entered and is never exited; when an __exit__ raises later components are not exited. The partial theorem gives the exact sequence of calls in every case.")
claim("C65", "partial", "C65_parser C65_tagger_refuted C65_tagger_partial C65_most_frequent",
      "Parser and training proved in full. REFUTED for the tagger's syntax: a token whose two head indices disagree about -1 becomes a root when the document is rebuilt. The partial theorem gives unchanged syntax when they agree, and exactly what changes otherwise.")
claim("C66", "proved", "C66_aligned C66_identity C66_any_model",
      "The UDPipe model is any function from words to words or an exception.")
claim("C70", "proved", "C70_frozen C70_pos_created C70_extras_created C70_feats_reported C70_feature_reported C70_extras_reported "
      "C70_item_reported C70_extras_updated C70_typing_needed",
      "Dictionaries and lists are heap objects, deepcopy is modelled with its memo (cycles included). Feature values are immutable, as the annotation Dict[str, str] says; C70_typing_needed shows that the claim is false without this.")
claim("C74", "proved", "C74_rules_sorted C74_lemmas_sorted C74_parts_sorted C74_symbols_sorted C74_documents C74_rules_reordered "
      "C74_lemmas_reordered C74_parts_reordered C74_symbols_reordered C74_tie_matters",
      "Parts of Pos are compared with python's == (feature dictionaries with another order of entries are equal).")
claim("C75", "proved", "C75_part_zero", "Hypothesis: the feature dictionaries have unique keys, as python dictionaries do.")

claim("C71", "proved", "C71_attach C71_round_trip C71_missing_name C71_feed_rejects C71_feed_values C71_train_predict C71_same_feed C71_distinct_needed",
      "Tensors and operations are arbitrary types; a graph is a list of uniquely named tensors and operations. Attaching is characterised exactly (iff). C71_distinct_needed shows that the hypothesis of different placeholders is needed.")
claim("C76", "proved", "C76_initialized C76_needs_vectors C76_exception C76_order_matters",
      "tf.scatter_update is modelled as row by row assignment, the global initializer as giving every matrix its initial contents. C76_order_matters shows that the position of the global initializer is needed.")
claim("C77", "proved", "C77_built C77_every_placeholder C77_names_needed C77_no_initializers",
      "Builders are arbitrary functions on the state of the graph. C77_names_needed: with a name used twice a placeholder is not fed. C77_no_initializers: a builder whose initializers() returns None (LemmaSuffixBinaryTaskNetworkBuilder does not override it) can never be part of a network.")
claim("C78", "partial", "C78_models_partial C78_few_epochs_partial C78_order_refuted",
      "REFUTED: paths are sorted as strings, so epoch-10 is tested before epoch-2; the order differs from the order of the epochs for every number of epochs above ten. Proved: every directory below the model directory is tested exactly once in the order of the paths, and up to ten epochs in the order of the epochs.")
claim("C79", "partial", "C79_first_call_partial C79_second_call_refuted",
      "REFUTED: the list kept by the shared builder is extended in place, so a second call repeats the providers of the tasks; it gives the same list exactly if no task has a provider. Proved: the first call is right.")
claim("C68", "proved", "C68_no_gold C68_independent",
      "Extras are kept; the reader leaves them empty. C68_independent: gold data with other annotations give the tagger the same input.")
claim("C69", "partial", "C69_perfect_refuted C69_perfect_partial C69_accuracy",
      "REFUTED: if no word counts for a metric its score is 0 for perfect predictions too (CLAS of a text with functional relations only). Proved: every metric for which some gold word counts is 1 for perfect predictions, and for a tagger that keeps the segmentation every metric is the fraction of right words. The tagger is any function of the documents it gets.")
claim("C80", "partial", "C80_file_refuted C80_file_partial C80_any_file_partial",
      "REFUTED: FEATS are compared as strings; the writer sorts them by code point, so a gold file in the usual order (Number before NumForm) gives perfect predictions a Feats score of 0. "
      "C80_file_partial: 1 for every metric if the gold file is as the writer writes it. C80_any_file_partial: for every gold file that reader and script accept, with any comments, "
      "line ends, MISC and DEPS, 1 for every metric that counts a word, Feats and AllTags if all FEATS are in code point order. Missing there: ten-column lines that begin with #, negative HEADs.")

claim("C67", "partial", "C67_neural_tagging_refuted C67_neural_tagging_partial C67_ended C67_lazy C67_columns_needed",
      "REFUTED: the syntax can change: Document.from_document turns heads that say -1 inconsistently into roots (same cause as C65). "
      "Proved for every iterator of documents: one tagged document for each, same text, spans, sentences and extras, the morphology the "
      "labels denote (labels grouped by class, the last label that writes an attribute counts), the syntax kept up to that quirk and kept "
      "exactly when the two head indices agree about -1. The features and the network are arbitrary functions. Assumed of the training set: "
      "well-formed feature dictionaries, and no feature named UPOS or XPOS when features are labels. C67_columns_needed shows what happens "
      "when predictions have no columns.")
claim("C81", "proved", "C81_gold_labels C81_reproduced C81_labels_exist C81_denotes_once",
      "The network is any function that predicts these labels. Label names have to be distinct (otherwise merging the extractors fails) and label "
      "lengths not negative. C81_denotes_once shows in addition that the relation used in C67 to say what a prediction denotes leaves no freedom. "
      "Example C81_rare_rule: a rule below the threshold is lost.")

claim("C82", "proved", "C82_fed C82_trained C82_initialized C82_tasks C82_used",
      "TensorFlow is modelled by what has to hold of the graph: dimensions of placeholders, rows of looked up matrices, sizes of updated matrices, "
      "classes of masks and of gold labels; layers and numbers they compute are not modelled. Segmenters, lower-casing and float parsing are arbitrary functions. "
      "Assumed of the training set as in C67 and C81; of lemma_combo that label lengths are not negative and, for the initialization, that "
      "its file has vectors of the configured size (Example C82_size: otherwise they do not fit the matrix).")
claim("C83", "partial", "C83_tasks_refuted C83_tasks_partial",
      "REFUTED: no configuration with lemma_binary is ever set up: its builder inherits initializers(), which returns None. "
      "C83_tasks_partial says exactly which configurations are set up.")

claim("C84", "proved", "C84_dataset C84_predictions",
      "The package tdozat_parser is not in the repository; assumed of it: cache_predictions appends numbers and rows, sentences are numbered from 0 in the order in "
      "which they are yielded, every batch has the same fields and a row for each of its sentences. The dataset is also given an empty list for each document; "
      "C84_dataset says which numbers sentences have if these are skipped and if they are counted, Example C84_numbering_matters what happens in the second case. "
      "argsort is any function that sorts.")
claim("C85", "partial", "C85_after_failure_refuted C85_calls_partial C85_leftover",
      "REFUTED: predictions are dropped only at the end of a call that returns; after a failure the rows of the failed call stay and are given to other sentences. "
      "C85_calls_partial: calls that return, and calls whose documents raise, leave no trace.")
claim("C86", "partial", "C86_sessions_refuted C86_context_partial",
      "REFUTED: the message of the RuntimeError uses self.__name__, which raises AttributeError; a session is left open if restoring fails or if contexts are nested. "
      "C86_context_partial: a context that was entered once closes its session however the calls end.")
claim("C87", "proved", "C87_extra_fields C87_flags",
      "The outputs of the network are any tree of dictionaries.")
claim("C88", "partial", "C88_interrupt_refuted C88_sessions_partial C88_one_session C88_results",
      "REFUTED: Model.load closes its session only for Exceptions; a KeyboardInterrupt while restoring leaves it open. "
      "C88_sessions_partial: without that, the sessions that are open are exactly those of suspended generators.")
claim("C89", "partial", "C89_files_refuted C89_reader_partial",
      "REFUTED: the file is opened before the generator is started, closing a reader that was never advanced leaves it open; load_conllu_file never closes. "
      "C89_reader_partial: readers that were advanced once.")
claim("C90", "partial", "C90_batch_refuted C90_alone_partial",
      "REFUTED: every subword aggregator includes the padding up to the longest word of the batch, lemma_combo embeds it, Dilated_CNN convolves over the padding of the sentence. "
      "C90_alone_partial: without Dilated_CNN, if the longest words are in the sentence.")
claim("C91", "proved", "C91_window",
      "The window must end inside of the sentence; with subword features, or lemma_combo whose padding row is not zero, the longest words of the batches must be equally long (C90).")
claim("C92", "proved", "C92_dense C92_unweighted C92_missing_weight C92_combo C92_binary",
      "Rational numbers, any cross entropy, batches with a word. Without loss_weights it depends on whether tf.stack accepts a dictionary, which is left open. lemma_combo counts the padding of lemmas up to max_word_length.")
claim("C93", "proved", "C93_network C93_lemma",
      "Logits above the lowest float32, any total order.")
claim("C94", "partial", "C94_gold_refuted C94_gold_partial",
      "REFUTED: a rare rule is replaced by the most frequent one, which need not apply. C94_gold_partial: rules in the vocabulary.")
claim("C95", "partial", "C95_tested_is_best_refuted C95_tested_is_best_partial",
      "REFUTED: a seed listed twice makes runs share the names of their models. C95_tested_is_best_partial: different seeds, and some metric is printed or every candidate has epochs. Training and scoring are arbitrary functions of what came before.")
claim("C96", "partial", "C96_foreign_files_refuted C96_left_behind_refuted C96_restored_partial C96_kept",
      "REFUTED: with an empty model_dir foreign files can be removed; after an exception models stay. C96_restored_partial: model_dir not empty. Writing files never fails in the model.")
claim("C97", "partial", "C97_stub_refuted C97_pretrained_refuted C97_neural_partial C97_unknown",
      "REFUTED: stub never works, neural_pretrained not with delete_after. C97_neural_partial: neural works under the conditions listed.")
claim("C98", "proved", "C98_predictions",
      "Different seeds; the results are not within the directory of the models if that is deleted.")

claim("C99", "partial", "C99_buildable_refuted C99_buildable_partial",
      "REFUTED: BiLSTM_CNN and lemma_combo both name their convolutions cnn_kernel, with equal kernels at the same place the network cannot be built. "
      "C99_buildable_partial: exactly which configurations can be built. Sizes are given, placeholders and the optimizer's variables are left out.")
claim("C100", "proved", "C100_names C100_dense C100_recurrent C100_combo C100_features C100_encoder",
      "Variables made by tf.get_variable and tf.layers.dense; the names given by tensorflow to layers without a name are part of the model.")
claim("C101", "proved", "C101_weights_file",
      "float() is any function from text to rationals or errors; ValueError for bad lines under the assumption that float() raises nothing else.")
claim("C102", "partial", "C102_subtypes_refuted C102_relations_partial",
      "REFUTED: relations of words are cut at the colon, so a weight given for a relation with a subtype is never used. "
      "C102_relations_partial: a word counts with the weight of its relation up to the colon.")
claim("C103", "proved", "C103_no_other_metric C103_las C103_clas", "Scores are equal as rationals.")
claim("C104", "partial", "C104_proportions_refuted C104_proportions_partial",
      "REFUTED: relations without a weight keep the weight 1. C104_proportions_partial: all relations of the words have a weight.")
claim("C105", "partial", "C105_range_refuted C105_range_partial",
      "REFUTED: with the weight -1 for a relation a table shows 200. C105_range_partial: no weight of the file is negative.")
claim("C106", "proved", "C106_runs C106_output",
      "For every way to print numbers with digits, points and signs; the bars if numbers from 0 to 100 take at most ten characters.")
claim("C107", "proved", "C107_same_files",
      "For every way to print numbers that depends on the value only; precision, recall and F1 of metrics that count nothing are 0.")

claim("C108", "proved", "C108_round_trip C108_predictions C108_saves",
      "Pickles and the files of tf.train.Saver are arbitrary formats in which what is written can be read. Graphs are their tensors, operations and variables.")
claim("C109", "proved", "C109_other_path C109_epochs",
      "Paths without '..' and links. What the tester writes between two epochs is left out.")
claim("C110", "partial", "C110_whole_refuted C110_fresh_partial C110_retrained_partial",
      "REFUTED: over an older tagger an interruption before the graph is saved leaves the new extractor with the old network, which is loaded without complaint. "
      "C110_fresh_partial: a path without a tagger. C110_retrained_partial: same extractor, interpreter and network as before, files of values with checksums.")
claim("C111", "partial", "C111_this_training_refuted C111_empty_partial",
      "REFUTED: the last epochs of a longer earlier training are still there and are tested too. C111_empty_partial: nothing is below the directory before.")
claim("C112", "proved", "C112_combination C112_files",
      "The base has no key twice; for the files, the directory of models is not ''. Lists in json files contain no dictionaries.")
claim("C113", "partial", "C113_scores_refuted C113_choice_refuted C113_unshuffled_partial C113_grid_partial",
      "REFUTED: with a shuffler, even with a seed, the order of documents depends on the trainings made before, so the reported hyperparameters may have other scores alone and others may be better alone. "
      "C113_unshuffled_partial, C113_grid_partial: no shuffler, something is printed, no seed twice; other files, another time.")
claim("C114", "partial", "C114_test_set_refuted C114_missing_partial",
      "REFUTED: a test set without a path is noticed after the whole search. C114_missing_partial: everything else that is needed. Values of a wrong type are not treated: the model notices them when they are read.")
claim("C115", "partial", "C115_time_refuted C115_timeless_partial",
      "REFUTED: a shuffler without a seed takes the time. C115_timeless_partial: no shuffler or one with a seed, something is printed, no seed twice; a training depends only on its arguments and seed.")
claim("C116", "proved", "C116_feed C116_training C116_prediction",
      "C116_feed: in a prediction the placeholder keeps its default; C116_training: in a training step it is the setting; all placeholders of the network are different. C116_prediction: with 1 the network with dropout gives the answers of Model_Layers, if random numbers are not negative and x / 1 * 1 is x.")
claim("C117", "partial", "C117_layers_refuted C117_combo_refuted C117_bilstm_partial C117_dilated_partial C117_convolution_partial C117_heads_partial",
      "REFUTED: behind recurrent layers nothing is dropped (tf.layers.dropout without training=True), and word features with lemma_combo are trained without dropout. The partial theorems say where values are dropped: the input of the encoder, what is skipped to its output, the input of the convolution over bilstm, between the dense layers of every part of a label; everywhere by a random number of each value.")
claim("C118", "partial", "C118_share_refuted C118_zero_refuted C118_one_partial C118_mean_partial",
      "REFUTED: of n equally likely random numbers k keep the value with the setting k / n; with 0 a dense task computes the same logits for every word. C118_one_partial: 1 switches dropout off; C118_mean_partial: the mean is kept for settings k / n other than 0. Rational numbers.")
claim("C119", "partial", "C119_repeated_refuted C119_length_partial C119_direction_partial",
      "REFUTED: the slices of a row that is looked up several times are measured one by one, so their sum can be longer: 5 j for a word looked up j * j times with gradient 5. C119_length_partial: the squared length is at most 25 times the largest number of look-ups of a row (and the error of the root). C119_direction_partial: one factor between 0 and 1 for all gradients. Rational numbers, a root with bounded relative error.")
claim("C120", "partial", "C120_subwords_refuted C120_frozen_partial C120_embeddings_partial",
      "REFUTED: subwords without embedding_path and the characters of lemma_combo are always trained. C120_frozen_partial: variables that are not trainable never change; C120_embeddings_partial: so for word embeddings, trained embeddings and subwords with embedding_path.")
claim("C121", "partial", "C121_adam_refuted C121_rows_partial C121_new_rows_partial",
      "REFUTED: Adam changes every number that has momentum. C121_rows_partial: GD and RMSProp never change a row that is in no batch; C121_new_rows_partial: Adam neither, as long as the row has no momentum. The rules of the optimizers are those of tensorflow 1.14.")
claim("C122", "partial", "C122_deep_refuted C122_exact_partial C122_same_partial C122_shallow_partial C122_written_partial",
      "REFUTED: process_word calls itself for the head, so for every limit there is a sentence one word longer (each head is the next word) that raises RecursionError. C122_exact_partial: exactly the files are loaded in which no word has too many new words above it. C122_shallow_partial: sentences no longer or no deeper than the limit, and sentences of any length with heads to the left; C122_written_partial: whatever the writer writes without syntax. C122_same_partial: what is loaded does not depend on the limit. The limit is counted in calls of process_word.")

claim("C123", "partial", "C123_same_scores_refuted C123_same_failure_refuted C123_same_test_partial C123_accuracy_partial",
      "REFUTED: FEATS in another order than by code point are rewritten for the documents only (Feats 0 against 1); a ten-column line that begins with # inside a range is a comment for the "
      "reader and a word for the script (UDError against scores). C123_same_test_partial: without such lines and without negative HEADs both testers fail with the same exception or report the "
      "same, Feats and AllTags if all FEATS are in order; with saved results the predictions are assumed to be written without carriage returns. C123_accuracy_partial: what C69 says of the "
      "scores for documents holds for files.")

claim("C124", "partial", "C124_adam_refuted C124_gd_partial C124_rmsprop_partial C124_adam_partial C124_means",
      "REFUTED with Adam, which goes on in the direction of earlier gradients. C124_gd_partial, C124_rmsprop_partial: it holds with the two others, slices of one row added up. "
      "C124_adam_partial: with Adam numbers move against the mean of gradient and momentum, so against the gradient if the momentum does not point the other way. Rational numbers, a square root with "
      "a bounded relative error, constants in the usual ranges; gradients have the shape of their variables. C124_means: the means of squares, assumed not to be negative, never get negative.")

claim("C125", "partial", "C125_carriage_return_refuted C125_surrogate_refuted C125_round_trip_partial C125_round_trip_many_partial C125_codec_partial",
      "REFUTED: a carriage return in a field comes back from a string but ends a line of a file; a lone surrogate cannot be written to a file. C125_round_trip_partial, C125_round_trip_many_partial: "
      "without these characters the round trips of C20 hold for files, on the level of bytes. C125_codec_partial: encoding and decoding are inverse to each other.")
claim("C126", "proved", "C126_written", "Line ends of the system are \\n. Files are decoded as a whole; python decodes piece by piece and may yield documents before an error.")
claim("C127", "partial", "C127_kept_refuted C127_left_partial C127_success_partial",
      "REFUTED: the file is emptied when it is opened. C127_left_partial: what is left are whole lines, all documents before the failing one among them, and if a line cannot be encoded exactly the lines "
      "before it. C127_success_partial: a write succeeds exactly if the string can be made and encoded, and the file then holds it. Disk errors are not modelled.")
claim("C128", "partial", "C128_bom_refuted C128_reader_fails_partial C128_reader_partial C128_script_partial",
      "REFUTED: the mark stays in the first line, since the encoding is utf-8 and not utf-8-sig; the reader raises IndexError at a comment, the script UDError. C128_reader_fails_partial: so for every first "
      "line without tabs. C128_reader_partial: it does not matter if the file begins with an ordinary token or an empty node. C128_script_partial: the script rejects every file with the mark unless it begins "
      "with an empty node.")


claim("C129", "proved", "C129_rounding C129_rounded_once C129_well_formed C129_self_perfect",
      "Floats are modelled as rationals rounded after each operation (53 bits, nearest, ties to even), with the exponent unbounded: no overflow, no subnormal numbers, no nan. Products and sums of floats with CLAS weights and a file's weights are rounded as python does; for weights that are not whole the theorem on rounding says nothing, the ones on range and on a file against itself do.")
claim("C130", "partial", "C130_same_choice_refuted C130_one_metric_partial C130_several_metrics_partial",
      "REFUTED: with two metrics, 1/10 + 5/10 and 2/10 + 4/10 are a tie, but as floats the second sum is larger, so the later model replaces the earlier one. Proved: with one metric that counts (not CLAS or weighted LAS) the answers are the same for files of up to 2^25 tokens, words and sentences; with several word metrics and outputs tokenized like the gold file, a strictly better model is found better and a strictly worse one not. sum() is python's before 3.12, without compensation; for the two summands of the counterexample that makes no difference.")
claim("C131", "partial", "C131_average_between_refuted C131_average_near_partial C131_average_monotone",
      "REFUTED: the average of three seeds that all score 0.1 is larger than 0.1. Proved: for one and two seeds the average lies between; for any number it lies in [0, 1], is 1 or 0 if all scores are, and is within (n + 2) / 2^53 of the exact mean; better scores do not give a lower average. WeightedLAS is left out.")

claim("C132", "proved", "C132_number C132_order C132_table C132_same C132_assumed C132_script",
      "Numbers are floats as in C129, '{:.2f}' rounds their exact value. C132_assumed: the formatting has what C106 and C107 assume of it. Lines are aligned for names of up to 11 characters and scores between 0 and 1. Printing to a screen that fails is not modelled.")
claim("C133", "partial", "C133_ends_refuted C133_ends_partial",
      "REFUTED: with a relation that weighs a millionth and a wrong head at it the weighted LAS is printed as 100.00. Proved for the metrics that count (not CLAS or weighted LAS) and files of up to 9999 tokens, words and sentences.")

claim("C134", "proved", "C134_understood C134_order C134_evaluation C134_grid C134_script C134_names",
      "argparse (python 3.11.10; other versions treat = in short options differently) is modelled for these parsers; the argument -- and - as a file of weights are left out. Values written apart from their option must not begin with a dash (a dash alone may), files of weights must be there. Several short options in one argument (-vv, -vwfile, -vw file) are covered. json.load is any function.")
claim("C135", "partial", "C135_refused_refuted C135_missing_partial C135_unknown_partial C135_programs_partial C135_ends_partial",
      "REFUTED: --settings is not declared as required, so without it open(None) raises a TypeError. C135_missing_partial: always so. Proved: no program starts if an argument looks like an option (a dash, no digit or point behind it, no space in it) and is not one, nor letters of short options, nor an abbreviation of exactly one (with = only if the option takes a value), nor if there are too many or too few positional arguments. C135_ends_partial: with such an unknown option, and without the argument --, evaluation and grid_eval end with a usage message or the help; which of them is not claimed, and nothing like it for the script or for positional arguments.")
claim("C136", "partial", "C136_same_refuted C136_same_partial",
      "REFUTED: --method '--grid=a b', where an unknown option with a space in it is a value for evaluation, and a known option for grid_eval. Proved if no argument begins with --g; then the whole behaviour is the same.")


claim("C137", "partial", "C137_kept_refuted C137_ignored_partial C137_grid_partial C137_present_partial C137_evaluation_partial C137_models_partial",
      "REFUTED: grid_eval has --delete_after but always deletes (grid_eval.py:70). C137_ignored_partial: grid_eval ends alike with and without it. C137_grid_partial: it always leaves the directory of models empty. C137_evaluation_partial: evaluation with the option leaves it empty and other files but results as they were; C137_present_partial: without it no file that was there before is removed, even if the experiment fails. C137_models_partial: without it, with the method neural, there is a file for every set of hyperparameters, seed and epoch (below the least number of epochs of any set); that its content is the model trained is not claimed. The directory of models has a name that is not empty. json.load is any function.")


def main():
    names = set()
    theories = os.path.join(ROOT, "rocq", "theories")
    for f in sorted(os.listdir(theories)):
        if f.startswith("Props_") and f.endswith(".v"):
            names |= set(re.findall(r"^Theorem (\w+)", open(os.path.join(theories, f)).read(), re.M))
    used = [t for c in CLAIMS for t in c["theorems"]]
    missing = [t for t in used if t not in names]
    unused = sorted(names - set(used))
    assert not missing, missing
    assert not unused, unused
    ids = [json.loads(l)["id"] for l in open(os.path.join(ROOT, "properties.jsonl"))]
    assert all(c["property"] in ids for c in CLAIMS)
    assert len({c["property"] for c in CLAIMS}) == len(CLAIMS)
    for c in CLAIMS:
        assert ("partial" == c["status"]) == any(t.endswith(("_partial", "_refuted")) for t in c["theorems"]), c
    with open(os.path.join(ROOT, "MANIFEST.json"), "w") as o:
        json.dump({"claims": CLAIMS}, o, indent=1)
        o.write("\n")
    print(len(CLAIMS), "claims; without claim:", [i for i in ids if i not in {c["property"] for c in CLAIMS}])


main()
