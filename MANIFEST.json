{
 "claims": [
  {
   "property": "C01",
   "status": "proved",
   "theorems": [
    "C01_fold_partitions_corpus",
    "C01_fold_rejects_bad_ids"
   ],
   "note": "All corpus sizes, fold counts and fold ids."
  },
  {
   "property": "C02",
   "status": "proved",
   "theorems": [
    "C02_every_document_queried",
    "C02_exactly_once_when_dividing",
    "C02_at_most_twice"
   ],
   "note": ""
  },
  {
   "property": "C03",
   "status": "partial",
   "theorems": [
    "C03_query_sets_disjoint_refuted",
    "C03_query_sets_disjoint_iff_dividing"
   ],
   "note": "Refuted: false unless the fold count divides the corpus size; exact characterisation proved."
  },
  {
   "property": "C04",
   "status": "proved",
   "theorems": [
    "C04_split_keeps_records_together",
    "C04_split_succeeds"
   ],
   "note": "Success is proved for two or more documents with array categories."
  },
  {
   "property": "C05",
   "status": "proved",
   "theorems": [
    "C05_rows_stay_coherent",
    "C05_links_stay_coherent"
   ],
   "note": "Histories over all public operations, arbitrary shuffles."
  },
  {
   "property": "C06",
   "status": "proved",
   "theorems": [
    "C06_prune_keeps_largest_self_supporting_set",
    "C06_single_short_document_refuted"
   ],
   "note": "Square non-negative link matrices; includes termination and maximality. A one-document corpus failing the word test raises instead (refuted variant)."
  },
  {
   "property": "C07",
   "status": "partial",
   "theorems": [
    "C07_order_names_original_rows_refuted",
    "C07_order_after_loading_refuted",
    "C07_order_names_original_rows_partial"
   ],
   "note": "Refuted: a second prune_and_shuffle, or loading with an order, breaks it. Proved for at most one pruning before any split."
  },
  {
   "property": "C08",
   "status": "partial",
   "theorems": [
    "C08_limit_truncates_refuted",
    "C08_limit_only_shortens_order"
   ],
   "note": "Refuted: limit leaves the matrices alone and only shortens the order."
  },
  {
   "property": "C09",
   "status": "proved",
   "theorems": [
    "C09_grouping_recovers_categories",
    "C09_last_line_may_lack_newline"
   ],
   "note": ""
  },
  {
   "property": "C10",
   "status": "proved",
   "theorems": [
    "C10_undirected_is_sum_of_directions",
    "C10_symmetry_survives_selection",
    "C10_reorder_restricts_square_links"
   ],
   "note": ""
  },
  {
   "property": "C11",
   "status": "partial",
   "theorems": [
    "C11_binary_marks_nonzero_links_refuted",
    "C11_binary_is_zero_one_refuted",
    "C11_binary_marks_nonzero_links_canonical",
    "C11_binary_after_undirected"
   ],
   "note": "Refuted by stored zeros and repeated coordinates; proved for canonical matrices and after conversion to undirected."
  },
  {
   "property": "C12",
   "status": "partial",
   "theorems": [
    "C12_intercept_present_refuted",
    "C12_intercept_present_bounded",
    "C12_second_call_changes_nothing"
   ],
   "note": "Refuted by a column of mean one that is not constant; proved for features of at most one; idempotence proved in general."
  },
  {
   "property": "C13",
   "status": "proved",
   "theorems": [
    "C13_keeps_exactly_frequent_words"
   ],
   "note": ""
  },
  {
   "property": "C14",
   "status": "proved",
   "theorems": [
    "C14_completion_conserves_tokens",
    "C14_completion_returns"
   ],
   "note": "Signed or floating word counts; includes that it returns without a word threshold and which integer is chosen for each stored count."
  },
  {
   "property": "C15",
   "status": "partial",
   "theorems": [
    "C15_counts_are_nonnegative_refuted",
    "C15_counts_nonnegative_iff",
    "C15_counts_nonnegative_small_jitter"
   ],
   "note": "Refuted: large jitter makes either half negative; exact condition proved."
  },
  {
   "property": "C16",
   "status": "partial",
   "theorems": [
    "C16_threshold_removing_documents_raises",
    "C16_filter_returns_both_halves_refuted",
    "C16_threshold_met_by_all_returns"
   ],
   "note": "Refuted: whenever the filter removes a document the call raises; proved when it removes none."
  },
  {
   "property": "C17",
   "status": "partial",
   "theorems": [
    "C17_long_rows_are_divided",
    "C17_short_rows_are_copied",
    "C17_halves_add_up_refuted"
   ],
   "note": "Refuted for documents below the minimum, whose links are copied to both halves; proved for the others."
  },
  {
   "property": "C18",
   "status": "partial",
   "theorems": [
    "C18_fold_of_each_link",
    "C18_each_link_queried_once_divisible",
    "C18_leftover_links_never_queried",
    "C18_each_link_queried_once_refuted"
   ],
   "note": "Refuted: leftovers of the division are never queried; proved when the fold count divides the number of links; exact fold of each link proved."
  },
  {
   "property": "C19",
   "status": "partial",
   "theorems": [
    "C19_link_prediction_split_always_raises",
    "C19_link_prediction_split_returns_refuted"
   ],
   "note": "Refuted: the split point is a float, so the call always raises."
  },
  {
   "property": "C20",
   "status": "partial",
   "theorems": [
    "C20_returned_documents",
    "C20_single_feature_separates",
    "C20_split_succeeds",
    "C20_split_on_feature_separates_refuted",
    "C20_split_on_feature_disjoint_refuted",
    "C20_split_without_links_refuted"
   ],
   "note": "Refuted for several features, for features of both signs and without links; proved for one feature that is zero or positive."
  },
  {
   "property": "C21",
   "status": "partial",
   "theorems": [
    "C21_column_dropping_agrees",
    "C21_column_dropping_agrees_refuted"
   ],
   "note": "Refuted for column indices outside the matrix; proved for all others."
  },
  {
   "property": "C22",
   "status": "proved",
   "theorems": [
    "C22_soft_split_partitions",
    "C22_each_entry_has_its_own_draw"
   ],
   "note": ""
  },
  {
   "property": "C23",
   "status": "partial",
   "theorems": [
    "C23_map_between_zero_and_one",
    "C23_map_returns_iff",
    "C23_map_of_perfect_ranking",
    "C23_absent_links_score_zero_refuted"
   ],
   "note": "Range, when it returns, and value for perfect rankings proved. Refuted side claim of the docstring: absent links are not given zero."
  },
  {
   "property": "C24",
   "status": "partial",
   "theorems": [
    "C24_precision_at_most_one_refuted",
    "C24_precision_bound",
    "C24_precision_at_most_one_few_links"
   ],
   "note": "Refuted: m+1 links are counted but m divides; proved at most (m+1)/m, and at most one when no document has more than m expected links."
  },
  {
   "property": "C25",
   "status": "proved",
   "theorems": [
    "C25_recall_between_zero_and_one",
    "C25_recall_grows_with_m",
    "C25_recall_value"
   ],
   "note": ""
  },
  {
   "property": "C26",
   "status": "partial",
   "theorems": [
    "C26_default_groups_fail_for_any_link",
    "C26_default_groups_work_refuted",
    "C26_argument_untouched_refuted",
    "C26_argument_characterised",
    "C26_returns_iff_groups_cover"
   ],
   "note": "Refuted: default groups raise as soon as a document has a link, and the caller list is appended to; exact condition for returning proved."
  },
  {
   "property": "C27",
   "status": "partial",
   "theorems": [
    "C27_mrr_is_mean_reciprocal_rank",
    "C27_mrr_fails_iff_nothing_found",
    "C27_repeated_links_all_counted_refuted"
   ],
   "note": "Proved for rows without repeated columns. Refuted for rows with repeats: a repeat is skipped while scanning."
  },
  {
   "property": "C28",
   "status": "proved",
   "theorems": [
    "C28_counts_add_up",
    "C28_recall_totals_add_up"
   ],
   "note": ""
  },
  {
   "property": "C29",
   "status": "partial",
   "theorems": [
    "C29_combined_is_weighted_mean",
    "C29_order_of_folds_irrelevant",
    "C29_fails_iff_first_two_empty",
    "C29_success_independent_of_order_refuted",
    "C29_parts_combine_to_whole"
   ],
   "note": "Value, order independence of the value, exact failure condition, and parts-combine-to-whole proved; refuted that success is independent of fold order."
  },
  {
   "property": "C30",
   "status": "proved",
   "theorems": [
    "C30_vec_transpose_moves_entries",
    "C30_vec_transpose_twice",
    "C30_vec_transpose_numbers",
    "C30_left_over_rows_raise"
   ],
   "note": "Includes well-formedness and shape of the result, the numbers, and the error for stored elements in left-over rows."
  },
  {
   "property": "C31",
   "status": "proved",
   "theorems": [
    "C31_matrix_is_a_permutation",
    "C31_maps_vec_to_vec_of_transpose",
    "C31_inverse_is_that_of_the_swapped_shape"
   ],
   "note": ""
  },
  {
   "property": "C32",
   "status": "proved",
   "theorems": [
    "C32_csr_indices_are_the_coordinates",
    "C32_row_of_each_position"
   ],
   "note": ""
  },
  {
   "property": "C33",
   "status": "partial",
   "theorems": [
    "C33_range_from_row_zero",
    "C33_full_kernels",
    "C33_wrapper_from_row_zero",
    "C33_wrapper_length",
    "C33_what_a_later_start_does_partial",
    "C33_range_refuted"
   ],
   "note": "Refuted: for a range not starting at row zero the elements are read from the top of the matrix; exact behaviour for every range proved; correct from row zero and for the kernels without a range."
  },
  {
   "property": "C34",
   "status": "proved",
   "theorems": [
    "C34_double_error",
    "C34_single_error",
    "C34_sides",
    "C34_numpy_error",
    "C34_positive"
   ],
   "note": "Real arithmetic."
  },
  {
   "property": "C35",
   "status": "proved",
   "theorems": [
    "C35_rows_are_distributions",
    "C35_shift_invariant",
    "C35_no_overflow",
    "C35_log_sum_exp",
    "C35_empty_row_raises",
    "C35_columns_are_distributions"
   ],
   "note": "Real arithmetic; rows and columns; includes the relation with log-sum-exp."
  },
  {
   "property": "C36",
   "status": "partial",
   "theorems": [
    "C36_exactly_when",
    "C36_needs_two_measurements",
    "C36_flat_in_magnitude_refuted",
    "C36_flat_in_magnitude_partial"
   ],
   "note": "Refuted: a steeply falling bound counts as converged; exact condition proved; the claim holds for bounds that did not fall."
  },
  {
   "property": "C37",
   "status": "partial",
   "theorems": [
    "C37_segments_add_up",
    "C37_large_frequency_runs_longer",
    "C37_requested_iterations_refuted",
    "C37_vb_single",
    "C37_vb_double_refuted",
    "C37_vb_double_never_runs",
    "C37_svb_single_iff",
    "C37_svb_double_iff",
    "C37_svb_default_plan_refuted"
   ],
   "note": "Refuted: a logging frequency above the iteration count runs iterations + frequency; exact otherwise. Variational training in double precision always raises a TypeError; the stochastic trainer raises one unless there is a single segment (single precision) or a convergence test succeeds (double)."
  },
  {
   "property": "C38",
   "status": "proved",
   "theorems": [
    "C38_counts_match",
    "C38_counts_match_at_every_point",
    "C38_initial_counts_match",
    "C38_positive_priors_never_abort"
   ],
   "note": "Exact (rational) arithmetic. Holds for any priors and at every point, including abandoned sweeps; with positive priors no sweep is abandoned."
  },
  {
   "property": "C39",
   "status": "proved",
   "theorems": [
    "C39_query_leaves_model",
    "C39_training_adds_counts",
    "C39_empty_document_rejected",
    "C39_rejected_iff"
   ],
   "note": "Exact arithmetic, positive priors."
  },
  {
   "property": "C40",
   "status": "proved",
   "theorems": [
    "C40_word_lists_keep_bags",
    "C40_flat_list_keeps_bags",
    "C40_large_vocabulary_rejected"
   ],
   "note": "For counts that are not negative; whatever the random numbers."
  },
  {
   "property": "C41",
   "status": "proved",
   "theorems": [
    "C41_initial_counts_match",
    "C41_counts_match_at_every_point",
    "C41_counts_match",
    "C41_query_counts_match",
    "C41_training_counts_match"
   ],
   "note": "Up to 256 topics, as the code asserts; exact integers."
  },
  {
   "property": "C42",
   "status": "proved",
   "theorems": [
    "C42_samples_recorded",
    "C42_burn_in_records_nothing",
    "C42_training_samples"
   ],
   "note": "Includes the contents of the sums."
  },
  {
   "property": "C43",
   "status": "partial",
   "theorems": [
    "C43_query_keeps_sums",
    "C43_word_dists_scaled",
    "C43_word_dists_unchanged_same_samples",
    "C43_word_dists_unchanged_refuted"
   ],
   "note": "Refuted: the sums stay but are divided by the number of query samples; exact scaling proved; holds when the numbers agree."
  },
  {
   "property": "C44",
   "status": "partial",
   "theorems": [
    "C44_logging_fails",
    "C44_default_plan_never_runs",
    "C44_default_plan_runnable_refuted",
    "C44_quiet_plan_runs_iff",
    "C44_quiet_plan_error",
    "C44_quiet_sample_counts"
   ],
   "note": "Refuted: the default plan logs, and logging calls a name that is not defined; without logging it fails for two to nine iterations (division by zero). Exact conditions proved."
  },
  {
   "property": "C45",
   "status": "partial",
   "theorems": [
    "C45_nothing_works_before_fit",
    "C45_model_never_lost",
    "C45_resume_continues",
    "C45_resume_elsewhere",
    "C45_fit_transform_is_two_calls",
    "C45_transform_needs_successful_fit_refuted"
   ],
   "note": "The wrapped modules are arbitrary functions that may raise; proved over all call histories. Refuted part: a failed first fit leaves a random model with which transform then works."
  },
  {
   "property": "C46",
   "status": "partial",
   "theorems": [
    "C46_admixture_is_log_probability",
    "C46_admixture_floors_impossible_words",
    "C46_admixture_not_positive",
    "C46_mixture_score_value",
    "C46_mixture_overestimates",
    "C46_mixture_is_log_probability_refuted"
   ],
   "note": "Real arithmetic. Proved for admixtures; refuted for mixtures: the logarithm is missing, the score exceeds the log-probability by at least one per document; exact value proved."
  },
  {
   "property": "C47",
   "status": "proved",
   "theorems": [
    "C47_totals_are_of_finished_folds",
    "C47_fails_iff_no_fold_finishes"
   ],
   "note": "Work of a fold (training, inference, likelihood) is an arbitrary function that may raise."
  },
  {
   "property": "C48",
   "status": "partial",
   "theorems": [
    "C48_every_fold_is_evaluated",
    "C48_truncation_refuted"
   ],
   "note": "Refuted: the counter of finished folds is never raised, all folds are run; exact behaviour proved."
  },
  {
   "property": "C49",
   "status": "partial",
   "theorems": [
    "C49_order",
    "C49_visits_differ_by_at_most_one",
    "C49_batch_visits_exactly_once",
    "C49_minibatch_visits_at_least_once",
    "C49_exactly_once_refuted"
   ],
   "note": "Refuted for one pass of mini-batch training: it visits D//batchSize+1 batches, so some documents twice. Proved: batch training visits every document exactly once per iteration; over any run two documents differ by at most one visit; a mini-batch pass visits every document at least once."
  },
  {
   "property": "C50",
   "status": "partial",
   "theorems": [
    "C50_query_learns_the_query",
    "C50_update_flag_ignored",
    "C50_model_unchanged_refuted"
   ],
   "note": "Refuted: query calls train, which ignores updateVocab and overwrites the word parameters. Proved: after a batch query the topics hold the prior plus the words of the query documents, whatever they were before."
  },
  {
   "property": "C51",
   "status": "proved",
   "theorems": [
    "C51_params_to_means_and_back",
    "C51_means_to_params_and_back",
    "C51_means_are_distributions",
    "C51_params_of_distributions"
   ],
   "note": "Real arithmetic."
  },
  {
   "property": "C52",
   "status": "proved",
   "theorems": [
    "C52_each_link_once",
    "C52_only_links",
    "C52_unsorted_rows_refuted"
   ],
   "note": "Proved for rows with sorted indices, which is the quantifier of the claim. Also shown that unsorted rows lose links."
  },
  {
   "property": "C53",
   "status": "partial",
   "theorems": [
    "C53_lro",
    "C53_similar_topics",
    "C53_mtm",
    "C53_rtm",
    "C53_tfidf",
    "C53_tfidf_zero_weights_refuted",
    "C53_single_precision_refuted"
   ],
   "note": "Proved over the reals for the LRO, LDA-similarity, MTM and RTM predictors, and for TF-IDF when no document has zero weight. Refuted for documents of zero TF-IDF weight, whose score is NaN, and for minima stored in single precision, the default."
  },
  {
   "property": "C54",
   "status": "partial",
   "theorems": [
    "C54_side_topic_files",
    "C54_side_topic_files_of_others",
    "C54_correlated_files_never_found",
    "C54_saved_files_are_found_refuted",
    "C54_name_from_model_found"
   ],
   "note": "Refuted for correlated topic models (never found) and for folds from ten on; exact condition proved for side-topic models."
  },
  {
   "property": "C55",
   "status": "partial",
   "theorems": [
    "C55_accepted_spellings",
    "C55_others_rejected",
    "C55_one_or_two_types",
    "C55_more_types_rejected_refuted"
   ],
   "note": "Proved for single types; refuted part: more than two types separated by colons are not rejected."
  },
  {
   "property": "C56",
   "status": "partial",
   "theorems": [
    "C56_reads_back_with_doubled_quotes",
    "C56_round_trip_iff_no_quote",
    "C56_round_trip_refuted"
   ],
   "note": "Refuted: quotation marks are doubled twice; round trip proved exactly for text without any."
  },
  {
   "property": "C57",
   "status": "proved",
   "theorems": [
    "C57_balanced_text",
    "C57_any_text",
    "C57_unbalanced_text"
   ],
   "note": "Proved, including unbalanced text."
  },
  {
   "property": "C58",
   "status": "partial",
   "theorems": [
    "C58_allotments",
    "C58_target_met_refuted",
    "C58_takes_everything_refuted"
   ],
   "note": "Refuted: the early exit gives every group the rounded-down share, so the total can miss the target by up to one less than the number of groups, and asking for more than there is raises ZeroDivisionError. What is proved: no allotment exceeds its group or is negative, and the total is within the number of groups of the target."
  },
  {
   "property": "C59",
   "status": "proved",
   "theorems": [
    "C59_weighted_means",
    "C59_no_documents",
    "C59_between"
   ],
   "note": "Rational arithmetic."
  },
  {
   "property": "C60",
   "status": "partial",
   "theorems": [
    "C60_fold_conventions_agree_refuted",
    "C60_script_query_is_previous_fold"
   ],
   "note": "Refuted: the script queries the previous fold of the class."
  },
  {
   "property": "C61",
   "status": "partial",
   "theorems": [
    "C61_training_in_callers_order",
    "C61_weights_stay_sorted",
    "C61_no_iterations",
    "C61_training_succeeds",
    "C61_weights_in_callers_order_refuted",
    "C61_order_of_documents_refuted"
   ],
   "note": "Proved over the reals for means, variances and lengths: training agrees with training in the order of the caller, one document at a time. Refuted for the topic weights, which are neither sorted nor put back, and so for the independence of the result from the order of the documents."
  },
  {
   "property": "C62",
   "status": "partial",
   "theorems": [
    "C62_training_in_bounds",
    "C62_training_completes_iff",
    "C62_default_training_iff",
    "C62_query_in_bounds",
    "C62_query_completes_iff",
    "C62_default_query_overflows",
    "C62_training_in_bounds_refuted",
    "C62_query_in_bounds_refuted"
   ],
   "note": "Refuted: with default plans training overflows the array below 50 iterations and queries overflow it from 20 iterations on. Proved exactly when runs stay inside. Exact rational arithmetic; the optimiser is any function that keeps the priors positive."
  },
  {
   "property": "C63",
   "status": "partial",
   "theorems": [
    "C63_steps_keep_distributions",
    "C63_extreme_steps",
    "C63_kappa_steps",
    "C63_default_steps",
    "C63_default_first_step_refuted",
    "C63_variance_first_step",
    "C63_variance_step_refuted",
    "C63_amari_step_refuted"
   ],
   "note": "Refuted for the schedule: the first step of the default plan is above one, and so can be those of the variance and Amari rates. Proved for the update, for delays of one or more and for all later steps."
  },
  {
   "property": "C64",
   "status": "proved",
   "theorems": [
    "C64_tokens_conserved",
    "C64_words_conserved",
    "C64_vocabulary",
    "C64_stm_vocabulary"
   ],
   "note": "Proved over the reals for the correlated model: token and word conservation for all positive weights, vocabularies for whole training runs in both modes. The first update of side-topic training is treated under C61 and C136."
  },
  {
   "property": "C65",
   "status": "partial",
   "theorems": [
    "C65_rectangular_link_columns_kept_refuted",
    "C65_rectangular_link_columns_kept_without_threshold"
   ],
   "note": "Refuted with a link threshold; proved without one."
  },
  {
   "property": "C66",
   "status": "partial",
   "theorems": [
    "C66_prune_works_without_categories_refuted",
    "C66_failed_prune_leaves_dataset_alone_refuted"
   ],
   "note": "Refuted: the call always raises without array categories, and leaves a half-reordered dataset."
  },
  {
   "property": "C67",
   "status": "partial",
   "theorems": [
    "C67_auto_convert_gives_sparse_storage_refuted",
    "C67_sparse_storage_characterised"
   ],
   "note": "Refuted: nothing is converted unless debug is set; exact characterisation proved."
  },
  {
   "property": "C68",
   "status": "partial",
   "theorems": [
    "C68_mirror_restores_off_diagonal",
    "C68_mirror_is_symmetric",
    "C68_mirror_doubles_diagonal",
    "C68_mirror_restores_matrix_refuted"
   ],
   "note": "Refuted: self-links are doubled; proved off the diagonal, and symmetry proved in general."
  },
  {
   "property": "C69",
   "status": "partial",
   "theorems": [
    "C69_dense_writes_every_cell",
    "C69_dense_agrees_with_sparse",
    "C69_ragged_writes_outside",
    "C69_dense_stays_inside_refuted"
   ],
   "note": "Agreement and full coverage proved when p divides the row count; otherwise always a write outside the buffer (refuted)."
  },
  {
   "property": "C70",
   "status": "partial",
   "theorems": [
    "C70_out_receives_result_partial",
    "C70_out_untouched_for_full_range",
    "C70_out_receives_result_refuted"
   ],
   "note": "Refuted: in double precision over the full range the given matrix is ignored; proved for all other calls."
  },
  {
   "property": "C71",
   "status": "partial",
   "theorems": [
    "C71_fallback_raises_with_more_documents",
    "C71_entropy_same_for_every_dtype_refuted"
   ],
   "note": "Refuted: the fallback takes the logarithm of another number and raises with more documents than topics."
  },
  {
   "property": "C72",
   "status": "partial",
   "theorems": [
    "C72_log1pexp_monotone_refuted",
    "C72_log1pexp_monotone_partial"
   ],
   "note": "Refuted at the upper seam; proved up to twice the tolerance."
  },
  {
   "property": "C73",
   "status": "partial",
   "theorems": [
    "C73_scale_is_used_refuted",
    "C73_scale_is_used_partial"
   ],
   "note": "Refuted: no variant uses the scale; proved for scales of one."
  },
  {
   "property": "C74",
   "status": "proved",
   "theorems": [
    "C74_safe_log_in_place_agrees",
    "C74_safe_log_values",
    "C74_x_log_x"
   ],
   "note": "Real arithmetic."
  },
  {
   "property": "C75",
   "status": "proved",
   "theorems": [
    "C75_weighted_sum_error",
    "C75_weighted_sum_error_single",
    "C75_missing_weight"
   ],
   "note": "Real arithmetic for the sums."
  },
  {
   "property": "C76",
   "status": "proved",
   "theorems": [
    "C76_self_soft_dot_value",
    "C76_between_extremes",
    "C76_shift_is_maximum"
   ],
   "note": "Real arithmetic."
  },
  {
   "property": "C77",
   "status": "proved",
   "theorems": [
    "C77_safe_det_is_the_maximum"
   ],
   "note": "Real arithmetic."
  },
  {
   "property": "C78",
   "status": "partial",
   "theorems": [
    "C78_second_run_counts_corpus_twice",
    "C78_resumed_counts_match_refuted"
   ],
   "note": "Refuted: the corpus is counted twice; exact totals proved."
  },
  {
   "property": "C79",
   "status": "partial",
   "theorems": [
    "C79_means_match",
    "C79_variances_match_double",
    "C79_initial_variances",
    "C79_variances_match_single_refuted"
   ],
   "note": "Refuted for single precision (a factor is missing); proved for double precision and for the expected counts in both. The probabilities are arbitrary."
  },
  {
   "property": "C80",
   "status": "partial",
   "theorems": [
    "C80_cvb0_totals_stay_consistent",
    "C80_cvb_first_training_consistent",
    "C80_cvb_totals_become_variances",
    "C80_cvb_further_training_contents",
    "C80_cvb_totals_stay_consistent_refuted"
   ],
   "note": "Proved for CVB0 and for first training of CVB; refuted for further training of CVB, which overwrites totals with variances."
  },
  {
   "property": "C81",
   "status": "proved",
   "theorems": [
    "C81_measuring_keeps_counts"
   ],
   "note": "Exact arithmetic."
  },
  {
   "property": "C82",
   "status": "partial",
   "theorems": [
    "C82_logged_numbers",
    "C82_logged_number_is_last_iteration_refuted"
   ],
   "note": "Refuted: one segment too low, except for the last; exact numbers proved."
  },
  {
   "property": "C83",
   "status": "partial",
   "theorems": [
    "C83_training_runs",
    "C83_query_runs",
    "C83_every_draw_selects_refuted"
   ],
   "note": "Refuted for a draw of exactly zero (write before the row); proved for all positive draws."
  },
  {
   "property": "C84",
   "status": "proved",
   "theorems": [
    "C84_drawn_by_conditional"
   ],
   "note": "Exact arithmetic; positive draws."
  },
  {
   "property": "C85",
   "status": "proved",
   "theorems": [
    "C85_every_token_once"
   ],
   "note": ""
  },
  {
   "property": "C86",
   "status": "partial",
   "theorems": [
    "C86_training_distributions",
    "C86_query_distributions",
    "C86_default_plan_has_samples_iff",
    "C86_short_runs_refuted"
   ],
   "note": "Refuted for default plans below five iterations (no samples, NaN); proved whenever a sample is taken."
  },
  {
   "property": "C87",
   "status": "proved",
   "theorems": [
    "C87_memberships"
   ],
   "note": "Bookkeeping only: the multinomial draw is arbitrary."
  },
  {
   "property": "C88",
   "status": "partial",
   "theorems": [
    "C88_returns_last_state",
    "C88_average_returned_refuted"
   ],
   "note": "Refuted: the samples are collected and dropped, the last state is returned; exact behaviour proved."
  },
  {
   "property": "C89",
   "status": "partial",
   "theorems": [
    "C89_matrices_never_work",
    "C89_matrices_error",
    "C89_datasets_work",
    "C89_matrices_never_resume",
    "C89_fit_transform_on_matrices_refuted"
   ],
   "note": "Refuted for matrices: each call wraps them anew, so the second half always raises a ValueError. Proved for datasets."
  },
  {
   "property": "C90",
   "status": "partial",
   "theorems": [
    "C90_expected_score_needs_query_state",
    "C90_expected_score_error",
    "C90_score_without_assignments_refuted"
   ],
   "note": "Refuted: the expected methods raise an UnboundLocalError; never succeed."
  },
  {
   "property": "C91",
   "status": "partial",
   "theorems": [
    "C91_model_kept",
    "C91_score_given_assignments_keeps_all",
    "C91_score_forgets",
    "C91_scoring_keeps_resumability_refuted"
   ],
   "note": "The model part is proved (assuming that module queries return the model given); the resuming part is refuted."
  },
  {
   "property": "C92",
   "status": "proved",
   "theorems": [
    "C92_find_query_state_restores",
    "C92_find_query_state_result"
   ],
   "note": ""
  },
  {
   "property": "C93",
   "status": "proved",
   "theorems": [
    "C93_training",
    "C93_empty_documents_refused"
   ],
   "note": "Real arithmetic, any function for digamma, without measurements (see C96)."
  },
  {
   "property": "C94",
   "status": "partial",
   "theorems": [
    "C94_query_result",
    "C94_query_ignores_start",
    "C94_zero_iterations_fail",
    "C94_any_iteration_count_refuted"
   ],
   "note": "Proved for every iteration count but zero, which raises (refuted). Any function for digamma."
  },
  {
   "property": "C95",
   "status": "partial",
   "theorems": [
    "C95_expected_likelihood_of_prior",
    "C95_expected_likelihood_of_posterior_fails",
    "C95_expected_likelihood_refuted"
   ],
   "note": "Proved for the prior, for any function with the recurrence of loggamma; with a query state it always raises (refuted)."
  },
  {
   "property": "C96",
   "status": "partial",
   "theorems": [
    "C96_measuring_fails",
    "C96_default_training_succeeds_refuted"
   ],
   "note": "Refuted: measuring the bound reads fields that the model lacks; raises unless the first iteration converges."
  },
  {
   "property": "C97",
   "status": "proved",
   "theorems": [
    "C97_point_likelihood"
   ],
   "note": "Real arithmetic."
  },
  {
   "property": "C98",
   "status": "proved",
   "theorems": [
    "C98_perplexity_is_inverse_mean_probability",
    "C98_better_likelihood_lower_perplexity",
    "C98_at_least_one"
   ],
   "note": "Real arithmetic."
  },
  {
   "property": "C99",
   "status": "partial",
   "theorems": [
    "C99_single_fold_reports_training_data_and_saves",
    "C99_single_fold_not_saved_refuted"
   ],
   "note": "Refuted: the model is saved."
  },
  {
   "property": "C100",
   "status": "partial",
   "theorems": [
    "C100_insample_runs_requested_folds",
    "C100_tags_run_target_folds",
    "C100_tags_with_default_option_raise",
    "C100_default_runs_all_folds_refuted"
   ],
   "note": "Proved for the in-sample driver; refuted for the tag driver, which with the default runs no fold and raises."
  },
  {
   "property": "C101",
   "status": "partial",
   "theorems": [
    "C101_no_hashtag_deleted",
    "C101_hashtags_deleted_refuted",
    "C101_proportion_one_deletes_hashtags"
   ],
   "note": "Refuted: the driver passes a proportion of zero, nothing is moved; moved completely for a proportion of one (proved)."
  },
  {
   "property": "C102",
   "status": "partial",
   "theorems": [
    "C102_binary_counts_give_fractions",
    "C102_precision_is_a_fraction_refuted"
   ],
   "note": "Proved for counts of zero and one; refuted for larger counts."
  },
  {
   "property": "C103",
   "status": "partial",
   "theorems": [
    "C103_map_ignores_model",
    "C103_mrr_ignores_model",
    "C103_precision_tables_ignore_model",
    "C103_better_model_scores_higher_refuted"
   ],
   "note": "Refuted: every measure is independent of the model, proved for all models."
  },
  {
   "property": "C104",
   "status": "proved",
   "theorems": [
    "C104_popular_words"
   ],
   "note": ""
  },
  {
   "property": "C105",
   "status": "partial",
   "theorems": [
    "C105_names_differ",
    "C105_different_models_differ_refuted"
   ],
   "note": "Proved for a fixed kind of model; refuted across kinds, since slashes and dashes become the same character."
  },
  {
   "property": "C106",
   "status": "partial",
   "theorems": [
    "C106_documented_models_all_rejected",
    "C106_documented_models_accepted_refuted",
    "C106_accepted_models"
   ],
   "note": "Refuted: all documented names are rejected; the set of accepted names is proved."
  },
  {
   "property": "C107",
   "status": "proved",
   "theorems": [
    "C107_field_ends_at_first_brace",
    "C107_text_without_braces_kept"
   ],
   "note": ""
  },
  {
   "property": "C108",
   "status": "proved",
   "theorems": [
    "C108_mask_read_back",
    "C108_missing_index_rejected"
   ],
   "note": "int() is any function that reads decimal numerals."
  },
  {
   "property": "C109",
   "status": "proved",
   "theorems": [
    "C109_score_of_given_topics",
    "C109_given_topics_rejected",
    "C109_score_of_given_state",
    "C109_both_given_rejected",
    "C109_score_infers_topics",
    "C109_document_completion",
    "C109_failures_passed_on"
   ],
   "note": "The wrapped modules are arbitrary functions that may raise. See C90 for the expected methods with neither kind of assignment."
  },
  {
   "property": "C110",
   "status": "proved",
   "theorems": [
    "C110_fit_iterations",
    "C110_transform_iterations"
   ],
   "note": "The wrapped modules are arbitrary functions that may raise."
  },
  {
   "property": "C111",
   "status": "proved",
   "theorems": [
    "C111_enough_and_not_more",
    "C111_target_reached"
   ],
   "note": "The total of all groups is within the number of groups of the target, as C58 is."
  },
  {
   "property": "C112",
   "status": "proved",
   "theorems": [
    "C112_strip",
    "C112_user_names",
    "C112_counts_are_totals",
    "C112_bad_lines"
   ],
   "note": "Text is a list of 8-bit characters."
  },
  {
   "property": "C113",
   "status": "partial",
   "theorems": [
    "C113_read_back",
    "C113_no_large_documents",
    "C113_every_table_is_read_refuted"
   ],
   "note": "Refuted: a table without documents of three or more (or of five or more) links makes the reader divide by zero. All other tables are proved to be read back. The number formats are arbitrary functions whose text has no bar and is read by float()."
  },
  {
   "property": "C114",
   "status": "partial",
   "theorems": [
    "C114_batch_training_conserves_tokens",
    "C114_minibatch_training_conserves_document_tokens",
    "C114_reported_distributions",
    "C114_amari_parameters",
    "C114_amari_refuted"
   ],
   "note": "Refuted for the Amari rate, where the conversion to parameters is applied twice. Proved for batch training and, for documents, for the kappa rate. Real arithmetic; digamma arbitrary."
  },
  {
   "property": "C115",
   "status": "partial",
   "theorems": [
    "C115_parameters_stay_positive",
    "C115_new_models_stay_positive",
    "C115_trained_models_refuted"
   ],
   "note": "Refuted for models that have been trained before under the default plan. Proved for delays of at least one, and for new models under any positive delay."
  },
  {
   "property": "C116",
   "status": "partial",
   "theorems": [
    "C116_weight_of_a_batch",
    "C116_corpus_weight_refuted"
   ],
   "note": "Refuted: mini-batch gradients are not scaled to the corpus."
  },
  {
   "property": "C117",
   "status": "partial",
   "theorems": [
    "C117_stochastic_rates_need_a_batch_size",
    "C117_batch_size_selects_kappa",
    "C117_requested_rate_refuted"
   ],
   "note": "Refuted: a batch size selects the kappa rate whatever is asked for, and no batch size makes the other rates divide by zero."
  },
  {
   "property": "C118",
   "status": "partial",
   "theorems": [
    "C118_seeded_topics_are_distributions",
    "C118_seeding_ends",
    "C118_empty_documents_never_end",
    "C118_seeding_ends_refuted"
   ],
   "note": "Refuted for termination: documents without words make seeding loop forever. Proved that topics are distributions and that seeding ends if no document is empty."
  },
  {
   "property": "C119",
   "status": "partial",
   "theorems": [
    "C119_new_query_state",
    "C119_single_document_fails",
    "C119_every_corpus_refuted"
   ],
   "note": "Refuted for a single document, whose length becomes a scalar."
  },
  {
   "property": "C120",
   "status": "partial",
   "theorems": [
    "C120_cosine",
    "C120_same_corpus",
    "C120_same_proportions",
    "C120_held_out_queries_refuted",
    "C120_integer_counts_refuted"
   ],
   "note": "Proved for documents of one corpus with floating-point counts. Refuted for held-out documents, which are weighted by their own document frequencies, and for integer counts."
  },
  {
   "property": "C121",
   "status": "proved",
   "theorems": [
    "C121_order",
    "C121_range"
   ],
   "note": "Proved over the reals; the ranking is strict for distances above the smoothing constant."
  },
  {
   "property": "C122",
   "status": "proved",
   "theorems": [
    "C122_scores_are_a_distribution"
   ],
   "note": "Proved over the reals."
  },
  {
   "property": "C123",
   "status": "partial",
   "theorems": [
    "C123_query_raises",
    "C123_query_without_iterations",
    "C123_query_returns_topics_refuted"
   ],
   "note": "Refuted: a query of at least one document with at least one iteration always raises TypeError."
  },
  {
   "property": "C124",
   "status": "proved",
   "theorems": [
    "C124_training_conserves_tokens",
    "C124_intercept_column",
    "C124_reported_topics",
    "C124_new_state"
   ],
   "note": "Proved over the reals for any weight update and any digamma. The weight update itself is an oracle."
  },
  {
   "property": "C125",
   "status": "proved",
   "theorems": [
    "C125_batch_training_is_mean_field",
    "C125_links_pull_by_their_gradient",
    "C125_relational_update",
    "C125_unlinked_documents_as_in_lda"
   ],
   "note": "Proved over the reals: whole training runs for LDA, one document update for relational models."
  },
  {
   "property": "C126",
   "status": "partial",
   "theorems": [
    "C126_training_counts_match",
    "C126_sample_count",
    "C126_training_distributions",
    "C126_query_distributions",
    "C126_document_without_features_refuted",
    "C126_negative_priors_refuted"
   ],
   "note": "Proved when all priors are positive; refuted for documents without features (write before the start of a row) and for negative priors (negative probabilities)."
  },
  {
   "property": "C127",
   "status": "partial",
   "theorems": [
    "C127_only_last_round_stored",
    "C127_all_stored_iff_one_round",
    "C127_counted_samples_stored_refuted"
   ],
   "note": "Refuted: every round overwrites the slots of the one before. Proved that the slots hold the last round and zeros, and that all samples are there exactly when there is at most one round."
  },
  {
   "property": "C128",
   "status": "partial",
   "theorems": [
    "C128_sampler_prior_is_smaller",
    "C128_sampler_uses_fitted_prior_refuted"
   ],
   "note": "Refuted: sampling uses x.w, the objective exp(x.w); they differ for all features and weights."
  },
  {
   "property": "C129",
   "status": "partial",
   "theorems": [
    "C129_query_scales_word_distributions",
    "C129_query_keeps_word_distributions_refuted"
   ],
   "note": "Refuted unless the numbers of samples agree; proved that the distributions are scaled by the ratio of the numbers of samples."
  },
  {
   "property": "C130",
   "status": "proved",
   "theorems": [
    "C130_gradient_is_derivative",
    "C130_objective_is_posterior"
   ],
   "note": "Proved over the reals; gammaln is any function whose derivative is the digamma used."
  },
  {
   "property": "C131",
   "status": "proved",
   "theorems": [
    "C131_iteration_gain",
    "C131_query_improves",
    "C131_stm_query_improves",
    "C131_posterior_gradient",
    "C131_fixed_points_are_stationary"
   ],
   "note": "Proved over the reals for the full-covariance mode of both modules; scipy.linalg.inv is any function that inverts the matrices it is given."
  },
  {
   "property": "C132",
   "status": "proved",
   "theorems": [
    "C132_training_improves",
    "C132_training_succeeds"
   ],
   "note": "Proved over the reals for the full-covariance mode (with the identity covariance that the code uses); the fast mode is not covered."
  },
  {
   "property": "C133",
   "status": "partial",
   "theorems": [
    "C133_covariance_is_identity",
    "C133_learns_covariance_refuted"
   ],
   "note": "Refuted: the covariance is replaced by the identity in every iteration."
  },
  {
   "property": "C134",
   "status": "partial",
   "theorems": [
    "C134_query_returns_means",
    "C134_fast_query_returns_softmax",
    "C134_query_keeps_variances",
    "C134_fast_query_refuted"
   ],
   "note": "Proved for means in the full mode; refuted in the fast mode, where the softmax of the initial means is returned; the variances are never returned."
  },
  {
   "property": "C135",
   "status": "partial",
   "theorems": [
    "C135_single_document_refuted",
    "C135_other_corpora"
   ],
   "note": "Refuted: np.squeeze turns the length of a single document into a scalar. Proved for other corpora."
  },
  {
   "property": "C136",
   "status": "proved",
   "theorems": [
    "C136_means_improve"
   ],
   "note": "Proved over the reals for every inner step whose weights belong to its means, that is, for every step but the first; scipy.linalg.inv is any function that inverts positive definite matrices."
  },
  {
   "property": "C137",
   "status": "partial",
   "theorems": [
    "C137_later_updates",
    "C137_converged",
    "C137_counts_each_occurrence_refuted"
   ],
   "note": "Refuted: the first update uses the raw counts, later ones divide by probabilities under old weights. The exact counts are proved, and that they are right when the weights no longer change."
  },
  {
   "property": "C138",
   "status": "partial",
   "theorems": [
    "C138_final_map_is_over_all_documents",
    "C138_final_tables_are_over_all_documents",
    "C138_final_mrr_weighs_by_documents",
    "C138_final_mrr_is_over_all_links_refuted",
    "C138_groups_without_documents_raise",
    "C138_evaluation_finishes_refuted"
   ],
   "note": "Proved for mean average precision and tables (groups that have documents; exact rationals). Refuted for the mean reciprocal rank, whose folds are weighted by documents, and for finishing: a group of sizes without documents in the first two folds always ends the run with a division by zero."
  },
  {
   "property": "C139",
   "status": "proved",
   "theorems": [
    "C139_rounds",
    "C139_queried_documents_are_unseen",
    "C139_one_round_per_feature",
    "C139_empty_mask_raises"
   ],
   "note": "Training, prediction and saving are arguments; feature values zero or above 1E-30."
  },
  {
   "property": "C140",
   "status": "partial",
   "theorems": [
    "C140_single_fold_topics",
    "C140_other_orders_refused",
    "C140_fold_model_has_too_few_topics",
    "C140_fold_model_topics_refuted",
    "C140_lda_recommender_needs_model",
    "C140_model_is_optional_refuted"
   ],
   "note": "Proved for models trained on the whole dataset and for refusals. Refuted for models saved by runs over several folds, which are accepted with the topics of the training part only, and for runs without a saved model, which always raise TypeError."
  },
  {
   "property": "C141",
   "status": "proved",
   "theorems": [
    "C141_folds_are_exact",
    "C141_fold_partitions_corpus"
   ],
   "note": "Doubles rounded to nearest even (Flocq)."
  },
  {
   "property": "C142",
   "status": "proved",
   "theorems": [
    "C142_map_in_doubles",
    "C142_map_fails_alike",
    "C142_map_of_perfect_ranking",
    "C142_mrr_in_doubles",
    "C142_mrr_rounds"
   ],
   "note": "Sums of up to 2^53 terms. That rounding does change the mean reciprocal rank is shown by an example. Scores and the ranking itself are as in C23 and C27."
  },
  {
   "property": "C143",
   "status": "proved",
   "theorems": [
    "C143_completion_in_doubles",
    "C143_completion_conserves_tokens",
    "C143_completion_returns"
   ],
   "note": "No largest double; jitters are arbitrary reals, the proportion rational."
  },
  {
   "property": "C144",
   "status": "partial",
   "theorems": [
    "C144_three_passes_one_step",
    "C144_fixed_point_iff",
    "C144_inference_reaches_fixed_point_refuted"
   ],
   "note": "Refuted for every increasing function with the recurrence of digamma; closed form and exact condition proved. Three passes are made and the last equals the first."
  },
  {
   "property": "C145",
   "status": "partial",
   "theorems": [
    "C145_topics_of_a_document",
    "C145_topics_in_training",
    "C145_independent_of_number_of_documents_refuted"
   ],
   "note": "Refuted for the number of documents: D/K is added to the prior of every topic. The rest is proved."
  },
  {
   "property": "C146",
   "status": "partial",
   "theorems": [
    "C146_total_has_number_of_documents",
    "C146_token_distributions",
    "C146_total_counts_refuted",
    "C146_weights_cannot_overflow"
   ],
   "note": "Refuted: the total also contains the number of documents; exact total proved."
  },
  {
   "property": "C147",
   "status": "proved",
   "theorems": [
    "C147_word_counts",
    "C147_at_least_prior",
    "C147_topic_counts"
   ],
   "note": "All words must be in the vocabulary for the sums per topic."
  },
  {
   "property": "C148",
   "status": "partial",
   "theorems": [
    "C148_looking_leaves_queries_refuted",
    "C148_look_normalised",
    "C148_look_gives_distributions"
   ],
   "note": "Refuted: the accessors divide the arrays in place. Idempotence and the case of normalised models proved."
  },
  {
   "property": "C149",
   "status": "partial",
   "theorems": [
    "C149_training_alternates",
    "C149_single_segment",
    "C149_logging_no_influence_refuted"
   ],
   "note": "Refuted for every increasing function with the recurrence of digamma; training is exactly iterations and normalisation in turn; equal for frequencies with one segment."
  },
  {
   "property": "C150",
   "status": "partial",
   "theorems": [
    "C150_double_precision_training",
    "C150_trained_model_cannot_be_queried",
    "C150_train_then_query_refuted"
   ],
   "note": "Refuted: single precision is passed to a function for doubles; double precision training fails unless it is stochastic and converges early."
  },
  {
   "property": "C151",
   "status": "partial",
   "theorems": [
    "C151_batches_never_learn",
    "C151_training_returns_initial_vocabulary",
    "C151_no_batches_is_plain",
    "C151_stochastic_training_learns_refuted"
   ],
   "note": "Refuted for every positive batch size; with batch size zero equal to plain iterations."
  },
  {
   "property": "C152",
   "status": "partial",
   "theorems": [
    "C152_bound_determined_equal_lengths",
    "C152_bound_determined_refuted"
   ],
   "note": "Refuted for documents of different lengths; proved for equal lengths. Covers the terms that use the tokens; the others are an arbitrary function of model, topics and data."
  },
  {
   "property": "C153",
   "status": "partial",
   "theorems": [
    "C153_mtm_training_never_finishes",
    "C153_vocabulary_left_behind",
    "C153_trains_refuted"
   ],
   "note": "Refuted for all corpora; the vocabulary of the caller has been updated by then."
  },
  {
   "property": "C154",
   "status": "proved",
   "theorems": [
    "C154_topics_improve",
    "C154_training_topics"
   ],
   "note": "Two or more documents."
  },
  {
   "property": "C155",
   "status": "proved",
   "theorems": [
    "C155_iteration_sound",
    "C155_training_sound"
   ],
   "note": "Two or more documents; without logging or with no more topics than documents."
  },
  {
   "property": "C156",
   "status": "partial",
   "theorems": [
    "C156_out_links_shared",
    "C156_in_links_counted",
    "C156_symmetric_links",
    "C156_in_links_refuted"
   ],
   "note": "Out-links proved; in-links refuted (totals and symmetric links proved)."
  },
  {
   "property": "C157",
   "status": "proved",
   "theorems": [
    "C157_out_topics_improve"
   ],
   "note": "The words enter with the new vocabulary, the links with the old in-topics."
  },
  {
   "property": "C158",
   "status": "partial",
   "theorems": [
    "C158_without_links",
    "C158_in_topics_refuted"
   ],
   "note": "Refuted; the case without links is proved."
  },
  {
   "property": "C159",
   "status": "partial",
   "theorems": [
    "C159_setting_ignored",
    "C159_always_ten",
    "C159_kept_refuted"
   ],
   "note": "Refuted: always 10."
  },
  {
   "property": "C160",
   "status": "partial",
   "theorems": [
    "C160_model_unchanged",
    "C160_query_improves",
    "C160_empty_document",
    "C160_empty_variance_too_small",
    "C160_query_succeeds",
    "C160_links_only_counted",
    "C160_links_refuted",
    "C160_prior_variance_refuted"
   ],
   "note": "Improvement for documents without out-links, prior mean proved. Refuted: the prior variance and the independence of out-links; only the number of out-links matters."
  },
  {
   "property": "C161",
   "status": "partial",
   "theorems": [
    "C161_never_worse",
    "C161_fast_query_returns_softmax",
    "C161_single_document",
    "C161_ctm_resumes",
    "C161_resumes_refuted"
   ],
   "note": "Improvement proved. Resuming refuted for mtm_vb, proved for the correlated topic model up to 21 iterations. With fastButInaccurate the softmax of the initial means is returned."
  },
  {
   "property": "C162",
   "status": "partial",
   "theorems": [
    "C162_reads_inside",
    "C162_outside_refuted",
    "C162_words",
    "C162_links_refuted"
   ],
   "note": "Refuted: distributions over documents are read transposed, beyond the array when topics outnumber documents. Proved: inside otherwise, and exact without links."
  },
  {
   "property": "C163",
   "status": "proved",
   "theorems": [
    "C163_ctm_training",
    "C163_side_training",
    "C163_ctm_query",
    "C163_side_query"
   ],
   "note": ""
  },
  {
   "property": "C164",
   "status": "proved",
   "theorems": [
    "C164_ctm_topics",
    "C164_ctm_topics_improve",
    "C164_side_topics",
    "C164_side_topics_improve"
   ],
   "note": "The words of stm_yv_bouchard enter with the old topics."
  },
  {
   "property": "C165",
   "status": "proved",
   "theorems": [
    "C165_bound",
    "C165_ctm_training",
    "C165_side_training",
    "C165_side_query"
   ],
   "note": "The training of ctm_bouchard up to the shift that makes its first topic zero; queries of stm_yv_bouchard for diagonal covariances, as training makes."
  },
  {
   "property": "C166",
   "status": "partial",
   "theorems": [
    "C166_best_tangents",
    "C166_query_improves_refuted"
   ],
   "note": "Refuted: the variance is squared. Proved with the root of the second moment in its place."
  },
  {
   "property": "C167",
   "status": "partial",
   "theorems": [
    "C167_two_topics",
    "C167_more_topics",
    "C167_best_offset_refuted"
   ],
   "note": "Proved for two topics; never for more."
  },
  {
   "property": "C168",
   "status": "partial",
   "theorems": [
    "C168_first_topic",
    "C168_prior_of_first_topic",
    "C168_relabelling_refuted"
   ],
   "note": "Refuted: the first topic is always zero (C168_first_topic), and so is its prior mean after two iterations."
  },
  {
   "property": "C169",
   "status": "partial",
   "theorems": [
    "C169_ctm_multiple",
    "C169_side_multiple",
    "C169_ctm_not_multiple",
    "C169_side_not_multiple",
    "C169_never_logging",
    "C169_any_iterations_refuted"
   ],
   "note": "Proved for multiples of the logging interval; for other numbers up to 39 and 59 (interval 10) training always fails, with interval zero always."
  },
  {
   "property": "C170",
   "status": "partial",
   "theorems": [
    "C170_side_query_refuted",
    "C170_ctm_query_refuted"
   ],
   "note": "Refuted for both, for any number of iterations."
  },
  {
   "property": "C171",
   "status": "partial",
   "theorems": [
    "C171_bound_is",
    "C171_not_positive_refuted"
   ],
   "note": "Refuted; C171_bound_is says what is reported."
  },
  {
   "property": "C172",
   "status": "proved",
   "theorems": [
    "C172_side_query",
    "C172_ctm_query"
   ],
   "note": ""
  },
  {
   "property": "C173",
   "status": "proved",
   "theorems": [
    "C173_features",
    "C173_topic_factor",
    "C173_feature_factor"
   ],
   "note": "With a correct inverse of symmetric positive definite matrices."
  },
  {
   "property": "C174",
   "status": "partial",
   "theorems": [
    "C174_debug_training",
    "C174_debug_query",
    "C174_single_document_training",
    "C174_single_document_query",
    "C174_works_refuted"
   ],
   "note": "Refuted; the other theorems give the exceptions."
  },
  {
   "property": "C175",
   "status": "partial",
   "theorems": [
    "C175_one_length",
    "C175_longest_document_lost",
    "C175_more_iterations_fail",
    "C175_finite_topics_refuted"
   ],
   "note": "Proved if all documents have one length; otherwise the longest is always lost, and two iterations always raise ValueError."
  },
  {
   "property": "C176",
   "status": "partial",
   "theorems": [
    "C176_within_the_buffer",
    "C176_larger_corpora_read_outside",
    "C176_reads_outside_refuted"
   ],
   "note": "Proved for corpora up to the buffer; larger ones always read outside it."
  },
  {
   "property": "C177",
   "status": "proved",
   "theorems": [
    "C177_topics_improve"
   ],
   "note": "For documents of one length, the only ones that work (C175)."
  },
  {
   "property": "C178",
   "status": "partial",
   "theorems": [
    "C178_later_vocabularies_improve",
    "C178_first_vocabulary",
    "C178_first_vocabulary_refuted"
   ],
   "note": "Proved from the second iteration; the first only smooths the start, whatever the words, and can fit worse."
  },
  {
   "property": "C179",
   "status": "partial",
   "theorems": [
    "C179_trained_states_rejected",
    "C179_new_states_work",
    "C179_trained_states_refuted"
   ],
   "note": "Fails always unless there is one document or as many as the buffer has rows; new states work."
  },
  {
   "property": "C180",
   "status": "partial",
   "theorems": [
    "C180_measurements",
    "C180_other_numbers_fail",
    "C180_likelihoods_kept",
    "C180_zero",
    "C180_iterations_refuted"
   ],
   "note": "Proved: values and iterations agree. Refuted: other numbers than multiples, and after early stopping the likelihoods are not cut off."
  },
  {
   "property": "C181",
   "status": "proved",
   "theorems": [
    "C181_query_improves"
   ],
   "note": "With a correct inverse."
  },
  {
   "property": "C182",
   "status": "partial",
   "theorems": [
    "C182_training_never_returns",
    "C182_exceptions",
    "C182_training_refuted"
   ],
   "note": "It never returns; C182_exceptions says with which exception."
  },
  {
   "property": "C183",
   "status": "partial",
   "theorems": [
    "C183_queries_fail",
    "C183_queries_refuted"
   ],
   "note": "Always AttributeError."
  },
  {
   "property": "C184",
   "status": "partial",
   "theorems": [
    "C184_vec",
    "C184_unvec_fails",
    "C184_unvec_refuted"
   ],
   "note": "vec proved; unvec always fails, as it divides to a float."
  },
  {
   "property": "C185",
   "status": "partial",
   "theorems": [
    "C185_always_lower",
    "C185_vb_always_lower",
    "C185_less_likely",
    "C185_likelihood_refuted",
    "C185_training_never_raises"
   ],
   "note": "Refuted: every update lowers every entry, whatever the corpus; so does training. C185_less_likely: an even corpus always gets less likely."
  },
  {
   "property": "C186",
   "status": "partial",
   "theorems": [
    "C186_fixed_points",
    "C186_regularizer_alone",
    "C186_strength_refuted"
   ],
   "note": "Refuted: the strength is one minus what is given. C186_fixed_points and C186_regularizer_alone say what happens instead."
  },
  {
   "property": "C187",
   "status": "partial",
   "theorems": [
    "C187_links_gradient",
    "C187_pseudo_negatives_are",
    "C187_pseudo_negatives_differ",
    "C187_push_too_weak",
    "C187_gradient_refuted"
   ],
   "note": "The part for links is the gradient; that for unlinked pairs is the negative of that for links, and too weak when a link is predicted."
  },
  {
   "property": "C188",
   "status": "partial",
   "theorems": [
    "C188_intercept",
    "C188_scaled_by_the_prior",
    "C188_symmetric_prior",
    "C188_stand_in_refuted"
   ],
   "note": "Off by the sum of the prior, 5 + K/2 by default."
  },
  {
   "property": "C189",
   "status": "partial",
   "theorems": [
    "C189_which_priors",
    "C189_no_query_state",
    "C189_prior_arguments_refuted"
   ],
   "note": "Only no prior or one entry too many work, and then there is never a query state. That numpy wants positive parameters for a Dirichlet draw is its documented behaviour."
  },
  {
   "property": "C190",
   "status": "partial",
   "theorems": [
    "C190_positive",
    "C190_uninitialised",
    "C190_empty_document",
    "C190_estimate_refuted"
   ],
   "note": "Positive if what is uninitialised is zero and every document has every topic; empty documents always give NaN (without rounding), and so can uninitialised memory."
  },
  {
   "property": "C191",
   "status": "proved",
   "theorems": [
    "C191_evidence_distribution",
    "C191_below_evidence"
   ],
   "note": "gammaln and digamma are any functions with the properties that characterise them (Bohr and Mollerup), which are constructed in GammaWitness."
  },
  {
   "property": "C192",
   "status": "partial",
   "theorems": [
    "C192_usable_iff",
    "C192_trainable_has_bound_refuted"
   ],
   "note": "Exactly Python numbers work: with a numpy number the bound raises an IndexError, with a vector training raises a ValueError."
  },
  {
   "property": "C193",
   "status": "proved",
   "theorems": [
    "C193_training_improves"
   ],
   "note": "The slack is K times 1e-300 for each word."
  },
  {
   "property": "C194",
   "status": "partial",
   "theorems": [
    "C194_below_evidence",
    "C194_figure_orders_bounds_refuted"
   ],
   "note": "They are lower bounds; but the entropy is subtracted instead of added, so they rank states wrongly."
  },
  {
   "property": "C195",
   "status": "proved",
   "theorems": [
    "C195_below_evidence"
   ],
   "note": ""
  },
  {
   "property": "C196",
   "status": "proved",
   "theorems": [
    "C196_posterior_kept",
    "C196_sweep_is_visits"
   ],
   "note": "Draws are uniform on (0,1] (a draw of zero is refuted in C83); exact rationals."
  },
  {
   "property": "C197",
   "status": "proved",
   "theorems": [
    "C197_forgets_start"
   ],
   "note": ""
  },
  {
   "property": "C198",
   "status": "proved",
   "theorems": [
    "C198_recorded",
    "C198_averages_converge",
    "C198_limit_predicts"
   ],
   "note": "For the sampling sweeps after burn-in, from any assignment that burn-in ends in."
  },
  {
   "property": "C199",
   "status": "partial",
   "theorems": [
    "C199_posterior_kept",
    "C199_forgets_start",
    "C199_averages_converge",
    "C199_query_counts",
    "C199_models_words_refuted"
   ],
   "note": "Refuted: the query adds its own first assignment to the counts of the model, so it samples given word distributions that depend on it. Given the resulting distributions all claims are proved."
  },
  {
   "property": "C200",
   "status": "partial",
   "theorems": [
    "C200_no_words_evidence",
    "C200_evidence_shared_by_words",
    "C200_bound_below_evidence",
    "C200_topics_are_best",
    "C200_model_is_best",
    "C200_training_improves",
    "C200_query_is_best",
    "C200_likelihood_rises_refuted"
   ],
   "note": "Real numbers, for any function that satisfies the laws of the logarithm of the gamma function and its derivative (GammaWitness has one). Refuted: the likelihood that the model reports may fall."
  },
  {
   "property": "C201",
   "status": "partial",
   "theorems": [
    "C201_first_sweep",
    "C201_sweep_is_visits",
    "C201_query_is_average",
    "C201_posterior_kept",
    "C201_forgets_start",
    "C201_averages_converge",
    "C201_averages_defined",
    "C201_words_as_given",
    "C201_own_posterior_refuted"
   ],
   "note": "Real numbers; draws uniform on (0,1]. Word probabilities below the floor of safe_log count as the floor. Refuted: the law is that of a prior one less than the model has."
  },
  {
   "property": "C202",
   "status": "partial",
   "theorems": [
    "C202_chance_of_component",
    "C202_more_members_more_likely",
    "C202_empty_component_least",
    "C202_members_repel",
    "C202_default_prior_up_to_nine",
    "C202_default_prior_gathers_refuted",
    "C202_default_prior_fails",
    "C202_default_prior_works_refuted"
   ],
   "note": "Real numbers. Refuted: with ten or more components the default prior is at most one: empty components get the floor of safe_log only; with few documents the total is negative and documents avoid the components that have members; when it is zero (16 components, 4 documents) every sweep but the first raises ValueError."
  },
  {
   "property": "C203",
   "status": "partial",
   "theorems": [
    "C203_scale_is_best",
    "C203_scale_fits_offsets_refuted",
    "C203_scale_positive_refuted",
    "C203_variances_refuted"
   ],
   "note": "Real numbers; no document links to itself. Refuted: the scale that is returned was best for the offsets of the iteration before; it may be negative; what is documented as variances are used as precisions."
  },
  {
   "property": "C204",
   "status": "partial",
   "theorems": [
    "C204_offsets_are",
    "C204_unlinked_document_shrinks",
    "C204_offsets_best_refuted"
   ],
   "note": "Real numbers; no document links to itself; closed form of the offsets. Refuted: line 217 adds up the topics of the documents that link here and multiplies by the topics of this document, where the square of the topics belongs, and line 222 lacks the factor noiseVar: training moves away from a perfect fit."
  },
  {
   "property": "C205",
   "status": "partial",
   "theorems": [
    "C205_raises_value_error_only",
    "C205_one_iteration",
    "C205_no_links_raises",
    "C205_always_trains_refuted"
   ],
   "note": "Real numbers; no document links to itself. One iteration succeeds if a link joins documents with a topic in common. Refuted: without links training raises ValueError."
  },
  {
   "property": "C206",
   "status": "proved",
   "theorems": [
    "C206_order_of_documents",
    "C206_query_keeps_model",
    "C206_query_starts_afresh",
    "C206_trained_topics_kept",
    "C206_no_iterations"
   ],
   "note": ""
  },
  {
   "property": "C207",
   "status": "partial",
   "theorems": [
    "C207_posterior_kept",
    "C207_forgets_start",
    "C207_recorded",
    "C207_averages_converge",
    "C207_sweep_is_visits",
    "C207_fitted_model_refuted"
   ],
   "note": "Exact arithmetic; independent uniform draws; the chain of sweeps, its invariant law, convergence in total variation from every start and in mean square for averages, and what training records. The law is that of priors x.w. Refuted: it is not the law of the fitted model, whose priors are exp(x.w)."
  },
  {
   "property": "C208",
   "status": "partial",
   "theorems": [
    "C208_posterior_kept",
    "C208_forgets_start",
    "C208_averages_converge",
    "C208_query_counts",
    "C208_models_words_refuted"
   ],
   "note": "As C207, with the word counts of the model held fixed; refuted: the counts a query works from contain its own first assignment and the prior over words once more, so that the law is not the one given the word distributions of the model."
  },
  {
   "property": "C209",
   "status": "partial",
   "theorems": [
    "C209_each_topic_alone",
    "C209_one_topic_improves",
    "C209_raises_posterior_refuted"
   ],
   "note": "Real numbers. Each topic alone, and one changing topic, improve. Refuted for all topics at once, with exact optima: all topics are optimised against the old weights of the others."
  },
  {
   "property": "C210",
   "status": "partial",
   "theorems": [
    "C210_model_options",
    "C210_plan_options",
    "C210_plans_used",
    "C210_query_iterations_refuted",
    "C210_vocab_prior",
    "C210_vocab_prior_elsewhere",
    "C210_vocab_prior_refuted",
    "C210_logging_options_unused",
    "C210_logging_refuted",
    "C210_debug_false_refuted"
   ],
   "note": "Options as parsed; what parameters are bound to by Python calls. Refuted: --vocab-prior becomes the prior over topics of lda_vb and lda_svb; --log-freq and --min-vb-change have no effect; --debug False switches debugging on; only the evaluation of perplexity queries for --query-iters iterations."
  },
  {
   "property": "C211",
   "status": "partial",
   "theorems": [
    "C211_named_models_configured",
    "C211_unknown_names_rejected",
    "C211_names_documented_refuted",
    "C211_gradient_options",
    "C211_gradient_options_elsewhere",
    "C211_svb_needs_batch_size",
    "C211_svb_refuted"
   ],
   "note": "Refuted: three accepted names are not documented; lda_svb without a batch size is lda_vb."
  },
  {
   "property": "C212",
   "status": "partial",
   "theorems": [
    "C212_accepted_iff",
    "C212_otherwise",
    "C212_perplexity_refuted",
    "C212_cvb0_refuted",
    "C212_links_refuted"
   ],
   "note": "Calls and fields only, not what the functions do. Refuted: mom_em and mom_gibbs (newQueryState takes a third argument) and lda_cvb0 (no log_likelihood) cannot be evaluated; the two families of link evaluations call link functions with different numbers of arguments."
  },
  {
   "property": "C213",
   "status": "partial",
   "theorems": [
    "C213_read_back",
    "C213_no_entries",
    "C213_without_map",
    "C213_adjacent_entries_refuted",
    "C213_entries_after_missing_map_refuted"
   ],
   "note": "float() and the formatting of numbers are arguments, as in C113; lines end with a line feed. Refuted: without a line between two entries the name of the second is lost and its first line is taken for the name; an entry without mean average precision (as printed by link_split_prec_rec) hides all entries after it."
  },
  {
   "property": "C214",
   "status": "partial",
   "theorems": [
    "C214_first_fold",
    "C214_final_results_refuted"
   ],
   "note": "Refuted: the tables and the perplexity read are those of the first fold, the means those of the final results, because the means of the folds are printed with a blank before the colon."
  },
  {
   "property": "C215",
   "status": "partial",
   "theorems": [
    "C215_rows",
    "C215_titles",
    "C215_eleven_cells_refuted",
    "C215_missing_means_refuted"
   ],
   "note": "str() of numbers is an argument. Refuted: a number of topics with a comma inside gives twelve cells; missing means are written as -1."
  },
  {
   "property": "C216",
   "status": "partial",
   "theorems": [
    "C216_fields",
    "C216_directory",
    "C216_bad_line_refuted"
   ],
   "note": "int() is an argument; every field of the three at most once. Refuted: a line without a colon raises IndexError, which is not caught, so that the whole conversion stops."
  },
  {
   "property": "C217",
   "status": "partial",
   "theorems": [
    "C217_authors",
    "C217_comma_and_refuted"
   ],
   "note": "Refuted: with a comma before it the word and becomes part of the last name."
  },
  {
   "property": "C218",
   "status": "partial",
   "theorems": [
    "C218_letters",
    "C218_plain",
    "C218_particle",
    "C218_suffix",
    "C218_initials",
    "C218_short_names_refuted"
   ],
   "note": "Letters: all characters but blanks, commas and full stops. Refuted: in a name of two words the particle is taken for the given name; a single word with a full stop at its end has an empty surname."
  },
  {
   "property": "C219",
   "status": "partial",
   "theorems": [
    "C219_authors",
    "C219_semicolon_refuted"
   ],
   "note": "Refuted: a name with a semicolon, such as an HTML entity, gives two authors."
  },
  {
   "property": "C220",
   "status": "partial",
   "theorems": [
    "C220_equal",
    "C220_independent",
    "C220_with_topic_model",
    "C220_complete",
    "C220_shared",
    "C220_trained_cvb_refuted",
    "C220_number_prior_refuted"
   ],
   "note": "A model whose copied parameters are arrays, or None where allowed. Refuted: a trained model of lda_cvb is copied with means in place of variances; a number for the prior of lda_vb cannot be copied."
  },
  {
   "property": "C221",
   "status": "partial",
   "theorems": [
    "C221_folds",
    "C221_learned_priors_refuted"
   ],
   "note": "Refuted: in lda_gibbs, with learning of the priors, the prior over words is shared and written to, so that the second fold starts from what the first learnt."
  },
  {
   "property": "C222",
   "status": "partial",
   "theorems": [
    "C222_distributions",
    "C222_unavailable_refuted"
   ],
   "note": "Counts that are not negative, and not all zero for any document. Refuted: in ten modules there is no topicDists, or it raises AttributeError for every state."
  },
  {
   "property": "C223",
   "status": "partial",
   "theorems": [
    "C223_saved",
    "C223_read_to_the_end",
    "C223_later_points_refuted",
    "C223_single_number_refuted",
    "C223_unended_line_refuted"
   ],
   "note": "float() and the rounding to float32 are arguments. Refuted: after a first line of whole numbers what follows the point is lost; a line with one number fills a row; a last line without an end makes the conversion fail."
  },
  {
   "property": "C224",
   "status": "partial",
   "theorems": [
    "C224_agree",
    "C224_negative_refuted",
    "C224_short_line_refuted"
   ],
   "note": "Refuted: negative numbers are left out; a line that is too short is filled with zeros by one conversion and refused by the other."
  },
  {
   "property": "C225",
   "status": "partial",
   "theorems": [
    "C225_unbounded_refuted",
    "C225_not_a_bound_refuted",
    "C225_side_topics_refuted",
    "C225_reported",
    "C225_side_reported"
   ],
   "note": "Proved what is reported: densities with the determinant for its logarithm, the log probability of the words, and an excess. Refuted for every corpus of documents that are not empty: the value of var_bound exceeds all bounds. For the correlated topics and mtm2 with the covariance that training sets or a new model has; for side topics with the inverse of the covariance small enough for the lengths of the documents. Laws of topics have finitely many values."
  },
  {
   "property": "C226",
   "status": "partial",
   "theorems": [
    "C226_same_topics_refuted",
    "C226_not_a_bound_refuted",
    "C226_reported",
    "C226_words"
   ],
   "note": "Proved what is reported: densities of the topics with their entropies and a rest that depends on words, links and means only, given exactly for corpora without links. Refuted for every corpus without links and every state: adding a number to all means leaves the topics as they are and adds twice that number for every word, so the value is no bound."
  },
  {
   "property": "C227",
   "status": "partial",
   "theorems": [
    "C227_matrix_variate",
    "C227_correlated",
    "C227_absent_words_refuted",
    "C227_bouchard",
    "C227_ends",
    "C227_no_words_refuted",
    "C227_means"
   ],
   "note": "Proved for mtm2 and mtm3. Refuted for the correlated models: without words there is no end, and with the bound of B\u00f6hning the first topic gives no probability to words that do not occur in the corpus; the other topics are proved full, and an end within a thousand draws a topic if no document is empty."
  },
  {
   "property": "C228",
   "status": "proved",
   "theorems": [
    "C228_topics",
    "C228_variances",
    "C228_centred",
    "C228_model_mean"
   ],
   "note": "Topics that are all positive. The random numbers are in [0,1)."
  },
  {
   "property": "C229",
   "status": "partial",
   "theorems": [
    "C229_sampled",
    "C229_variational",
    "C229_read_refuted",
    "C229_variational_refuted"
   ],
   "note": "Proved for the sampler. Refuted for variational models: their array is used as it is and training writes to it, so every fold starts from what the one before has learnt. Training is an arbitrary function of the words, in the refutation one iteration of mtm3."
  },
  {
   "property": "C230",
   "status": "partial",
   "theorems": [
    "C230_clone_iff",
    "C230_clone",
    "C230_clones_agree",
    "C230_clone_of_set_refuted",
    "C230_set_iterations",
    "C230_set_others",
    "C230_set_accepted",
    "C230_set_is_construct_refuted",
    "C230_copy_refuted"
   ],
   "note": "Proved: an estimator as constructed can be cloned, and a clone has the settings of the original; exactly which settings can be cloned. Refuted: a tolerance or a number of query iterations set to zero cannot be cloned, copy() always raises, and setting iterations does not change those of transform."
  },
  {
   "property": "C231",
   "status": "partial",
   "theorems": [
    "C231_start",
    "C231_reproducible",
    "C231_assigned",
    "C231_gibbs_ignores_seed",
    "C231_last_seed_counts",
    "C231_own_seed_refuted",
    "C231_gibbs_seed_refuted"
   ],
   "note": "Proved: constructing (or assigning a seed) and fitting at once. Refuted: anything that draws or seeds in between, such as constructing another estimator, decides instead; LDA_GIBBS ignores its seed. Training is an arbitrary function of the stream of numpy, that of LDA_GIBBS of the streams of numpy and the C library."
  },
  {
   "property": "C232",
   "status": "partial",
   "theorems": [
    "C232_every_kind",
    "C232_online",
    "C232_gibbs",
    "C232_zero_burn_in_refuted",
    "C232_ignored_refuted"
   ],
   "note": "Refuted: LDA_SVB ignores batches, MOM_GIBBS burn-in and thinning, and a burn-in of zero given to a call is ignored."
  },
  {
   "property": "C233",
   "status": "partial",
   "theorems": [
    "C233_default",
    "C233_default_values",
    "C233_numbers",
    "C233_vectors",
    "C233_accepted",
    "C233_numbers_refuted",
    "C233_only_the_mean",
    "C233_precision_refuted",
    "C233_uneven_refuted"
   ],
   "note": "Proved of what is accepted, except for the collapsed models, which use the mean of a vector (refuted). Refuted: numbers for LDA_CVB0, LDA_CVB and LDA_VB; integers and numpy numbers for most; vectors of doubles for LDA_VB and LDA_SVB. Rounding is an arbitrary function."
  },
  {
   "property": "C234",
   "status": "partial",
   "theorems": [
    "C234_default",
    "C234_default_values",
    "C234_numbers",
    "C234_other_numbers",
    "C234_vectors",
    "C234_accepted",
    "C234_vectors_refuted"
   ],
   "note": "Proved of what is accepted. Refuted: vectors for five kinds; numbers that are not Python floats for LDA_GIBBS."
  },
  {
   "property": "C235",
   "status": "partial",
   "theorems": [
    "C235_expected_refuted",
    "C235_gibbs_perplexity_refuted",
    "C235_gibbs_given_topics_refuted",
    "C235_point",
    "C235_point_perplexity",
    "C235_expected"
   ],
   "note": "Refuted: expected scores for six kinds; perplexity of and given topics for LDA_GIBBS."
  },
  {
   "property": "C236",
   "status": "partial",
   "theorems": [
    "C236_several_documents",
    "C236_single_document_refuted",
    "C236_long_counts_refuted"
   ],
   "note": "Refuted: a single document for all but MOM_VB; counts of 64 bits for four kinds."
  },
  {
   "property": "C237",
   "status": "partial",
   "theorems": [
    "C237_iterations",
    "C237_unseen_words_refuted",
    "C237_gibbs_refuted",
    "C237_mom_gibbs_refuted",
    "C237_compiled_refuted",
    "C237_enough"
   ],
   "note": "Proved from a hundred iterations on, except LDA_VB and LDA_SVB (C150). Refuted below: with fewer than ten the topics are those drawn at the start, are not numbers, or there is an error; LDA_GIBBS gives no numbers below fifty, MOM_GIBBS an error from twenty. One iteration of inference is an arbitrary function of words and topics."
  },
  {
   "property": "C238",
   "status": "proved",
   "theorems": [
    "C238_given",
    "C238_inferred",
    "C238_completion",
    "C238_bounds",
    "C238_floor",
    "C238_uniform"
   ],
   "note": "Counts in double precision, probabilities that doubles have room for; real arithmetic. Inference by the libraries is an arbitrary function."
  },
  {
   "property": "C239",
   "status": "partial",
   "theorems": [
    "C239_lda_needs_doubles_refuted",
    "C239_hdp_needs_reals_refuted",
    "C239_accepted"
   ],
   "note": "Proved for double precision, and single precision of the HDP. Refuted: the wrapped LDA needs doubles, the HDP numbers that are not integers."
  },
  {
   "property": "C240",
   "status": "partial",
   "theorems": [
    "C240_expected_refuted",
    "C240_query_state_refuted",
    "C240_online_refuted",
    "C240_batch"
   ],
   "note": "Refuted: a batch size for LDA is a TypeError (learning_offsetfloat is not an argument of the library), expected scores are not implemented, query states an error."
  },
  {
   "property": "C241",
   "status": "partial",
   "theorems": [
    "C241_resume",
    "C241_ready",
    "C241_succeeds",
    "C241_from_the_start",
    "C241_ignored",
    "C241_iterations_refuted",
    "C241_again_refuted"
   ],
   "note": "Proved for iterations set with the constructor or set_params. Refuted: those passed to fit are ignored, and a second fit of an estimator draws from where the first ended. What scikit-learn does with an estimator is taken from its documentation."
  },
  {
   "property": "C242",
   "status": "partial",
   "theorems": [
    "C242_same_result",
    "C242_same_answer",
    "C242_training_finishes",
    "C242_query_finishes",
    "C242_ctm_finishes",
    "C242_query_stops",
    "C242_stm_yv_stops",
    "C242_infinite_stops",
    "C242_harmless_refuted"
   ],
   "note": "The result is the same whenever the run ends; it ends if bounds are finite, but for stm_yv_bouchard (cf. C174) and queries of mtm_vb, which always raise. Infinite bounds stop the modules that turn the difference into an integer. Updates are arbitrary functions."
  },
  {
   "property": "C243",
   "status": "partial",
   "theorems": [
    "C243_other_arrays",
    "C243_no_arrays",
    "C243_serial",
    "C243_means_reset",
    "C243_exponentials_kept",
    "C243_reset_refuted",
    "C243_means_lost_refuted"
   ],
   "note": "Proved for all arrays but expMeans, and for calls in a row. Refuted: expMeans is overwritten in three modules; stm_yv_bouchard restores the means exactly when none is further below the maximum of its document than where exp underflows. Rounding is not modelled."
  },
  {
   "property": "C244",
   "status": "partial",
   "theorems": [
    "C244_own_bounds",
    "C244_lines",
    "C244_own_refuted"
   ],
   "note": "Proved within a run, and independence for the side-topic models. Refuted for the others, whose first line compares with the last bound of the run before."
  },
  {
   "property": "C245",
   "status": "partial",
   "theorems": [
    "C245_tokens",
    "C245_covers_vocabulary",
    "C245_statistics",
    "C245_vocabulary_refuted",
    "C245_names_refuted",
    "C245_scores_refuted"
   ],
   "note": "Proved: what the tokens are (those up to the last word that occurs), when all columns have one, and the counts for stored entries that are distinct and non-zero. Refuted: words after the last one used have no token, so that scoring them reads outside the topics, and the documented names are not used."
  },
  {
   "property": "C246",
   "status": "partial",
   "theorems": [
    "C246_values",
    "C246_operations",
    "C246_reads_inside",
    "C246_shapes_checked_refuted",
    "C246_inner_dimension_refuted"
   ],
   "note": "Values proved for agreeing shapes, and when reads stay inside arrays. Refuted: shapes are checked only by the fallback for whole numbers. Rounding is not modelled."
  },
  {
   "property": "C247",
   "status": "partial",
   "theorems": [
    "C247_which_types_work",
    "C247_whole_numbers",
    "C247_counts_refuted"
   ],
   "note": "Proved: which combinations of types work, and the values for whole numbers. Refuted for counts of whole numbers with parameters in floating point."
  },
  {
   "property": "C248",
   "status": "partial",
   "theorems": [
    "C248_popular_hashtags",
    "C248_repeats_refuted",
    "C248_empty_word_refuted"
   ],
   "note": "Proved for dictionaries of distinct non-empty words. Refuted: a repeated hashtag is returned twice with the frequency of the first; an empty word raises."
  },
  {
   "property": "C249",
   "status": "proved",
   "theorems": [
    "C249_filled",
    "C249_only_templates",
    "C249_doubled_dollars"
   ],
   "note": "substitute of Python as documented, for names of ASCII."
  },
  {
   "property": "C250",
   "status": "partial",
   "theorems": [
    "C250_side_topic_reports",
    "C250_reports_are_not_outputs",
    "C250_correlated_reports_refuted",
    "C250_errors_refuted",
    "C250_builtin_templates_refuted",
    "C250_folds_refuted"
   ],
   "note": "Proved for side-topic models with one-digit folds (cf. C54). Refuted: outputs of correlated models are never found; errors raise; the built-in templates are looked for in a directory that does not exist; several outputs of one fold, and copies, count as folds. Directories are taken to exist."
  },
  {
   "property": "C251",
   "status": "partial",
   "theorems": [
    "C251_outputs_listed",
    "C251_saved_outputs_listed",
    "C251_directories_refuted",
    "C251_latent_sizes_refuted",
    "C251_command"
   ],
   "note": "Proved for names of saved outputs. Refuted: directories with an apostrophe break the report; without --lat-sizes the side-topic models raise UnboundLocalError."
  },
  {
   "property": "C252",
   "status": "partial",
   "theorems": [
    "C252_numbering",
    "C252_minibatches_refuted"
   ],
   "note": "Proved for batches. Refuted for mini-batches: the corpus is gone through in order, and its first documents are visited once more."
  },
  {
   "property": "C253",
   "status": "proved",
   "theorems": [
    "C253_training",
    "C253_query",
    "C253_side_topic_query"
   ],
   "note": "The decision to stop early is taken to depend on the numbers and not the numbering; inv to invert whatever symmetric matrix can be inverted. In training the existence of the inverse is proved."
  },
  {
   "property": "C254",
   "status": "proved",
   "theorems": [
    "C254_training",
    "C254_query"
   ],
   "note": "At least one topic."
  },
  {
   "property": "C255",
   "status": "partial",
   "theorems": [
    "C255_same",
    "C255_other_sizes_refuted"
   ],
   "note": "Proved with fastButInaccurate, or as many documents as topics. Refuted otherwise: a product of matrices of different sizes, whose result would not be used, raises ValueError."
  },
  {
   "property": "C256",
   "status": "proved",
   "theorems": [
    "C256_words",
    "C256_distributions",
    "C256_links"
   ],
   "note": "Proved for one iteration or more (links: from newQueryState, any number)."
  },
  {
   "property": "C257",
   "status": "partial",
   "theorems": [
    "C257_by_topic",
    "C257_not_updated",
    "C257_stale_refuted"
   ],
   "note": "Proved for tsums_bytop. Refuted for tsums_bydoc, exp_tsums_bydoc and lse_at_k, which training reads or returns but never assigns."
  },
  {
   "property": "C258",
   "status": "partial",
   "theorems": [
    "C258_asymmetry",
    "C258_symmetric_refuted"
   ],
   "note": "Refuted: np.diag of a matrix is a vector, which is added to every row; proved how much the matrix is out."
  },
  {
   "property": "C259",
   "status": "partial",
   "theorems": [
    "C259_query_refuted",
    "C259_copy_equal",
    "C259_copy_shares_refuted"
   ],
   "note": "Copies are proved equal. Refuted: query ignores updateVocab=False and overwrites words and covariance; the covariance is not copied."
  },
  {
   "property": "C260",
   "status": "partial",
   "theorems": [
    "C260_few_documents_refuted"
   ],
   "note": "Refuted: with K topics and fewer than K-1 documents the covariance estimated is singular, for any inverse that gives inverses only."
  },
  {
   "property": "C261",
   "status": "partial",
   "theorems": [
    "C261_predicts_refuted"
   ],
   "note": "Refuted: a ModelState of mtm has no weights (AttributeError)."
  },
  {
   "property": "C262",
   "status": "partial",
   "theorems": [
    "C262_fails_refuted",
    "C262_nothing_to_do"
   ],
   "note": "Refuted for one iteration or more: seven arguments for eight parameters (TypeError), after the words have been reset and the topics been converted. Zero iterations proved."
  },
  {
   "property": "C263",
   "status": "partial",
   "theorems": [
    "C263_complete",
    "C263_other_frequencies_refuted",
    "C263_early_stop_refuted",
    "C263_no_frequency_refuted"
   ],
   "note": "Proved when the frequency divides the number of iterations and the perplexity keeps falling. Refuted otherwise: IndexError; or when it stops early, the last measurement is lost and the likelihoods end in zeros; ZeroDivisionError for the frequency 0, which means not to log."
  },
  {
   "property": "C264",
   "status": "proved",
   "theorems": [
    "C264_words",
    "C264_training"
   ],
   "note": "Proved for two documents or more."
  },
  {
   "property": "C265",
   "status": "partial",
   "theorems": [
    "C265_features",
    "C265_places",
    "C265_directions",
    "C265_directions_refuted"
   ],
   "note": "Proved for the map and the places. The directions are proved best when the uncertainty of the places counts once; refuted for the bound, where it counts once for each topic: there are better directions whenever they are not zero."
  },
  {
   "property": "C266",
   "status": "proved",
   "theorems": [
    "C266_callers_order",
    "C266_order_of_documents"
   ],
   "note": "Proved for measurements that do not depend on the order of documents. The weights expMeans are in the order of the lengths (C267)."
  },
  {
   "property": "C267",
   "status": "partial",
   "theorems": [
    "C267_sorted_weights",
    "C267_order_refuted",
    "C267_stale_refuted"
   ],
   "note": "Proved up to the order when the last iteration is measured. Refuted: the rows stay sorted by length when the means are put back in order, and without a measurement they belong to the means of the iteration before."
  },
  {
   "property": "C268",
   "status": "proved",
   "theorems": [
    "C268_means_improve"
   ],
   "note": ""
  },
  {
   "property": "C269",
   "status": "partial",
   "theorems": [
    "C269_query_improves",
    "C269_same_as_stm_yv",
    "C269_no_iterations",
    "C269_single_document_refuted"
   ],
   "note": "Proved, except for a single document (IndexError)."
  },
  {
   "property": "C270",
   "status": "partial",
   "theorems": [
    "C270_sparse_features",
    "C270_dense_features_refuted",
    "C270_no_iterations_refuted"
   ],
   "note": "Proved for sparse features, one iteration or more and measurements that do not raise. Refuted: dense features have no todense (AttributeError); without iterations a name is not bound (UnboundLocalError)."
  },
  {
   "property": "C271",
   "status": "partial",
   "theorems": [
    "C271_topics_kept",
    "C271_fitted_refuted"
   ],
   "note": "Refuted: the query that would update the topics is commented out (lines 296-303), so training returns them exactly as they were drawn at the start; two corpora with opposite words get the same topics."
  },
  {
   "property": "C272",
   "status": "proved",
   "theorems": [
    "C272_maps"
   ],
   "note": "Proved, for the branch without the fast pseudo-inverse for the latent map. The inverses are arguments that are assumed to invert."
  },
  {
   "property": "C273",
   "status": "partial",
   "theorems": [
    "C273_distributions",
    "C273_likelihood",
    "C273_new_model",
    "C273_new_model_refuted"
   ],
   "note": "Proved for the updates, where there is no prior over words. Refuted for a new model: its rows have a sum of one plus the number of words times epsilon."
  },
  {
   "property": "C274",
   "status": "partial",
   "theorems": [
    "C274_never_worse",
    "C274_empty_refuted"
   ],
   "note": "Proved for documents with words. Refuted for an empty one: a division by its length."
  },
  {
   "property": "C275",
   "status": "proved",
   "theorems": [
    "C275_best_updates",
    "C275_rest"
   ],
   "note": ""
  },
  {
   "property": "C276",
   "status": "partial",
   "theorems": [
    "C276_outcomes",
    "C276_default_plan_refuted",
    "C276_input_refuted"
   ],
   "note": "Proved for plans that do not print or plot, sparse features and two documents or more. Refuted: the default plan never gets to its end; one document raises TypeError and dense features AttributeError."
  },
  {
   "property": "C277",
   "status": "partial",
   "theorems": [
    "C277_schedule",
    "C277_single_refuted",
    "C277_count_refuted"
   ],
   "note": "Proved: the measurements are in increasing order, at most one more than planned and further and further apart. Refuted: four iterations with two measurements are measured three times, and a single iteration never."
  },
  {
   "property": "C278",
   "status": "partial",
   "theorems": [
    "C278_latent",
    "C278_projection",
    "C278_features",
    "C278_features_refuted"
   ],
   "note": "Proved for the latent map and the projection, and for the map from features when sigma and tau are the same, as in all new models. Refuted when they differ: the means of the documents lack the factor tau^2/sigma^2 (line 188). The inverse is an argument that is assumed to invert."
  },
  {
   "property": "C279",
   "status": "proved",
   "theorems": [
    "C279_bound",
    "C279_new"
   ],
   "note": "Proved for sigma = tau, as in all new models, documents with words, and as long as no word that occurs gets a probability below the floor of safe_log. The logarithm of the determinant is an argument with the property that it is known for: less the trace of the product with a positive definite matrix it is largest at the inverse."
  },
  {
   "property": "C280",
   "status": "partial",
   "theorems": [
    "C280_log_refuted",
    "C280_ends",
    "C280_empty_refuted"
   ],
   "note": "Proved without a log, if every document has words. A positive interval for the log raises TypeError at once. A document without words turns the arrays into NaN, and from the third iteration on training raises ValueError."
  },
  {
   "property": "C281",
   "status": "partial",
   "theorems": [
    "C281_kept",
    "C281_offset_refuted"
   ],
   "note": "Refuted: the update is commented out (lines 217-218), so that all offsets stay at zero, and unless the weighted means add up to one particular number another offset is better."
  },
  {
   "property": "C282",
   "status": "proved",
   "theorems": [
    "C282_documents"
   ],
   "note": "Proved for documents with words, probabilities of words below the floor of safe_log being taken for the floor."
  },
  {
   "property": "C283",
   "status": "partial",
   "theorems": [
    "C283_printed",
    "C283_order_refuted"
   ],
   "note": "Proved that what is printed is the bound, a constant and three terms that should not be there: the deviations of the topics are not squared and the number of documents is a factor of the variance of the map (line 385), and the covariance of the map stands where that of the latent map should (line 396). Refuted that the order is that of the bound. For words that occur, zero offsets, as training keeps them, and tangents up to 33."
  },
  {
   "property": "C284",
   "status": "partial",
   "theorems": [
    "C284_kept",
    "C284_words_refuted",
    "C284_exponentials_refuted"
   ],
   "note": "Refuted: the updates of the topics of the documents and of the words of the topics are commented out, so that the topics are the draws and the vocabulary is that of the start whatever the words are; only the iteration at which a logged bound ends training depends on them. What is returned as exponentials are the means themselves. The module imports a module that does not exist; the model is of what it would do with the one in model/old."
  },
  {
   "property": "C285",
   "status": "partial",
   "theorems": [
    "C285_completes",
    "C285_latent",
    "C285_features",
    "C285_projection",
    "C285_scale_refuted",
    "C285_settings_refuted"
   ],
   "note": "Proved that training gets to its end, for the projection at all variances, and for the two maps at variance one of the features. Refuted at other variances, for want of a factor (lines 155 and 160), and that the variances are the ones asked for: all models have 1/100 (line 524). The checks of the bound that are printed are taken not to raise."
  },
  {
   "property": "C286",
   "status": "partial",
   "theorems": [
    "C286_fields",
    "C286_new",
    "C286_train",
    "C286_bound",
    "C286_usable_refuted"
   ],
   "note": "Refuted: all three read attributes or names, tau and sigma, that do not exist, and raise whatever the inputs are."
  },
  {
   "property": "C287",
   "status": "partial",
   "theorems": [
    "C287_reported",
    "C287_order_refuted",
    "C287_not_positive_refuted"
   ],
   "note": "Proved what is reported: the bound, a constant, and terms that should not be there. The largest mean of a document, times its length, is left out (lines 484-487); the misfit of the map is scaled by the variance of the latent features (line 456); the logarithm of the determinant of the topics counts twice (lines 442 and 454) and the traces lack the variances (lines 445 and 457); the covariance of the latent map is left out of the misfit. Refuted that the order is that of the bound, and that the value is not positive when the words are certain. For tangents as a query leaves them; training keeps twice their value."
  },
  {
   "property": "C288",
   "status": "partial",
   "theorems": [
    "C288_words",
    "C288_links",
    "C288_shift_refuted",
    "C288_not_positive_refuted"
   ],
   "note": "Proved for the words; for the links proved what is counted too much: each pair of links of a document (line 639 sums a matrix with a row and a column for each link), and the normaliser of the scores as often as the words of the document and the links to it, not the links from it (lines 138 and 636). Refuted therefore that a shift of all scores leaves the bound, and that it is not positive. For shares and masses of at least 1E-300."
  },
  {
   "property": "C289",
   "status": "partial",
   "theorems": [
    "C289_words",
    "C289_order_refuted"
   ],
   "note": "Proved what the words contribute: their part of the bound less the entropy of the assignments of the words to topics, which is taken to be zero (line 749). Refuted that the order is that of the bound. For words that occur with the probability of a positive float, and tangents up to 33."
  },
  {
   "property": "C290",
   "status": "partial",
   "theorems": [
    "C290_covariance",
    "C290_one_topic_refuted",
    "C290_order_refuted"
   ],
   "note": "Proved how the bound depends on the covariance: as the density of normal vectors, but with the determinant in place of its logarithm (line 368). Refuted that the order is that of the density, and that a model of one topic has a bound: line 415 multiplies by a matrix that is None."
  },
  {
   "property": "C291",
   "status": "partial",
   "theorems": [
    "C291_value",
    "C291_words",
    "C291_links_refuted",
    "C291_memory",
    "C291_memory_refuted"
   ],
   "note": "Proved: the first part is the log probability of the words, floored; refuted: the second part sums over the words again (line 177), so links do not matter, and a word whose number is not that of a document makes compiled code read outside of memory."
  },
  {
   "property": "C292",
   "status": "proved",
   "theorems": [
    "C292_gradient",
    "C292_second",
    "C292_newton",
    "C292_stays",
    "C292_estimate"
   ],
   "note": "Proved with digamma and trigamma as arguments that are the derivatives of each other and of the log of the gamma function; a step is Newtons where its denominator is not zero. Whether the sixty steps converge, and stay positive, is not stated."
  },
  {
   "property": "C293",
   "status": "partial",
   "theorems": [
    "C293_value",
    "C293_shapes",
    "C293_error",
    "C293_error_refuted"
   ],
   "note": "Proved for the likelihood, without rounding; refuted for the error of reconstruction: query states have no lmda, so it always raises AttributeError."
  },
  {
   "property": "C294",
   "status": "partial",
   "theorems": [
    "C294_new",
    "C294_raises",
    "C294_topics",
    "C294_state",
    "C294_no_query",
    "C294_no_query_refuted"
   ],
   "note": "Proved what new models are. Refuted that they have query states: the prior ends in zero (line 81), which rd.dirichlet rejects with ValueError. A prior that is a number raises TypeError."
  },
  {
   "property": "C295",
   "status": "partial",
   "theorems": [
    "C295_count",
    "C295_topics",
    "C295_even",
    "C295_odd",
    "C295_odd_refuted",
    "C295_order_refuted"
   ],
   "note": "Proved for the topics, and for the words after an even number of iterations. Refuted after an odd number: the two arrays of words are swapped each time (line 263), so the array that was passed holds logarithms; refuted that order does not matter: the weights are divided by their sums after each document (line 298). The inner loop always runs twenty times (line 273 has MaxInnerItrs for MinInnerItrs)."
  }
 ]
}
