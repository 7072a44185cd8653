{
 "claims": [
  {
   "property": "C01",
   "status": "proved",
   "theorems": [
    "C01_sortby_sorts_and_keeps_pairs"
   ],
   "note": ""
  },
  {
   "property": "C02",
   "status": "proved",
   "theorems": [
    "C02_sortby_total_and_frame"
   ],
   "note": ""
  },
  {
   "property": "C03",
   "status": "proved",
   "theorems": [
    "C03_split_is_three_way_partition"
   ],
   "note": ""
  },
  {
   "property": "C04",
   "status": "proved",
   "theorems": [
    "C04_coded_and_decoded_splits_agree"
   ],
   "note": ""
  },
  {
   "property": "C05",
   "status": "proved",
   "theorems": [
    "C05_catmap_bijection",
    "C05_number_stable"
   ],
   "note": ""
  },
  {
   "property": "C06",
   "status": "partial",
   "theorems": [
    "C06_copy_keeps_original_partial",
    "C06_copy_shares_map_refuted",
    "C06_original_overwrites_copy_refuted",
    "C06_as_values",
    "C06_read_as_values"
   ],
   "note": "False as stated: C06_copy_shares_map_refuted and C06_original_overwrites_copy_refuted exhibit the sharing of the Go map and of the backing array. Proved for all operation sequences on the copy: values, NumToCat and all known names of the original are unchanged. C06_as_values and C06_read_as_values: on an unshared feature the heap operations are the value operations used by all other properties, panics included."
  },
  {
   "property": "C07",
   "status": "partial",
   "theorems": [
    "C07_flag_sound_categorical",
    "C07_flag_sound_numerical_partial",
    "C07_numerical_copy_refuted",
    "C07_copyInTo_refuted"
   ],
   "note": "Proved for every operation sequence on categorical features and for numerical features without Copy; the full claim is refuted by numerical Copy (flag dropped) and by CopyInTo."
  },
  {
   "property": "C08",
   "status": "partial",
   "theorems": [
    "C08_append_token",
    "C08_append_nontoken",
    "C08_putStr_refuted",
    "C08_numerical",
    "C08_put_missing",
    "C08_numerical_nan_refuted"
   ],
   "note": "Append on categorical features proved; PutStr on categorical features violates the claim for every token (C08_putStr_refuted), numerical features violate it for nan."
  },
  {
   "property": "C09",
   "status": "proved",
   "theorems": [
    "C09_append_read_back"
   ],
   "note": ""
  },
  {
   "property": "C10",
   "status": "proved",
   "theorems": [
    "C10_impute_categorical",
    "C10_impute_numerical",
    "C10_all_missing_refuted"
   ],
   "note": "Proved for every feature; C10_all_missing_refuted documents that a column with no present value gets NaN or an unnamed code."
  },
  {
   "property": "C11",
   "status": "proved",
   "theorems": [
    "C11_shuffle_is_permutation",
    "C11_shuffle_uniform"
   ],
   "note": ""
  },
  {
   "property": "C12",
   "status": "proved",
   "theorems": [
    "C12_shuffleCases_frame",
    "C12_shuffleCases_uniform",
    "C12_shuffleCases_multiset"
   ],
   "note": ""
  },
  {
   "property": "C13",
   "status": "proved",
   "theorems": [
    "C13_sampleFirstN",
    "C13_sampleFirstN_uniform"
   ],
   "note": ""
  },
  {
   "property": "C14",
   "status": "proved",
   "theorems": [
    "C14_sampleWithReplacment",
    "C14_bag",
    "C14_oob_complement",
    "C14_bag_terminates"
   ],
   "note": ""
  },
  {
   "property": "C15",
   "status": "proved",
   "theorems": [
    "C15_balanced",
    "C15_secondary",
    "C15_secondary_blocks",
    "C15_secondary_total"
   ],
   "note": ""
  },
  {
   "property": "C16",
   "status": "partial",
   "theorems": [
    "C16_secondary_can_panic_refuted"
   ],
   "note": "False as stated: C16_secondary_can_panic_refuted. The true condition for success is C15_secondary_total."
  },
  {
   "property": "C17",
   "status": "proved",
   "theorems": [
    "C17_leaves_partition_the_cases",
    "C17_no_leaf_iff_missing"
   ],
   "note": ""
  },
  {
   "property": "C18",
   "status": "proved",
   "theorems": [
    "C18_each_case_votes_once",
    "C18_order_of_cases_irrelevant",
    "C18_vote_covers_all_cases"
   ],
   "note": ""
  },
  {
   "property": "C19",
   "status": "proved",
   "theorems": [
    "C19_cat_plurality",
    "C19_cat_totals",
    "C19_NA_iff"
   ],
   "note": ""
  },
  {
   "property": "C20",
   "status": "proved",
   "theorems": [
    "C20_num_weighted_mean",
    "C20_order_irrelevant"
   ],
   "note": "Exact arithmetic (reals with a contagious NaN); weights non-negative, first number of the case with positive weight, which includes the positive weights of the statement."
  },
  {
   "property": "C21",
   "status": "proved",
   "theorems": [
    "C21_sum",
    "C21_sum_exact"
   ],
   "note": ""
  },
  {
   "property": "C22",
   "status": "proved",
   "theorems": [
    "C22_num_linearizable",
    "C22_sum_linearizable",
    "C22_no_deadlock",
    "C22_exact_tally_unique"
   ],
   "note": ""
  },
  {
   "property": "C23",
   "status": "partial",
   "theorems": [
    "C23_concurrent_cat_votes_refuted"
   ],
   "note": "False as stated: C23_concurrent_cat_votes_refuted gives a schedule (CatToNum is outside of the mutex) crediting a vote for b to a. Sequential voting is C19."
  },
  {
   "property": "C24",
   "status": "partial",
   "theorems": [
    "C24_leading_zero_refuted",
    "C24_later_zero_partial"
   ],
   "note": "False as stated: C24_leading_zero_refuted (0/0, the tally stays NaN for good, for all later votes). Proved: a zero weight vote after positive weight changes nothing, in exact arithmetic."
  },
  {
   "property": "C25",
   "status": "proved",
   "theorems": [
    "C25_sparse_counts"
   ],
   "note": ""
  },
  {
   "property": "C26",
   "status": "proved",
   "theorems": [
    "C26_leaf_cooccurrence",
    "C26_symmetric_with_reach_on_diagonal"
   ],
   "note": "GetLeaves is modelled on one shared case array; goroutines and the counter are the machine of Conc.v (C25), for every distribution of trees to goroutines and every interleaving."
  },
  {
   "property": "C27",
   "status": "proved",
   "theorems": [
    "C27_balanced_error"
   ],
   "note": "Exact arithmetic."
  },
  {
   "property": "C28",
   "status": "partial",
   "theorems": [
    "C28_unvoted_cases_count_refuted",
    "C28_squared_error_partial"
   ],
   "note": "False as stated: C28_unvoted_cases_count_refuted. Proved what is computed instead: all present cases count, cases without votes as predictions of 0."
  },
  {
   "property": "C29",
   "status": "partial",
   "theorems": [
    "C29_exhaustive_partial",
    "C29_exhaustive_refuted"
   ],
   "note": "Refuted as stated: the cut leaving exactly leafSize cases on the right is never evaluated (C29_exhaustive_refuted). Proved: exhaustive over the thresholds leaving at least leafSize cases left and more than leafSize right, for every target that computes what it claims and values more than 1e-7 apart."
  },
  {
   "property": "C30",
   "status": "partial",
   "theorems": [
    "C30_applied_is_evaluated_partial",
    "C30_near_ties_refuted",
    "C30_rounding_refuted",
    "C30_overflow_refuted"
   ],
   "note": "Proved in float64 for feature values of magnitude at most 2^29 whose distinct values are more than 1e-7 apart: the split that is applied is the one that was evaluated. Refuted without these hypotheses for three separate reasons: near ties, rounding of the midpoint (just above 2^30), overflow of the sum."
  },
  {
   "property": "C31",
   "status": "proved",
   "theorems": [
    "C31_exhaustive_categories_optimal"
   ],
   "note": ""
  },
  {
   "property": "C32",
   "status": "proved",
   "theorems": [
    "C32_greedy_local_optimum",
    "C32_greedy_local_optimum_big"
   ],
   "note": "For every target that satisfies the contract 'honest' (gini, entropy and regression targets do, see TargetProofs.v); BestCatSplitIter for at most 63 categories (the code uses it for at most 30), BestCatSplitIterBig for any number."
  },
  {
   "property": "C33",
   "status": "proved",
   "theorems": [
    "C33_binary_split"
   ],
   "note": "For every honest target with a symmetric split impurity."
  },
  {
   "property": "C34",
   "status": "partial",
   "theorems": [
    "C34_missing_charged",
    "C34_missing_charged_regression",
    "C34_missing_charged_gini",
    "C34_missing_charged_entropy",
    "C34_near_ties_refuted"
   ],
   "note": "Proved in exact arithmetic for every target whose impurity is an average weighted by sizes (corollaries for Gini, entropy and squared error), every feature kind, any missing values. Refuted for numerical values closer than 1e-7, in exact rational arithmetic (C34_near_ties_refuted). Gradient boosting targets are left out: their score is not an impurity."
  },
  {
   "property": "C35",
   "status": "proved",
   "theorems": [
    "C35_candidates_rearranged"
   ],
   "note": "For any search results: if BestSplitter returns, candidates are permuted, the known constants stay at the end, the count of constants does not fall and the chosen feature is a candidate (mTry at most the number of candidates)."
  },
  {
   "property": "C36",
   "status": "partial",
   "theorems": [
    "C36_no_panic_partial",
    "C36_no_panic_refuted"
   ],
   "note": "Returns for every mTry up to the number of candidates (dependable target, searchable features). For larger mTry the claim is false: C36_no_panic_refuted gives a run that indexes past the candidate list."
  },
  {
   "property": "C37",
   "status": "proved",
   "theorems": [
    "C37_best_of_evaluated",
    "C37_oob_refuted"
   ],
   "note": "Without vetting and out-of-bag scoring. With evaloob the compared score is not maximised: C37_oob_refuted."
  },
  {
   "property": "C38",
   "status": "proved",
   "theorems": [
    "C38_constant_stays_constant",
    "C38_random_refuted"
   ],
   "note": "For the deterministic searches, as quantified; C38_random_refuted shows the same claim fails for the random searches over 11 or more categories."
  },
  {
   "property": "C39",
   "status": "proved",
   "theorems": [
    "C39_limits_respected"
   ],
   "note": "every tree grown from a new node: depth, both children, 2*leafSize cases at a split, leafSize at each child (cases counted by following the splitters from the root); needs numerical values below 2^29 in magnitude and more than 1e-7 apart, without which splits are not applied as evaluated (C30)"
  },
  {
   "property": "C40",
   "status": "partial",
   "theorems": [
    "C40_growing_ends_partial",
    "C40_endless_refuted"
   ],
   "note": "terminates within length cases + 1 levels for every data set whose splits are applied as evaluated (C40_growing_ends_partial); refuted in general: two values near 2^30 that differ by 2^-22 give a split that sends all cases left, and growing never ends (C40_endless_refuted, for every fuel)"
  },
  {
   "property": "C41",
   "status": "partial",
   "theorems": [
    "C41_same_up_to_stale_nodes_partial",
    "C41_regrown_tree_does_not_vote_refuted"
   ],
   "note": "growing into an old tree without missing branches gives the same splits and predictions as growing from scratch once stale nodes below leaves are cut off; refuted as stated: the stale children make VoteCases walk past the new leaf and the case gets no vote"
  },
  {
   "property": "C42",
   "status": "proved",
   "theorems": [
    "C42_leaves_predict_their_cases"
   ],
   "note": "leaves partition the in-bag cases and predict FindPredicted of exactly the cases that reach them; the only leaf without prediction is an empty missing branch (C78)"
  },
  {
   "property": "C43",
   "status": "proved",
   "theorems": [
    "C43_gini_is_one_minus_squared_shares",
    "C43_gini_range_purity_order",
    "C43_split_never_increases_gini"
   ],
   "note": "Exact arithmetic (SpecFloat arithmetic replaced by reals): value, range, purity, order independence, concavity."
  },
  {
   "property": "C44",
   "status": "proved",
   "theorems": [
    "C44_squared_deviation_properties",
    "C44_split_never_exceeds_parent"
   ],
   "note": "Exact arithmetic."
  },
  {
   "property": "C45",
   "status": "proved",
   "theorems": [
    "C45_counting_targets",
    "C45_gini_float64",
    "C45_gini_exact",
    "C45_hellinger",
    "C45_numerical_exact",
    "C45_friedman_exact"
   ],
   "note": "Counting targets and Hellinger for every arithmetic (bit for bit at float64), Gini at float64 as called (no missing cases) and exactly with missing cases; numerical and gradient boosting targets in exact arithmetic."
  },
  {
   "property": "C46",
   "status": "partial",
   "theorems": [
    "C46_values_of_both_computations",
    "C46_consistent_for_unit_costs_partial",
    "C46_consistent_refuted"
   ],
   "note": "False as stated: Impurity ignores the costs, ImpFromCounts uses them. Values of both computed exactly; they agree when every occurring category has cost one; a counterexample refutes the general claim."
  },
  {
   "property": "C47",
   "status": "proved",
   "theorems": [
    "C47_entropy_value_range_purity",
    "C47_split_never_increases_entropy"
   ],
   "note": "Exact arithmetic with the real logarithm; uses Classical axioms of the Reals library."
  },
  {
   "property": "C48",
   "status": "partial",
   "theorems": [
    "C48_regret_is_half_the_average_cost",
    "C48_regret_is_average_cost_refuted"
   ],
   "note": "False as stated: the number of cases is counted twice, so the value is half of the average misclassification cost. Proved: exactly half, with the predicted category the one of largest total cost."
  },
  {
   "property": "C49",
   "status": "partial",
   "theorems": [
    "C49_plain_majority",
    "C49_weighted_majority",
    "C49_regret_majority",
    "C49_neyman_pearson_majority",
    "C49_transduction_majority",
    "C49_boosting_majority",
    "C49_missing_ignored_refuted",
    "C49_transduction_without_weight",
    "C49_transduction_comment_refuted"
   ],
   "note": "Plain, weighted, regret, Neyman-Pearson, transduction and boosting majorities proved at float64 level. 'Missing target values are ignored' is false for the regret, Neyman-Pearson and transduction targets (refuted); the comment on transduction is refuted for positive weights and proved for weight zero."
  },
  {
   "property": "C50",
   "status": "proved",
   "theorems": [
    "C50_residuals",
    "C50_accounting"
   ],
   "note": "bit-exact residual formula in any arithmetic (also float64) and the exact identity at XR; the residual vector is updated over the whole partition of the tree (all cases, C17), so cases lost by a tree keep their residual"
  },
  {
   "property": "C51",
   "status": "partial",
   "theorems": [
    "C51_weights_distribution",
    "C51_half_of_the_weight",
    "C51_useless_tree",
    "C51_history",
    "C51_perfect_tree_refuted"
   ],
   "note": "proved for errors strictly between 0 and 1/2, over any number of rounds from the initial weights; error 0 (a tree without mistakes) turns every weight into NaN: C51_perfect_tree_refuted. AdaBoost.Boost is never called by the drivers (its signature differs from the BoostingTarget interface)"
  },
  {
   "property": "C52",
   "status": "proved",
   "theorems": [
    "C52_what_files_keep",
    "C52_forest_files_round_trip"
   ],
   "note": "For texts without comma, equals sign, quote and newline (and without blanks at the ends where the text is not quoted), any order of map iteration and any number format that parses back. A zero intercept is not written; the forest target is then that of the first tree. Also says what every tree with missing branches comes back as."
  },
  {
   "property": "C53",
   "status": "partial",
   "theorems": [
    "C53_right_branch_takes_over",
    "C53_writer_panics_without_right_branch",
    "C53_missing_branches_lost_refuted"
   ],
   "note": "False: the writer writes the right branch in place of the missing one (forestwriter.go:70-72). Proved for every forest what comes back, that the writer panics when there is a missing but no right branch, and a forest that does not survive."
  },
  {
   "property": "C54",
   "status": "partial",
   "theorems": [
    "C54_delimiters_refuted",
    "C54_plain_categories_survive_partial"
   ],
   "note": "False: refuted with names that hold a colon, an equals sign, a comma followed by a blank, or quotes, and with the empty set. The partial theorem covers every non-empty set of names without the delimiters."
  },
  {
   "property": "C55",
   "status": "partial",
   "theorems": [
    "C55_matrix_files_round_trip",
    "C55_read_write_read",
    "C55_encoded_matrix_refuted"
   ],
   "note": "Proved for every matrix whose names say the kind of the feature (N: or not) and whose categories are not missing words, with fields free of tab, newline, CR and quote; also reading, writing and reading again gives the identical matrix. Refuted for encoded matrices: EncodeToNum gives numerical features C: names, which are read back as categorical. Quoted csv fields are not modelled."
  },
  {
   "property": "C56",
   "status": "proved",
   "theorems": [
    "C56_orientation_agrees"
   ],
   "note": "Both orientations parse to the identical matrix, for every rectangular table of plain texts."
  },
  {
   "property": "C57",
   "status": "proved",
   "theorems": [
    "C57_column_per_category",
    "C57_exactly_one",
    "C57_few_categories"
   ],
   "note": "For every aligned categorical feature with distinct category names. Sharing of the Missing slice is C80."
  },
  {
   "property": "C58",
   "status": "partial",
   "theorems": [
    "C58_more_than_two_categories_partial",
    "C58_small_features_vanish_refuted"
   ],
   "note": "False: OneHot drops every categorical feature of at most two categories (proved in general). Proved part: features of more than two categories."
  },
  {
   "property": "C59",
   "status": "partial",
   "theorems": [
    "C59_contrasts_named",
    "C59_all_contrasts_named",
    "C59_encoded_names",
    "C59_clashing_names_refuted",
    "C59_parsed_names"
   ],
   "note": "Proved for every parsed input, AddContrasts, ContrastAll and, with distinct output names, EncodeToNum. Refuted for EncodeToNum when an encoded name clashes with another feature (len(out.Map) is used as the column index)."
  },
  {
   "property": "C60",
   "status": "partial",
   "theorems": [
    "C60_data_kept_partial",
    "C60_categories_misnumbered_refuted",
    "C60_inconsistent_refuted"
   ],
   "note": "False: line 54 stores the feature index for every category (proved for all matrices). Proved part: data kept, target first, feature name table right."
  },
  {
   "property": "C61",
   "status": "proved",
   "theorems": [
    "C61_scikit_layout_is_the_tree",
    "C61_child_indices"
   ],
   "note": ""
  },
  {
   "property": "C62",
   "status": "proved",
   "theorems": [
    "C62_libsvm_matrix"
   ],
   "note": "For every input whose lines have a target and entries with positive indices; the value of repeated indices is the last one."
  },
  {
   "property": "C63",
   "status": "proved",
   "theorems": [
    "C63_unstratified_folds",
    "C63_stratified_folds",
    "C63_train_test",
    "C63_no_folds_panics"
   ],
   "note": "Stratified folding additionally leaves out every case whose target is missing; folds = 0 panics (C63_no_folds_panics)."
  },
  {
   "property": "C64",
   "status": "proved",
   "theorems": [
    "C64_every_schedule_grows_all",
    "C64_no_cores"
   ],
   "note": "Worker machine of growforest: every schedule grows and writes exactly max(nTrees, nCores) trees, has no stuck state, bounded length."
  },
  {
   "property": "C65",
   "status": "partial",
   "theorems": [
    "C65_tree_lost_refuted",
    "C65_few_trees_partial"
   ],
   "note": "Refuted for nCores < nTrees in every schedule: one tree is tested twice and one is lost. Proved for nTrees <= nCores."
  },
  {
   "property": "C66",
   "status": "partial",
   "theorems": [
    "C66_lost_worker_blocks_main_refuted",
    "C66_deadlock_or_crash_refuted",
    "C66_it_happens_refuted",
    "C66_one_core_partial"
   ],
   "note": "Refuted: an infinite boosting weight makes a worker return early; main waits for ever (or a second close panics) when nCores > 1. One core proved to terminate."
  },
  {
   "property": "C67",
   "status": "proved",
   "theorems": [
    "C67_each_file_once",
    "C67_no_workers_blocks"
   ],
   "note": "Every schedule with at least one worker counts each file exactly once and terminates; with no worker it blocks. log.Fatal on unreadable files is not modelled."
  },
  {
   "property": "C68",
   "status": "proved",
   "theorems": [
    "C68_climb_visits_each_node_once",
    "C68_strip_codes"
   ],
   "note": ""
  },
  {
   "property": "C69",
   "status": "proved",
   "theorems": [
    "C69_mean_and_variance",
    "C69_too_few"
   ],
   "note": "Exact arithmetic, every list of at least two numbers; one number gives 0/0."
  },
  {
   "property": "C70",
   "status": "partial",
   "theorems": [
    "C70_always_zero_refuted",
    "C70_span_of_two_refuted",
    "C70_constant_partial"
   ],
   "note": "Refuted: the flag first is never cleared, so Span is zero for all finite data. Right only for constant data."
  },
  {
   "property": "C71",
   "status": "partial",
   "theorems": [
    "C71_importance",
    "C71_depth_partial",
    "C71_depth_refuted"
   ],
   "note": "importance: counter and mean exactly those of the splits over any number of trees, exact arithmetic; depth: proved for features not used at the root, refuted for features used at the root because depth 0 is read as not used"
  },
  {
   "property": "C72",
   "status": "proved",
   "theorems": [
    "C72_paths_address_nodes",
    "C72_existing_nodes_are_kept"
   ],
   "note": "On a heap of nodes with pointers; characters other than L, R, M (the leading *) are skipped as in the code."
  },
  {
   "property": "C73",
   "status": "partial",
   "theorems": [
    "C73_every_case_accounted_for",
    "C73_partition_without_merges_partial",
    "C73_leaves_predict_their_cases",
    "C73_merged_cases_lost_refuted",
    "C73_exact_targets_partial",
    "C73_merge_happens_refuted"
   ],
   "note": "Proved for every target, draw sequence and size: growing stops without panic, every position is in exactly one leaf, merged node or dropped missing window, the prediction of each leaf is of its own cases; merges keep nothing of the merged node. Partition proved without merges and shown for gini, entropy and numerical targets in exact arithmetic. Refuted: the cases of a merged node are in no leaf, and float64 rounding causes such a merge on a concrete growable input."
  },
  {
   "property": "C74",
   "status": "partial",
   "theorems": [
    "C74_default_uses_all_partial",
    "C74_other_sizes_partial",
    "C74_all_cases_asked",
    "C74_cases_lost_refuted"
   ],
   "note": "False in general: with -nSamples equal to the number of cases and missing target values, usable cases after position nNonMissing are lost (C74_cases_lost_refuted, exact set in C74_all_cases_asked). True for the default -nSamples (C74_default_uses_all_partial); other sizes draw that many distinct usable cases."
  },
  {
   "property": "C75",
   "status": "proved",
   "theorems": [
    "C75_branch_counts"
   ],
   "note": ""
  },
  {
   "property": "C76",
   "status": "proved",
   "theorems": [
    "C76_friedman_score_is_error_reduction"
   ],
   "note": "Exact arithmetic."
  },
  {
   "property": "C77",
   "status": "proved",
   "theorems": [
    "C77_random_categories_best_drawn",
    "C77_random_categories_best_drawn_big"
   ],
   "note": "Draws are an arbitrary sequence rnd."
  },
  {
   "property": "C78",
   "status": "partial",
   "theorems": [
    "C78_leaf_without_prediction_refuted"
   ],
   "note": "refuted: with splitmissing an empty missing branch keeps the empty prediction; C42_leaves_predict_their_cases is the true part (every other leaf predicts FindPredicted of its cases)"
  },
  {
   "property": "C79",
   "status": "proved",
   "theorems": [
    "C79_skipped_features_are_constant"
   ],
   "note": "stated over every recursive call made while growing; vet and evaloob excluded (they reorder the oob list or add contrasts)"
  },
  {
   "property": "C80",
   "status": "partial",
   "theorems": [
    "C80_missing_forgotten_refuted",
    "C80_class_labels_invented_refuted",
    "C80_present_labels_kept_partial"
   ],
   "note": "refuted: both constructors clear all missing flags; what holds is that labels of present cases are kept"
  },
  {
   "property": "C81",
   "status": "proved",
   "theorems": [
    "C81_scores_and_residuals"
   ],
   "note": "operation by operation, in any arithmetic and with any expit and log"
  },
  {
   "property": "C82",
   "status": "partial",
   "theorems": [
    "C82_outside_node_error_lost_refuted",
    "C82_unreadable_weight_refuted",
    "C82_cut_file_no_error_refuted"
   ],
   "note": "False: for every header and node line, ReadTree reports the node outside a tree and ReadForest returns no error; a forest whose file cut anywhere in its last line reads without error as a smaller forest."
  },
  {
   "property": "C83",
   "status": "partial",
   "theorems": [
    "C83_lines_dropped_refuted"
   ],
   "note": "False: proved for every file that everything from the first bad line on is dropped without a reported error."
  },
  {
   "property": "C84",
   "status": "partial",
   "theorems": [
    "C84_last_line_lost_refuted"
   ],
   "note": "False: proved for every input that text after the last newline is ignored."
  },
  {
   "property": "C85",
   "status": "partial",
   "theorems": [
    "C85_target_overwritten_refuted",
    "C85_malformed_panics_refuted"
   ],
   "note": "False: index 0 and non numerical indices overwrite the target; negative indices, entries without colon and empty lines panic."
  },
  {
   "property": "C86",
   "status": "partial",
   "theorems": [
    "C86_onehot_discarded_refuted",
    "C86_still_categorical_refuted"
   ],
   "note": "False: the result of OneHot is not assigned, so the matrix written is the one read (C86_onehot_discarded_refuted)."
  },
  {
   "property": "C87",
   "status": "partial",
   "theorems": [
    "C87_numbered_with_progress_partial",
    "C87_all_trees_zero_refuted"
   ],
   "note": "Proved with -progress; refuted without it: every tree is written with number 0."
  },
  {
   "property": "C88",
   "status": "partial",
   "theorems": [
    "C88_exchanged_partial",
    "C88_direction_partial",
    "C88_unused_feature_refuted",
    "C88_negative_variance_refuted",
    "C88_incomplete_beta_partial",
    "C88_p_value_partial",
    "C88_two_degrees_partial",
    "C88_equal_means_partial"
   ],
   "note": "Refuted: samples of zeros give NaN for all sample sizes and library functions; rounding can give a negative variance. Proved in exact arithmetic: exchanged samples give complementary p values; with library functions that are right at the arguments the p value is strictly between 0 and 1, on the right side of one half, and bounded by (for even degrees of freedom up to 100 and small t: equal to) the value of the incomplete beta function, by Gauss's continued fraction; the closed form for two degrees of freedom; one half for equal means. Not covered: small t with more than two degrees of freedom that are not an even number up to 100; rounding of the fraction."
  },
  {
   "property": "C89",
   "status": "partial",
   "theorems": [
    "C89_skipped_feature_is_constant_refuted"
   ],
   "note": "Refuted: a growable data set on which the jungle leaves an impure node though a search afresh finds a split by a feature that was skipped as constant; the depth first tree (C79) splits it."
  },
  {
   "property": "C90",
   "status": "partial",
   "theorems": [
    "C90_never_splits_refuted",
    "C90_infinite_density_refuted",
    "C90_one_leaf_refuted",
    "C90_categorical_partial"
   ],
   "note": "False in the code as soon as one feature is numerical: the span of a numerical feature is 0 or NaN (its minimum and maximum are never separated), so every tree is a single leaf with an infinite or undefined density (C90_never_splits_refuted, C90_infinite_density_refuted, C90_one_leaf_refuted). For categorical features the exact formula is proved."
  },
  {
   "property": "C91",
   "status": "partial",
   "theorems": [
    "C91_numbers_ignored_refuted",
    "C91_categorical_partial"
   ],
   "note": "False in the code: the term does not depend on the numerical features at all (C91_numbers_ignored_refuted). The formula over the categorical features is proved exactly."
  },
  {
   "property": "C92",
   "status": "partial",
   "theorems": [
    "C92_absolute_deviation",
    "C92_split_at_most_doubles_partial",
    "C92_split_increases_refuted",
    "C92_prediction_not_best_refuted",
    "C92_all_missing_refuted"
   ],
   "note": "Value, sign, zeros and order independence are proved in exact arithmetic. A split can exceed its parent (C92_split_increases_refuted; at most twice it, C92_split_at_most_doubles_partial), the mean is not the best constant (C92_prediction_not_best_refuted) and a part without known values makes the split NaN (C92_all_missing_refuted)."
  },
  {
   "property": "C93",
   "status": "partial",
   "theorems": [
    "C93_most_frequent_class_partial",
    "C93_negative_class_refuted",
    "C93_split_increases_refuted"
   ],
   "note": "Proved in exact arithmetic when all known values are above -1. A known value at or below -1 panics (C93_negative_class_refuted), and splits can exceed the parent (C93_split_increases_refuted)."
  },
  {
   "property": "C94",
   "status": "partial",
   "theorems": [
    "C94_new_weights_partial",
    "C94_bad_tree",
    "C94_first_weights",
    "C94_useless_tree_refuted",
    "C94_perfect_tree_refuted"
   ],
   "note": "Proved in exact arithmetic for an error between 0 and the norm factor, and above it. A tree without error makes all weights undefined (C94_perfect_tree_refuted), and the single leaf gets weight log n in the first round (C94_useless_tree_refuted)."
  },
  {
   "property": "C95",
   "status": "partial",
   "theorems": [
    "C95_score_partial",
    "C95_not_hellinger_refuted",
    "C95_other_classes_refuted",
    "C95_absent_class_refuted",
    "C95_one_class_refuted",
    "C95_prediction_partial",
    "C95_unknown_positive_refuted"
   ],
   "note": "The score is twice the squared difference of the shares (C95_score_partial), which orders splits differently from the Hellinger distance (C95_not_hellinger_refuted), ignores all classes but two (C95_other_classes_refuted), is NaN in nodes without one of them (C95_absent_class_refuted) and panics for one class (C95_one_class_refuted). The prediction is proved for a positive class that exists; otherwise it is 0 and the class is added to the target (C95_unknown_positive_refuted)."
  },
  {
   "property": "C96",
   "status": "partial",
   "theorems": [
    "C96_candidates",
    "C96_feature_count_partial",
    "C96_listed_target_refuted",
    "C96_mtry_positive",
    "C96_leaf_size_partial",
    "C96_leaf_size_default",
    "C96_leaf_size_zero_refuted",
    "C96_zero_leaves_panic_refuted"
   ],
   "note": "The candidates are proved for all inputs (C96_candidates), mTry and leafSize for all but boosting with fewer than three cases. The number of features is one too small when the target is on the blacklist (C96_listed_target_refuted); leafSize is 0 when boosting fewer than three cases and then growing panics (C96_leaf_size_zero_refuted, C96_zero_leaves_panic_refuted)."
  },
  {
   "property": "C97",
   "status": "partial",
   "theorems": [
    "C97_selection",
    "C97_all_recorded",
    "C97_negative_cutoff_refuted",
    "C97_single_forest_refuted"
   ],
   "note": "Proved for at least two ACE forests and a cutoff that is not negative. With one ACE forest the p value is NaN and no feature is ever selected (C97_single_forest_refuted); C97_negative_cutoff_refuted shows the other case."
  },
  {
   "property": "C98",
   "status": "partial",
   "theorems": [
    "C98_gradient_boosting_partial",
    "C98_boosting_panics_refuted",
    "C98_adaboost_refuted",
    "C98_adacosts_refuted",
    "C98_library_refuted",
    "C98_intercept"
   ],
   "note": "C98_gradient_boosting_partial says exactly when a boosted forest can be grown: gradient boosting of a numerical target, or of a categorical one with no other target flag. -adaboost always panics on its own and for categorical targets (C98_boosting_panics_refuted, C98_adaboost_refuted), -adacost is never boosted (C98_adacosts_refuted), and GrowRandomForest ignores all adaptive targets (C98_library_refuted)."
  },
  {
   "property": "C99",
   "status": "partial",
   "theorems": [
    "C99_report_with_missing",
    "C99_report_partial",
    "C99_missing_refuted",
    "C99_unseen_category_refuted"
   ],
   "note": "Proved for test data without missing actual values (C99_report_partial). Missing ones are counted as cases of the first category (C99_missing_refuted), and one prediction of a category the test data does not have panics (C99_unseen_category_refuted). C99_report_with_missing states what is counted in every case."
  },
  {
   "property": "C100",
   "status": "partial",
   "theorems": [
    "C100_sum_partial",
    "C100_categorical_intercept_refuted",
    "C100_votes_file_refuted",
    "C100_intercept_without_sum_refuted",
    "C100_test_box_refuted"
   ],
   "note": "Proved with -sum, in any arithmetic (C100_sum_partial). Without it a boosted regression forest is averaged (C100_intercept_without_sum_refuted), a boosted classification forest panics (C100_categorical_intercept_refuted), and growforest's own test and out of bag error are computed without sum and intercept (C100_test_box_refuted). The votes file needs a categorical box (C100_votes_file_refuted)."
  },
  {
   "property": "C101",
   "status": "partial",
   "theorems": [
    "C101_contrast_kind_refuted",
    "C101_entropy_vet_refuted",
    "C101_density_vet_refuted",
    "C101_out_of_bag_cases",
    "C101_sample_fits_partial",
    "C101_vet_oob_panics_refuted"
   ],
   "note": "The out of bag cases are the cases not drawn (C101_out_of_bag_cases) and samples fit the buffers (C101_sample_fits_partial). The contrast is always the plain column, so a target with another impurity is compared with a different measure (C101_contrast_kind_refuted), -density -vet panics (C101_density_vet_refuted), and -vet -evaloob panics when more than half of the cases are out of the bag (C101_vet_oob_panics_refuted)."
  },
  {
   "property": "C102",
   "status": "partial",
   "theorems": [
    "C102_arff_round_trip_partial",
    "C102_labels_refuted",
    "C102_comment_refuted",
    "C102_blank_in_name_refuted",
    "C102_no_type_refuted",
    "C102_integer_refuted",
    "C102_no_data_refuted"
   ],
   "note": "Proved for one-word names and categories, no category line that looks like a comment, features in the cases; refuted: case labels are lost, rows that start with % vanish, names with blanks, features without categories, integer attributes, files without @data."
  },
  {
   "property": "C103",
   "status": "partial",
   "theorems": [
    "C103_columns_exist",
    "C103_libsvm_round_trip_partial",
    "C103_trailing_columns_refuted",
    "C103_numerical_target_refuted",
    "C103_missing_target_refuted"
   ],
   "note": "Proved up to columns of zeros at the end, which the file cannot show; refuted: those columns, numerical targets whose first text has no point (read as categorical), missing categorical targets (read as a category)."
  },
  {
   "property": "C104",
   "status": "partial",
   "theorems": [
    "C104_cases_written_partial",
    "C104_matrix_changed_refuted",
    "C104_missing_target_refuted",
    "C104_no_categories_refuted"
   ],
   "note": "What is written is proved; that the matrix is left alone is refuted: every missing value of the other features is imputed in place (exactly what changes is proved). Also refuted: missing numerical targets are written as the stored number; a feature without categories among numerical ones panics."
  },
  {
   "property": "C105",
   "status": "partial",
   "theorems": [
    "C105_shared_flags_refuted",
    "C105_multiclass_target_refuted"
   ],
   "note": "Refuted in general: for every feature with more than two categories only the first column is imputed and the feature itself afterwards has its stored category in the missing cases; a target with more than two categories writes nothing. What WriteLibSvmCases writes when flags are not shared is C104."
  },
  {
   "property": "C106",
   "status": "partial",
   "theorems": [
    "C106_matrix_rewritten",
    "C106_libsvm_target",
    "C106_anonymous",
    "C106_both_targets_refuted",
    "C106_nothing_left_refuted",
    "C106_names_clash_refuted"
   ],
   "note": "All three uses are proved for distinct names; refuted: both targets together always fail, a list of every feature panics, names can clash after the prefixes are added."
  },
  {
   "property": "C107",
   "status": "partial",
   "theorems": [
    "C107_expit_is_logistic",
    "C107_logit_then_expit",
    "C107_saturated_refuted"
   ],
   "note": "Proved with exact arithmetic; in float64 saturation breaks the inverse (C107_saturated_refuted)."
  },
  {
   "property": "C108",
   "status": "partial",
   "theorems": [
    "C108_newton_step",
    "C108_state_kept",
    "C108_settled_leaf_refuted",
    "C108_nan_spreads_refuted",
    "C108_single_class_refuted"
   ],
   "note": "Proved with exact arithmetic for targets with both labels; settled leaves, NaN values and single-class targets are refuted in float64."
  },
  {
   "property": "C109",
   "status": "partial",
   "theorems": [
    "C109_weights_distribution",
    "C109_useless_tree",
    "C109_share_of_the_misses",
    "C109_no_costs_refuted",
    "C109_unit_costs_impurity",
    "C109_unit_costs",
    "C109_equal_costs_refuted"
   ],
   "note": "Proved with exact arithmetic for positive costs; with cost 1 for every category the target is proved to be that of adaptive boosting (impurities, weights and tree weights, in any arithmetic where a factor 1 changes nothing). Refuted for the costs a new target has (all 0), and other equal costs do not cancel: with q > 1 everywhere a tree with error in [1/(2q), 1/2) is refused though adaptive boosting would use it. No driver calls this Boost (C98)."
  },
  {
   "property": "C110",
   "status": "partial",
   "theorems": [
    "C110_split_score",
    "C110_only_sizes_refuted",
    "C110_blind_to_the_cases_refuted"
   ],
   "note": "The formula is proved with exact arithmetic; that the unsupervised term looks at the data is refuted for features without positive span."
  },
  {
   "property": "C111",
   "status": "partial",
   "theorems": [
    "C111_known_label",
    "C111_unknown_label_refuted",
    "C111_unknown_label_blind_refuted",
    "C111_share_of_true",
    "C111_no_costs_refuted"
   ],
   "note": "Proved for known labels; unknown labels, predictions of dentropy without True and unset costs are refuted."
  },
  {
   "property": "C112",
   "status": "partial",
   "theorems": [
    "C112_judges_its_prediction",
    "C112_split_score",
    "C112_mixture_tolerated_refuted",
    "C112_split_may_increase_refuted"
   ],
   "note": "Value, agreement with the prediction and purity proved with exact arithmetic; that only pure cases have impurity 0 and that splits never increase it are refuted."
  },
  {
   "property": "C113",
   "status": "partial",
   "theorems": [
    "C113_clear_winner",
    "C113_ties_refuted",
    "C113_nan_and_empty_refuted"
   ],
   "note": "Proved for a clear winner and every map order; ties, NaN and no known case are refuted."
  },
  {
   "property": "C114",
   "status": "partial",
   "theorems": [
    "C114_unseen_trees_vote",
    "C114_classification",
    "C114_regression",
    "C114_boosted_sum_refuted",
    "C114_caseoob_rows"
   ],
   "note": "Proved: who votes, classification, regression in exact arithmetic, -caseoob rows. Refuted: for boosted trees the out of bag prediction averages instead of summing, unlike applyforest -sum."
  },
  {
   "property": "C115",
   "status": "partial",
   "theorems": [
    "C115_shuffled_as_asked",
    "C115_imputed_then_shuffled",
    "C115_labels_invented_refuted"
   ],
   "note": "Proved for all flags and draws. Refuted: -impute also fills in the target, so unlabelled cases become labelled."
  },
  {
   "property": "C116",
   "status": "partial",
   "theorems": [
    "C116_rows_partial",
    "C116_root_features_refuted",
    "C116_infinite_and_nan_refuted"
   ],
   "note": "Proved in exact arithmetic from the recorded depths. Refuted: trees using a feature at the root are not counted for it; unused features get NaN, root-only ones +Inf."
  },
  {
   "property": "C117",
   "status": "partial",
   "theorems": [
    "C117_leaf_predicts_the_mean",
    "C117_leaf_least_squares",
    "C117_missing_numbers_count_refuted",
    "C117_missing_labels_count_refuted",
    "C117_unlabelled_cases_drawn_refuted"
   ],
   "note": "Proved: leaf mean and least squares. Refuted: impurities count missing target values as 0 or as the first category; GrowRandomForest samples unlabelled cases."
  },
  {
   "property": "C118",
   "status": "partial",
   "theorems": [
    "C118_matrix_files_partial",
    "C118_arff_files_partial",
    "C118_libsvm_files_partial",
    "C118_zipped_arff_refuted",
    "C118_zipped_libsvm_refuted",
    "C118_empty_archive_refuted"
   ],
   "note": "Proved for plain files by ending and for zipped matrices. Refuted: zipped or capital-ending ARFF and libsvm files panic, so does an empty archive."
  },
  {
   "property": "C119",
   "status": "partial",
   "theorems": [
    "C119_boosting_scores_partial",
    "C119_boosting_exhaustive_partial",
    "C119_lone_missing_refuted",
    "C119_lone_missing_float_refuted",
    "C119_hellinger_scores"
   ],
   "note": "The score of a found split is proved over exact arithmetic for both targets. The claim that no useful split is overlooked is false with missing values: a lone missing case adds 1 to the score of its own branch (C119_lone_missing_refuted), so only splits that remove more than 1/(n-1) are reported."
  },
  {
   "property": "C120",
   "status": "partial",
   "theorems": [
    "C120_relative_error_partial",
    "C120_other_kind_refuted",
    "C120_boosted_error_refuted",
    "C120_intercept_refuted",
    "C120_constant_target_refuted",
    "C120_constant_target_float_refuted",
    "C120_absent_category_refuted"
   ],
   "note": "Proved for numerical targets over exact arithmetic without -sum and intercept; the balanced error itself is C28. False as stated with -sum, with an intercept, for constant targets and for categories that no known case has (refuted theorems)."
  },
  {
   "property": "C121",
   "status": "partial",
   "theorems": [
    "C121_regret_by_name",
    "C121_weighted_gini_by_name",
    "C121_entropy_by_name",
    "C121_boosted_cost_by_name",
    "C121_numbering_does_not_matter",
    "C121_adacost_numbering_refuted",
    "C121_misspelt_refuted"
   ],
   "note": "proved for regret, weighted Gini, entropy and boosting costs; refuted for ties with -adacost and for misspelt names (C121_adacost_numbering_refuted, C121_misspelt_refuted)"
  },
  {
   "property": "C122",
   "status": "partial",
   "theorems": [
    "C122_sampled_cases",
    "C122_all_known_cases",
    "C122_no_known_case_refuted",
    "C122_unbalanced_refuted",
    "C122_exponent_refuted"
   ],
   "note": "proved for known targets; refuted when no case is known, for -nobag with -balance, and for exponents in -nSamples"
  },
  {
   "property": "C123",
   "status": "partial",
   "theorems": [
    "C123_contrast_cat",
    "C123_contrast_num",
    "C123_gain_of_contrast_partial",
    "C123_every_arrangement",
    "C123_bagged_refuted",
    "C123_evaloob_refuted"
   ],
   "note": "proved for distinct cases and Gini impurity without -evaloob (the contrast itself also for numerical targets); refuted for bagged cases and for -evaloob"
  },
  {
   "property": "C124",
   "status": "partial",
   "theorems": [
    "C124_splits_recorded_partial",
    "C124_nothing_invented",
    "C124_race_refuted",
    "C124_ambiguous_refuted"
   ],
   "note": "proved for one goroutine, and that nothing is listed too often for any number; refuted for two goroutines and for commas"
  },
  {
   "property": "C125",
   "status": "proved",
   "theorems": [
    "C125_cat",
    "C125_num",
    "C125_in_place"
   ],
   "note": ""
  },
  {
   "property": "C126",
   "status": "partial",
   "theorems": [
    "C126_without_quotes",
    "C126_reading_ends",
    "C126_quoted_fields",
    "C126_quoted_table",
    "C126_features_lost_refuted",
    "C126_renamed_refuted",
    "C126_header_refuted"
   ],
   "note": "proved for quoted files and, against the simpler reader, for all files without quotes; refuted for matrices with quotes that are written and read again"
  },
  {
   "property": "C127",
   "status": "partial",
   "theorems": [
    "C127_votes_by_answers",
    "C127_votes_by_values",
    "C127_same_rows_same_votes",
    "C127_written_cases",
    "C127_absent_feature_refuted",
    "C127_wrong_kind_refuted"
   ],
   "note": "Proved for all trees and pairs of matrices that have the features (C127_votes_by_answers and corollaries for values, for files with the same rows and for cases written and read again). Refuted: a feature the data does not have is replaced by the first column, and the kind of a column is not compared with that of the splitter."
  },
  {
   "property": "C128",
   "status": "partial",
   "theorems": [
    "C128_votes_without_codes",
    "C128_strip_codes",
    "C128_files_vote_as_grown",
    "C128_grown_trees",
    "C128_training_cases",
    "C128_same_names_refuted"
   ],
   "note": "Proved for every grown tree and for forests through the file (C128_grown_trees, C128_files_vote_as_grown, C128_training_cases), without missing branches in files (C53). Refuted when two columns have the same name: the tree of the file asks the last one."
  },
  {
   "property": "C129",
   "status": "partial",
   "theorems": [
    "C129_classification",
    "C129_regression",
    "C129_gini",
    "C129_entropy",
    "C129_squared_error",
    "C129_gradient",
    "C129_sample_as_table",
    "C129_labels_of_others",
    "C129_values_of_others",
    "C129_flag_refuted",
    "C129_evaloob_refuted"
   ],
   "note": "Proved: growing is a function of the values of the sampled cases (classification, regression, gradient targets, vetting included); tables of the sample; labels of other cases change neither tree nor votes. Refuted: the has-missing flag of a column is set by cases outside the sample and changes float sums; with -evaloob labels of out of bag cases change the tree. Not proved: AdaBoost and density targets; vetting with a case listed twice."
  },
  {
   "property": "C130",
   "status": "partial",
   "theorems": [
    "C130_same_tree_but_thresholds",
    "C130_close_values_refuted",
    "C130_other_cases_refuted",
    "C130_evaloob_refuted"
   ],
   "note": "The claim in full is false: values less than 1e-7 apart are taken for equal, so rescaling can lose a split (C130_close_values_refuted); with -evaloob the numbers of the out of bag cases count (C130_evaloob_refuted); and the vote for a case between two training values depends on its number (C130_other_cases_refuted). Proved for every target, arithmetic with a total order on numbers, with vetting, extra random splits and missing values: for valid values of magnitude at most 2^29 that are more than 1e-7 apart before and after (C130_same_tree_but_thresholds)."
  },
  {
   "property": "C131",
   "status": "partial",
   "theorems": [
    "C131_same_tree",
    "C131_classification",
    "C131_hellinger",
    "C131_squared_error_exact",
    "C131_gradient_exact",
    "C131_regression_refuted",
    "C131_vet_refuted",
    "C131_costs_and_weights",
    "C131_disutility_exact",
    "C131_disutility_refuted",
    "C131_adaptive_boosting_exact",
    "C131_other_numbers_exact"
   ],
   "note": "Proved in float64 for the targets that count (Gini, entropy, Hellinger, regret, Neyman-Pearson, weighted random forest) with the predictions these targets make, and in exact arithmetic for squared and absolute error, gradient boosting, adaptive boosting with and without costs and of numbers, ordinal targets and disutility entropy; with out of bag evaluation and without -vet. Refuted for regression in float64 (three cases give a leaf or a split by their order), for the predictions of disutility entropy in float64, and with -vet (the contrast is shuffled along the list). NaN among the values is excluded. Missing: density and transduction targets."
  },
  {
   "property": "C132",
   "status": "partial",
   "theorems": [
    "C132_same_splits",
    "C132_renumbered_exact",
    "C132_same_prediction",
    "C132_equal_weights_exact",
    "C132_shifted_exact",
    "C132_renumbered_refuted",
    "C132_tie_refuted",
    "C132_shift_refuted"
   ],
   "note": "Splits, importances and depths the same for targets moving in step (axiom-free, any arithmetic); renumbered classes (Gini, entropy), equal weights (WRF against Gini) and shifted targets (squared error, gradient) in exact arithmetic; clear majorities keep their name. Refuted in float64: sums over classes in another order choose another feature, a large constant removes a split; refuted for tied classes, whose prediction goes by the number."
  },
  {
   "property": "C133",
   "status": "partial",
   "theorems": [
    "C133_classification",
    "C133_hellinger",
    "C133_regression",
    "C133_worker",
    "C133_worker_regression",
    "C133_candidates_refuted"
   ],
   "note": "Any leftover contents of the right sizes give the same tree (classification over counts in any arithmetic, Hellinger, squared error, gradient, memoryless targets; -vet included), and a goroutine's series of trees is that of one that starts each from a new root in overwritten memory, up to stale nodes below leaves (C41). Refuted for the candidates: their order is left by the last tree, so the same draws can choose another feature. Boosting changes the target between trees and is not part of this."
  },
  {
   "property": "C134",
   "status": "partial",
   "theorems": [
    "C134_each_case_votes_once",
    "C134_votes_with_missing_values",
    "C134_empty_vote_refuted"
   ],
   "note": "True for cases without missing values, for every jungle, merged or not; the vote of any case is characterised (at most one; none only without splitmissing and with a missing value). Refuted with splitmissing: the Missing node made for a split that no case of the node was missing in is never grown, so a case that takes this branch votes for the empty string."
  },
  {
   "property": "C135",
   "status": "partial",
   "theorems": [
    "C135_used_tree",
    "C135_no_votes_refuted"
   ],
   "note": "True whenever the new jungle has more than its root, or the old root had no children. Refuted when the new jungle is a single leaf: Left and Right of the root keep the old nodes, so VoteCases takes the root for a split and no case gets a vote (every such run, and an example)."
  },
  {
   "property": "C136",
   "status": "partial",
   "theorems": [
    "C136_writing_ends",
    "C136_files_vote_as_jungles",
    "C136_missing_branches_refuted"
   ],
   "note": "Proved for every forest of jungles grown without splitmissing whose texts the format can hold (C54), and that writing never panics with or without splitmissing. Refuted with splitmissing: the right branch is written in place of the Missing branch (C53), so cases that are missing a value vote for something else after a round trip."
  },
  {
   "property": "C137",
   "status": "partial",
   "theorems": [
    "C137_error_account",
    "C137_fit_never_worse",
    "C137_bagging_refuted"
   ],
   "note": "Refuted for the sampling with replacement of GrowRandomForest, whatever the learning rate (C137_bagging_refuted). Proved for every forest whose trees see each case equally often (-nobag), in exact arithmetic, with numbers that survive being written and read: exact account of the error, never worse for rates 0..2, strictly better inside, strictly worse outside."
  },
  {
   "property": "C138",
   "status": "partial",
   "theorems": [
    "C138_small_steps",
    "C138_likelihood_never_falls_partial",
    "C138_bagging_refuted",
    "C138_large_rate_refuted"
   ],
   "note": "False as stated. C138_bagging_refuted: with the sampling with replacement that GrowRandomForest does, two cases and one leaf lower the likelihood for every learning rate other than 0. C138_large_rate_refuted: for every positive learning rate there are data and a tree with honest leaf values that lower it. Proved (C138_likelihood_never_falls_partial, C138_small_steps): when every case is sampled equally often and the learning rate is at most the chance that every case gives its own class, no tree lowers the likelihood, and a tree with a leaf value other than 0 raises it; for the first tree these chances are the shares of the classes. Exact reals, logistic and logarithm exact; leaf values pass through text that reads them back (met in C138_makeable_example)."
  },
  {
   "property": "C139",
   "status": "partial",
   "theorems": [
    "C139_files",
    "C139_read_back",
    "C139_absent_category_refuted",
    "C139_unlabelled_refuted"
   ],
   "note": "proved for the names the trees say: the columns are exactly these names; refuted for 'one column per category of the target' (a category no tree says has no column) and for matrices with fewer labels than cases, where -votes panics"
  },
  {
   "property": "C140",
   "status": "partial",
   "theorems": [
    "C140_read_one_by_one_partial",
    "C140_no_header_refuted",
    "C140_no_trees_refuted"
   ],
   "note": "proved if all forests but the first have an intercept (only then is a header written) and all but the last have a tree; refuted otherwise: a forest without intercept is read as more trees of the forest before it, a forest without trees is lost"
  },
  {
   "property": "C141",
   "status": "partial",
   "theorems": [
    "C141_training_error_partial",
    "C141_ballot_box_partial",
    "C141_exponential_partial",
    "C141_sampled_tree_refuted"
   ],
   "note": "Proved over the reals for any number of rounds of AdaBoost on partitions of all cases in which every tree gets something wrong and predicts the majority of each leaf: the error bound for every answer of greatest support, the same for the answers of the ballot box in every map order, and the exponential form with no error left in the end. Missing: targets with absent values, trees without a wrong case (their weight is infinite, C51_perfect_tree_refuted) and float64 rounding. Refuted for trees grown on a bootstrap sample, whose predictions Boost does not look at (C141_sampled_tree_refuted); growforest itself never gets as far as boosting with AdaBoostTarget (C98_adaboost_refuted)."
  },
  {
   "property": "C142",
   "status": "partial",
   "theorems": [
    "C142_file_as_forest_partial",
    "C142_grown_forest_partial",
    "C142_missing_branch_refuted"
   ],
   "note": "Proved from the bytes of the forest file and the data file to the output files, for forests without Missing branches whose splits can be asked of the matrix (coded for it, or without codes and of the column's kind), with names the format can hold and numbers whose text reads back; in particular for every forest grown on the data with pSplitMissing off. Refuted for Missing branches: the file answers absent values with the right branch (C142_missing_branch_refuted). An intercept of minus zero is excluded. Opening the forest file itself is not modelled."
  },
  {
   "property": "C143",
   "status": "partial",
   "theorems": [
    "C143_fold_files_partial",
    "C143_training_file_blind_partial",
    "C143_onehot_ignored_partial",
    "C143_write_all_refuted",
    "C143_impute_leak_refuted"
   ],
   "note": "C143_fold_files_partial: the whole claim for feature matrix files without -impute, -num and -onehot; C143_training_file_blind_partial: two matrices that agree outside of the testing cases of a fold (and on the target if stratified) have the same folds and the same training file; C143_onehot_ignored_partial: -onehot changes no file. C143_impute_leak_refuted: with -impute a training file depends on its testing cases. C143_write_all_refuted: with -writeall the libsvm files of one fold fill in the absent values in the feature matrices of the next (data and encoded are one matrix when no feature has categories). Not covered: contents of .arff and .libsvm files of a run (see C103, C104), the sharing between data and its encoding when some feature has categories (see C80), file names."
  },
  {
   "property": "C144",
   "status": "partial",
   "theorems": [
    "C144_lines_partial",
    "C144_quoted_partial",
    "C144_growforest_partial",
    "C144_nfold_partial",
    "C144_toafm_partial",
    "C144_ragged_refuted",
    "C144_ragged_commands_refuted",
    "C144_bare_quote_refuted"
   ],
   "note": "Proved: lines without quotes and with the same number of tabs (any line ends, blank lines), names as csv.Writer writes them (quoted where needed) without carriage returns, and the candidates of growforest, the features of nfold and the file of toafm (without its two targets) from the bytes of the list. Refuted as general input: for every list in which some line has another number of tabs than the first, and every list of names in which a name holds a bare quote, the program ends with log.Fatal (C144_ragged_refuted, C144_bare_quote_refuted). Missing: needless quotes around plain names."
  },
  {
   "property": "C145",
   "status": "partial",
   "theorems": [
    "C145_tree",
    "C145_jungle",
    "C145_goroutine",
    "C145_growforest_partial",
    "C145_use",
    "C145_applied",
    "C145_missing_column_refuted"
   ],
   "note": "Trees, jungles and whole goroutines for every target and any other content of the columns that are no candidates (C145_tree, C145_jungle, C145_goroutine: equality of the two runs, including the ones that panic); names in the splits from the bytes of the -blacklist file on (C145_growforest_partial: lists without quotes, and no ACE run, which adds contrast columns as candidates); use of the trees in memory and after reading them back (C145_use, C145_applied). Applying a forest to data that lacks a column of a split asks column 0 instead, also if that is the target or a blacklisted feature (C145_missing_column_refuted)."
  },
  {
   "property": "C146",
   "status": "partial",
   "theorems": [
    "C146_line_partial",
    "C146_numerical_partial",
    "C146_categorical_partial",
    "C146_no_key_refuted",
    "C146_blank_line_refuted",
    "C146_equals_refuted",
    "C146_open_quote_refuted"
   ],
   "note": "C146_line_partial: a line of entries (key, gaps, quoted or unquoted value, with commas) gives exactly these keys and values; C146_numerical_partial and C146_categorical_partial: the splitter of a node whose line has its keys once, in any order. Missing because false: C146_no_key_refuted and C146_blank_line_refuted (a comment or a blank line anywhere makes the reader panic), C146_equals_refuted (a value with an equals sign is cut there), C146_open_quote_refuted (an unclosed quote silently drops the rest of the line). White space after a comma inside quotes is dropped with the rest of the padding: it is part of the padding in the statement of C146_line_partial."
  },
  {
   "property": "C147",
   "status": "proved",
   "theorems": [
    "C147_tree",
    "C147_classification",
    "C147_regression",
    "C147_votes",
    "C147_jungle",
    "C147_grown_votes",
    "C147_tally",
    "C147_error",
    "C147_column"
   ],
   "note": "C147_tree and C147_jungle for every target that sees its values by number (equality of the runs up to names); C147_classification (any impurity on the numbers, prediction by mode) and C147_regression with the renamed target itself; C147_votes for any tree whose features the matrix has, C147_grown_votes from training to votes; C147_tally, C147_error; C147_column for reading. Not covered: targets that know categories by name (costs, C121; the True of dentropy, C111), and the prefix of a feature name that says its kind."
  },
  {
   "property": "C148",
   "status": "proved",
   "theorems": [
    "C148_size",
    "C148_nodes",
    "C148_depth"
   ],
   "note": "For every growth for which the search is defined (growable, as in C39 and C42)."
  },
  {
   "property": "C149",
   "status": "partial",
   "theorems": [
    "C149_lines_partial",
    "C149_doubled",
    "C149_grown_partial",
    "C149_one_line_per_node_refuted"
   ],
   "note": "Proved without missing branches (grown without -splitmissing), with the bound by leafSize for grown trees. With -splitmissing refuted: the number of lines at least doubles with each split along the right branches, for every grown tree (C149_doubled, C149_grown_partial); a grown tree of 10 nodes takes 22 node lines."
  },
  {
   "property": "C150",
   "status": "proved",
   "theorems": [
    "C150_tree",
    "C150_recurse",
    "C150_votes",
    "C150_filed",
    "C150_grown_votes"
   ],
   "note": "Grow and the passes over trees (Recurse); jungles are not covered."
  },
  {
   "property": "C151",
   "status": "proved",
   "theorems": [
    "C151_goes_on",
    "C151_adds_nothing",
    "C151_all_candidates",
    "C151_jungle"
   ],
   "note": "Counters of BestSplitter with and without force (C151_goes_on, C151_adds_nothing), whole trees and jungles when mTry covers the candidates (C151_all_candidates, C151_jungle: equality including panics)."
  },
  {
   "property": "C152",
   "status": "proved",
   "theorems": [
    "C152_no_limit"
   ],
   "note": "Under growable, the conditions of C40 (C152_no_limit); the limit zero means no limit in the code."
  },
  {
   "property": "C153",
   "status": "proved",
   "theorems": [
    "C153_tree",
    "C153_outcome",
    "C153_any_records",
    "C153_goroutine",
    "C153_jungle"
   ],
   "note": "Trees (C153_tree, C153_outcome with panics, C153_any_records), goroutines (C153_goroutine), jungles (C153_jungle)."
  }
 ]
}