{"claims":[
{"property": "C01", "status": "partial", "theorems": ["C01_accepted_weights_usable", "C01_all_zero_relative_refuted"], "note": "false of the code; refutation proved plus strongest true version. only exception: relative weights without a non-zero entry"},
{"property": "C02", "status": "proved", "theorems": ["C02_acceptance_exact", "C02_rejection_is_value_error", "C02_not_numbers", "C02_no_values", "C02_empty_tuple"], "note": ""},
{"property": "C03", "status": "proved", "theorems": ["C03_relative_scale_free"], "note": ""},
{"property": "C04", "status": "partial", "theorems": ["C04_relative_acceptance_exact", "C04_negative_relative_rejected_refuted"], "note": "false of the code; refutation proved plus strongest true version. negative relative weights are checked after normalisation"},
{"property": "C05", "status": "partial", "theorems": ["C05_caller_arguments_after", "C05_caller_list_unchanged_refuted"], "note": "false of the code; refutation proved plus strongest true version. a list passed as weights is extended in place when one weight is inferred"},
{"property": "C06", "status": "proved", "theorems": ["C06_reprocessing_is_identity"], "note": ""},
{"property": "C07", "status": "proved", "theorems": ["C07_equal_weights_by_default", "C07_no_na_left", "C07_na_next_to_weights_refused"], "note": ""},
{"property": "C08", "status": "proved", "theorems": ["C08_compression_keeps_probabilities", "C08_compressed_values_distinct"], "note": ""},
{"property": "C09", "status": "proved", "theorems": ["C09_pick_interval", "C09_interval_length", "C09_every_draw_picks", "C09_mixture_sampling_small", "C09_mixture_sampling_large", "C09_built_mixture_ready", "C09_share_of_draws", "C09_constants_share", "C09_share_of_sequences"], "note": ""},
{"property": "C10", "status": "proved", "theorems": ["C10_small_large_agree"], "note": ""},
{"property": "C11", "status": "partial", "theorems": ["C11_large_pick_fails_iff", "C11_safe_when_total_ge_1", "C11_never_fails_refuted"], "note": "false of the code; refutation proved plus strongest true version. accepted totals below 1 let bisect run past the end for n > 100"},
{"property": "C12", "status": "proved", "theorems": ["C12_zero_inflated_small", "C12_zero_inflated_large", "C12_rejects_outside", "C12_one_is_zero", "C12_zero_is_dist", "C12_share_of_draws"], "note": ""},
{"property": "C13", "status": "proved", "theorems": ["C13_sample_count", "C13_zero_samples_raise"], "note": "log_tdist() without bounds and t distributions with equal bounds excluded, see C14"},
{"property": "C14", "status": "partial", "theorems": ["C14_every_leaf_n_refuted", "C14_log_t_unbounded_refuted", "C14_leaves_n_partial"], "note": "false of the code; refutation proved plus strongest true version. t distributions with equal bounds and log_tdist() return one value"},
{"property": "C15", "status": "proved", "theorems": ["C15_clip_bounds", "C15_clip_is_clamp", "C15_clipping_needs_numbers"], "note": "all objects except members of a correlation group at top level"},
{"property": "C16", "status": "proved", "theorems": ["C16_crossed_bounds_give_upper"], "note": ""},
{"property": "C17", "status": "proved", "theorems": ["C17_binary_operator", "C17_arithmetic", "C17_comparison", "C17_forms", "C17_unary_minus", "C17_minus_is_minus", "C17_single_operand"], "note": ""},
{"property": "C18", "status": "proved", "theorems": ["C18_const_arithmetic", "C18_const_comparison"], "note": ""},
{"property": "C19", "status": "partial", "theorems": ["C19_equality_refuted", "C19_inequality_refuted", "C19_eq_ne_are_le"], "note": "false of the code; refutation proved plus strongest true version. both operators are built with operator.le"},
{"property": "C20", "status": "proved", "theorems": ["C20_pipeline", "C20_pipeline_two", "C20_forms", "C20_no_functions"], "note": ""},
{"property": "C21", "status": "partial", "theorems": ["C21_clip_clamps", "C21_pipe_is_clip", "C21_no_bounds", "C21_clip_idempotent", "C21_mixed_kinds_refuted", "C21_int_bound"], "note": "false of the code; refutation proved plus strongest true version. false when float samples meet int bounds and n > 1 (np.vectorize takes the dtype of the first result)"},
{"property": "C22", "status": "proved", "theorems": ["C22_leaf_support", "C22_bernoulli_draws"], "note": "numpy's documented ranges are a hypothesis (in_support), met by a concrete generator"},
{"property": "C23", "status": "proved", "theorems": ["C23_only_rng_matters"], "note": "caches and files are covered by the cache model"},
{"property": "C24", "status": "proved", "theorems": ["C24_model_function", "C24_model_function_fails"], "note": ""},
{"property": "C25", "status": "proved", "theorems": ["C25_event_below_p", "C25_event_of_distribution", "C25_event_never", "C25_event_always", "C25_event_monotone", "C25_share_of_draws"], "note": ""},
{"property": "C26", "status": "proved", "theorems": ["C26_first_call_caches", "C26_cache_hit"], "note": ""},
{"property": "C27", "status": "partial", "theorems": ["C27_refuted", "C27_same_n_partial"], "note": "false of the code; refutation proved plus strongest true version. a hit ignores n; holds when every call under the key asks for the same n"},
{"property": "C28", "status": "partial", "theorems": ["C28_refuted", "C28_rounding_collision", "C28_text_names_constructor", "C28_mixture_clip_collision", "C28_mixture_clip_matters", "C28_provenance_partial", "C28_exact_texts_partial", "C28_no_confusion_partial", "C28_operator_texts_partial", "C28_one_operation_partial", "C28_operator_provenance_partial", "C28_grouping_collision"], "note": "false of the code; refutation proved plus strongest true version. the cache key is the printed text: parentheses are lost (for all operands and operators), parameters are rounded, mixture clips are not printed. Simple distributions whose text tells everything are never confused, operator expressions over them differ at most in grouping, and expressions with one operator not at all"},
{"property": "C29", "status": "partial", "theorems": ["C29_hit_respects_clips", "C29_refuted"], "note": "false of the code; refutation proved plus strongest true version. first half proved; second half false (clipped samples are cached)"},
{"property": "C30", "status": "proved", "theorems": ["C30_file_source", "C30_memory_source", "C30_generated_otherwise", "C30_one_source"], "note": ""},
{"property": "C31", "status": "partial", "theorems": ["C31_refuted", "C31_used_partial", "C31_ignored"], "note": "false of the code; refutation proved plus strongest true version. an in-memory entry blocks the file even when memcache is off; in every other case the file or that entry is used"},
{"property": "C32", "status": "proved", "theorems": ["C32_dump_load"], "note": "values containing None excluded (np.load rejects object arrays)"},
{"property": "C33", "status": "proved", "theorems": ["C33_reload"], "note": "single core; multicore generation is C35"},
{"property": "C34", "status": "proved", "theorems": ["C34_core_cuts", "C34_core_cuts_total"], "note": "exact division; float division in n / cores not modelled"},
{"property": "C35", "status": "proved", "theorems": ["C35_multicore_result", "C35_multicore_count", "C35_order_irrelevant"], "note": "stated for numeric samples; batches join into a float array"},
{"property": "C36", "status": "partial", "theorems": ["C36_more_cores_than_samples_fail", "C36_refuted"], "note": "false of the code; refutation proved plus strongest true version. fails whenever cores > n and no stale file is present"},
{"property": "C37", "status": "partial", "theorems": ["C37_leftovers_ignored_partial", "C37_refuted"], "note": "false of the code; refutation proved plus strongest true version. holds if every worker succeeds; a failing worker's stale file is consumed"},
{"property": "C38", "status": "partial", "theorems": ["C38_refuted", "C38_without_leftovers_partial", "C38_event_count_partial"], "note": "false of the code; refutation proved plus strongest true version. partial: leftover files of an earlier failed run are mixed in"},
{"property": "C39", "status": "partial", "theorems": ["C39_forked_batches_equal", "C39_refuted"], "note": "false of the code; refutation proved plus strongest true version. forked workers start from one generator state"},
{"property": "C40", "status": "proved", "theorems": ["C40_bayes_rule", "C40_raises_iff_evidence_impossible", "C40_complement", "C40_monotone_in_prior", "C40_strictly_monotone_in_prior", "C40_monotone_in_likelihoods", "C40_sequential_updates"], "note": ""},
{"property": "C41", "status": "proved", "theorems": ["C41_rejection_sampling", "C41_mean_needs_numbers", "C41_exactly_n_calls", "C41_event_errors_propagate"], "note": ""},
{"property": "C42", "status": "proved", "theorems": ["C42_caching_transparent", "C42_entry_reused", "C42_entry_kept"], "note": ""},
{"property": "C43", "status": "partial", "theorems": ["C43_refuted", "C43_fresh_events_partial"], "note": "false of the code; refutation proved plus strongest true version. a hit is keyed on the event function only, so n is ignored"},
{"property": "C44", "status": "partial", "theorems": ["C44_refuted", "C44_recorded_number_partial", "C44_error_accurate_partial"], "note": "false of the code; refutation proved plus strongest true version. see refutation; partial versions state when the answer is right"},
{"property": "C45", "status": "partial", "theorems": ["C45_bayesnet_refuted", "C45_bayesnet_handed_out_is_cached", "C45_refuted", "C45_uncached_results_private_partial", "C45_write_one_element", "C45_heap_ok_preserved", "C45_same_values"], "note": "false of the code; refutation proved plus strongest true version. the cached array itself is returned"},
{"property": "C46", "status": "proved", "theorems": ["C46_precision_weighting", "C46_sd_shrinks", "C46_mean_between", "C46_weight_zero", "C46_commutative", "C46_associative", "C46_weights_add"], "note": "real arithmetic"},
{"property": "C47", "status": "proved", "theorems": ["C47_lognormal_is_normal_in_log_space"], "note": "real arithmetic"},
{"property": "C48", "status": "proved", "theorems": ["C48_adds_counts", "C48_commutative", "C48_associative", "C48_mean_between"], "note": ""},
{"property": "C49", "status": "proved", "theorems": ["C49_shapes_and_rates", "C49_commutative", "C49_associative", "C49_scale_between", "C49_weight_zero", "C49_weights_add", "C49_zero_scale"], "note": ""},
{"property": "C50", "status": "proved", "theorems": ["C50_other_types_rejected", "C50_supported_types_accepted"], "note": "zero standard deviations divide by zero and are excluded from acceptance"},
{"property": "C51", "status": "proved", "theorems": ["C51_is_mixture", "C51_default_in_every_history", "C51_single_weight", "C51_two_weights", "C51_weights_must_sum_to_one"], "note": ""},
{"property": "C52", "status": "proved", "theorems": ["C52_accepts_exactly", "C52_accepted_is_proper", "C52_rejections", "C52_originals_unchanged", "C52_eigenvalue_test", "C52_accepts_by_eigenvalues"], "note": "the eigenvalue routine enters as a contract: no negative eigenvalue, proved equivalent to positive semidefinite (C52_eigenvalue_test); rounding of eigvals not modelled"},
{"property": "C53", "status": "proved", "theorems": ["C53_permutation_in_score_order", "C53_ranks_of_scores", "C53_sampled"], "note": "argsort/normal scores/Cholesky are contracts (sorts, well_shaped, first_kept, keeps_shape)"},
{"property": "C54", "status": "partial", "theorems": ["C54_refuted", "C54_repeats_lose_the_largest", "C54_first_variable_partial", "C54_identity"], "note": "false of the code; refutation proved plus strongest true version. refuted in general: with repeated values the rank step loses the largest one; the first variable's multiset is kept"},
{"property": "C55", "status": "proved", "theorems": ["C55_diversity_check"], "note": ""},
{"property": "C56", "status": "proved", "theorems": ["C56_one_joint_draw", "C56_resampling_draws_again", "C56_clipped_member"], "note": "clip, cache and resampling behaviour follow the model of the pending-column store"},
{"property": "C57", "status": "partial", "theorems": ["C57_refuted", "C57_single_refuted", "C57_fresh_draw_partial"], "note": "false of the code; refutation proved plus strongest true version. refuted: repeated or direct sampling of one member breaks the joint draw; holds for fresh draws"},
{"property": "C58", "status": "proved", "theorems": ["C58_odds_round_trip", "C58_prob_round_trip", "C58_values", "C58_rejects", "C58_increasing"], "note": "over real numbers; infinite odds give nan, not an error"},
{"property": "C59", "status": "proved", "theorems": ["C59_between", "C59_scaling", "C59_unweighted", "C59_weighted", "C59_relative_weights", "C59_permutation", "C59_ignores_na", "C59_unusual_values"], "note": "the bounds hold for every argument shape whenever geomean returns; weights are rational"},
{"property": "C60", "status": "proved", "theorems": ["C60_between", "C60_complement", "C60_unweighted", "C60_weighted"], "note": "bounds and complement symmetry hold for every argument shape"},
{"property": "C61", "status": "partial", "theorems": ["C61_single_probability_refuted", "C61_every_single_probability_fails"], "note": "false of the code; refutation proved plus strongest true version. refuted: geomean_odds of a single probability always raises ValueError, because p_to_odds turns a one-element array into a number"},
{"property": "C62", "status": "proved", "theorems": ["C62_trials", "C62_trials_increasing", "C62_too_many_successes", "C62_times", "C62_times_shape", "C62_failures", "C62_negative_successes", "C62_division_by_zero"], "note": "successes and trials are integers, times real and positive; other inputs can divide by zero"},
{"property": "C63", "status": "proved", "theorems": ["C63_doubling_time", "C63_growth_rate", "C63_inverse", "C63_arrays", "C63_outside"], "note": "for Python numbers and numpy arrays; distributions are C117"},
{"property": "C64", "status": "proved", "theorems": ["C64_accepts", "C64_rejects", "C64_values", "C64_fraction", "C64_full_deference", "C64_named_fractions"], "note": "exact arithmetic; the power in expected_arr is a parameter. The docstring example of kelly shows max_gain 62.5 and modeled_gain 23.13 where the code gives 37.5 and 9.38 (C64_sat)"},
{"property": "C65", "status": "proved", "theorems": ["C65_full_kelly_is_optimal", "C65_deferred_kelly_is_optimal"], "note": "about the unrounded fraction; strict, hence the optimum is unique"},
{"property": "C66", "status": "partial", "theorems": ["C66_symmetric_refuted", "C66_symmetric_only_at_half", "C66_against_the_market"], "note": "false of the code; refutation proved plus strongest true version. refuted: the stake can exceed the bankroll and is symmetric only for a market at 1/2"},
{"property": "C67", "status": "proved", "theorems": ["C67_range", "C67_value", "C67_identity", "C67_direction", "C67_symmetric", "C67_increasing", "C67_accepts", "C67_twice"], "note": ""},
{"property": "C68", "status": "proved", "theorems": ["C68_formula", "C68_shift", "C68_scale", "C68_negate"], "note": "population standard deviation; a zero deviation gives nan or an infinity as in numpy"},
{"property": "C69", "status": "proved", "theorems": ["C69_values", "C69_single", "C69_extremes", "C69_monotone", "C69_order_independent", "C69_reverse", "C69_rejects"], "note": "percentiles by linear interpolation between order statistics; argsort is an oracle only used with weights; no data is Unmodelled"},
{"property": "C70", "status": "partial", "theorems": ["C70_spec", "C70_extremes", "C70_scale", "C70_permute_partial", "C70_permute_refuted", "C70_mismatch"], "note": "false of the code; refutation proved plus strongest true version. permutation invariance holds for different data, is refuted for tied data; negative weights and zero total are Unmodelled"},
{"property": "C71", "status": "partial", "theorems": ["C71_equal_weights_refuted", "C71_shifted_partial", "C71_median_partial"], "note": "false of the code; refutation proved plus strongest true version. false: equal weights use other plotting positions; the exact shift is proved, and that the medians agree"},
{"property": "C72", "status": "proved", "theorems": ["C72_median_and_ci", "C72_mean_and_ci", "C72_nested"], "note": ""},
{"property": "C73", "status": "partial", "theorems": ["C73_weighted_mean_refuted", "C73_mean_unweighted"], "note": "false of the code; refutation proved plus strongest true version. false: the mean is never weighted"},
{"property": "C74", "status": "proved", "theorems": ["C74_partition", "C74_edges", "C74_covered_total", "C74_bin_count", "C74_custom", "C74_custom_total", "C74_rejects", "C74_label_count"], "note": "data are finite, edges numbers or infinities; shares of no data (nan) are Unmodelled"},
{"property": "C75", "status": "partial", "theorems": ["C75_contiguous_partial", "C75_gaps_refuted"], "note": "false of the code; refutation proved plus strongest true version. false for ranges with gaps: the label is made from the starts of neighbouring ranges; true for contiguous ranges"},
{"property": "C76", "status": "proved", "theorems": ["C76_number", "C76_zero", "C76_falls", "C76_text", "C76_text_exists", "C76_determines", "C76_commas", "C76_shortest", "C76_text_range"], "note": "texts of floats with more than 15 significant digits or below 0.0001 are Unmodelled; digits=None is proved for the number only"},
{"property": "C77", "status": "proved", "theorems": ["C77_credible_interval", "C77_point_interval", "C77_accepted_combinations", "C77_rejection_is_ValueError", "C77_mean_and_sd", "C77_sd_only"], "note": ""},
{"property": "C78", "status": "partial", "theorems": ["C78_refuted", "C78_incomplete_not_updatable", "C78_without_mean_and_interval_partial", "C78_incomplete_not_samplable"], "note": "false of the code; refutation proved plus strongest true version. norm(x, y, mean=m) is accepted and leaves sd unset"},
{"property": "C79", "status": "proved", "theorems": ["C79_credible_interval", "C79_all_four_parameters", "C79_moment_equations", "C79_round_trip_from_norm", "C79_round_trip_from_lognorm", "C79_rejections", "C79_accepted_combinations"], "note": "normal quantile function is a hypothesis (normal_quantile), met by a concrete function"},
{"property": "C80", "status": "proved", "theorems": ["C80_credible_interval", "C80_clips_kept", "C80_rejections"], "note": "normal quantile function is a hypothesis (normal_quantile)"},
{"property": "C81", "status": "partial", "theorems": ["C81_reported_mean_refuted", "C81_sampled_mean_refuted", "C81_when_right", "C81_relative_sd_partial", "C81_sampled_partial"], "note": "false of the code; refutation proved plus strongest true version. the inverse lognormal mean formula has the wrong sign; right only when m = -s^2; given lognorm_mean and lognorm_sd, the draws have mean lognorm_mean + lognorm_sd^2/lognorm_mean and the wanted relative sd"},
{"property": "C82", "status": "proved", "theorems": ["C82_positive_is_lognorm", "C82_otherwise_norm", "C82_result_kind", "C82_reversed_interval"], "note": ""},
{"property": "C83", "status": "proved", "theorems": ["C83_accepts_exactly_documented", "C83_rejection", "C83_accepted_can_be_sampled"], "note": "numpy parameter checks are an oracle contract (numpy_checks); binomial additionally needs n >= 0, which the constructor does not check"},
{"property": "C84", "status": "partial", "theorems": ["C84_refuted", "C84_all_unchecked_kinds", "C84_exactly_the_meaningful_partial", "C84_t_with_bounds", "C84_discrete_checked_late"], "note": "false of the code; refutation proved plus strongest true version. criterion proved for single-call kinds and t distributions with bounds; exploding dice are C86, discrete is tested late"},
{"property": "C85", "status": "proved", "theorems": ["C85_beta_parameters", "C85_mean", "C85_mode", "C85_samples_are_scaled_beta_draws", "C85_no_width"], "note": "mean and mode of the beta distribution are taken from its definition"},
{"property": "C86", "status": "proved", "theorems": ["C86_accepted", "C86_rejection_is_ValueError", "C86_some_face_never_explodes", "C86_samples_are_throws", "C86_plain_die_is_the_draw", "C86_single_value_never_shown", "C86_top_face_total_tells_the_rolls", "C86_continuous_sides_refused"], "note": "uniformity of integers(1, sides+1) is numpy's; at most die_fuel explosions per throw are modelled"},
{"property": "C87", "status": "proved", "theorems": ["C87_nested_text", "C87_equal_hash"], "note": "scalar printing is a parameter whose output contains no '<'"},
{"property": "C88", "status": "partial", "theorems": ["C88_scalar_and_array_agree_partial", "C88_scalar_and_array_agree_refuted", "C88_bool_arrays", "C88_single_bools", "C88_negative_powers"], "note": "false of the code; refutation proved plus strongest true version. false for bools, text times integer (C136) and division by zero; proved for finite non-bool numbers"},
{"property": "C89", "status": "partial", "theorems": ["C89_round_one", "C89_rounds_to_nearest_even", "C89_round_values", "C89_round_text", "C89_round_many_fails", "C89_round_many_refuted"], "note": "false of the code; refutation proved plus strongest true version. false for n > 1: np.round with an array of digits raises TypeError"},
{"property": "C90", "status": "partial", "theorems": ["C90_exp_many_fails", "C90_log_many_fails", "C90_exp_one", "C90_exp_infinities_and_texts", "C90_exp_array", "C90_log_one", "C90_log_errors", "C90_log_wrong_kind", "C90_exp_log_many_refuted"], "note": "false of the code; refutation proved plus strongest true version. false for n > 1: math.exp and math.log reject arrays; the one-sample behaviour is proved, without overflow of math.exp"},
{"property": "C91", "status": "proved", "theorems": ["C91_max_pointwise", "C91_min_pointwise", "C91_max_min_numbers", "C91_only_numbers"], "note": ""},
{"property": "C92", "status": "proved", "theorems": ["C92_dump_load_round_trip", "C92_memory_first", "C92_neither_used"], "note": ""},
{"property": "C93", "status": "proved", "theorems": ["C93_no_event_fn"], "note": ""},
{"property": "C94", "status": "partial", "theorems": ["C94_refuted", "C94_clips_ignored"], "note": "false of the code; refutation proved plus strongest true version. update builds the posterior without clips and ignores the clips of its arguments"},
{"property": "C95", "status": "partial", "theorems": ["C95_refuted", "C95_always_raises"], "note": "false of the code; refutation proved plus strongest true version. the default weights list makes relative_weights raise"},
{"property": "C96", "status": "partial", "theorems": ["C96_refuted", "C96_clips_have_no_effect", "C96_other_clips_kept"], "note": "false of the code; refutation proved plus strongest true version."},
{"property": "C97", "status": "partial", "theorems": ["C97_refuted", "C97_tolerance_partial"], "note": "false of the code; refutation proved plus strongest true version. refuted: the check is skipped for some inputs; the partial theorem states when it is applied"},
{"property": "C98", "status": "partial", "theorems": ["C98_refuted", "C98_singular_fails", "C98_scalar_partial", "C98_scalar_refuted"], "note": "false of the code; refutation proved plus strongest true version. refuted: semidefinite but singular matrices are accepted and Cholesky raises LinAlgError, among them the single number -1/(k-1) for k >= 3 variables; numbers above it are definite"},
{"property": "C99", "status": "proved", "theorems": ["C99_discrete_values", "C99_single_value", "C99_weights_stay_with_values", "C99_plain_values", "C99_samples_have_one_type", "C99_same_value", "C99_share_of_draws"], "note": "numpy's uniform(0,1) is the source of randomness; the probability of an interval is its length only if the draw is uniform, which is numpy's"},
{"property": "C100", "status": "partial", "theorems": ["C100_log_refuted", "C100_unrounded_partial", "C100_list_partial"], "note": "false of the code; refutation proved plus strongest true version. false with digits: the percentile is rounded before the logarithm; true without digits"},
{"property": "C101", "status": "partial", "theorems": ["C101_single_text_refuted"], "note": "false of the code; refutation proved plus strongest true version. false: the text is computed and dropped, None is returned"},
{"property": "C102", "status": "partial", "theorems": ["C102_zero_weight_refuted", "C102_below_partial", "C102_above_partial"], "note": "false of the code; refutation proved plus strongest true version. false: a datum of weight 0 still is an interpolation point; it changes only percentiles strictly between its neighbours"},
{"property": "C103", "status": "partial", "theorems": ["C103_no_digits_refuted", "C103_digits_written"], "note": "false of the code; refutation proved plus strongest true version. false: the format specification becomes .Nonee, which raises"},
{"property": "C104", "status": "partial", "theorems": ["C104_last_label_refuted", "C104_labels_partial"], "note": "false of the code; refutation proved plus strongest true version. false: the last bucket includes its right end; the other labels are right"},
{"property": "C105", "status": "partial", "theorems": ["C105_default_bins_refuted"], "note": "false of the code; refutation proved plus strongest true version. false: np.histogram rejects None"},
{"property": "C106", "status": "partial", "theorems": ["C106_entries_partial", "C106_entries_refuted"], "note": "false of the code; refutation proved plus strongest true version. false for ranges with the same start; true otherwise"},
{"property": "C107", "status": "partial", "theorems": ["C107_sampleable", "C107_others_rejected", "C107_value_samples_to_itself", "C107_every_number_sampleable_refuted"], "note": "false of the code; refutation proved plus strongest true version. false for numpy integers, bools and non-64-bit floats, which are not subclasses of int or float and are rejected"},
{"property": "C108", "status": "partial", "theorems": ["C108_continuous", "C108_continuous_gives_floats", "C108_continuous_always_floats_refuted", "C108_negation_and_shift_excluded", "C108_float_distributions_refuted"], "note": "false of the code; refutation proved plus strongest true version. the class test is exact; the semantic reading is false both ways: comparisons count as continuous, negations and shifts by a number do not"},
{"property": "C109", "status": "proved", "theorems": ["C109_flag_set", "C109_flag_unset"], "note": ""},
{"property": "C110", "status": "partial", "theorems": ["C110_matmul_count", "C110_matmul_is_sample", "C110_matmul_too_few", "C110_invert_is_one", "C110_fraction_cut", "C110_invert_is_one_sample", "C110_text_counts", "C110_bad_counts", "C110_bad_count_message_refuted"], "note": "false of the code; refutation proved plus strongest true version. int(text) is modelled for ASCII texts; only ValueError from int() is translated, so None raises TypeError"},
{"property": "C111", "status": "partial", "theorems": ["C111_seed_reproducible", "C111_seed_generator", "C111_seed_same_pending", "C111_seed_correlated_refuted"], "note": "false of the code; refutation proved plus strongest true version. false: pending correlated samples survive set_seed; true for everything without correlation groups"},
{"property": "C112", "status": "proved", "theorems": ["C112_named_numbers", "C112_letters"], "note": ""},
{"property": "C113", "status": "partial", "theorems": ["C113_scale_equivariant", "C113_effect_of_shift", "C113_shift_equivariant_refuted"], "note": "false of the code; refutation proved plus strongest true version. scaling proved; shifting refuted: the mean of the normal draw is divided by the chi-square factor too"},
{"property": "C114", "status": "partial", "theorems": ["C114_samples_are_listed", "C114_numbers_are_listed", "C114_mixed_types_refuted"], "note": "false of the code; refutation proved plus strongest true version. false for mixtures of texts and numbers with n > 1; true for one type, for n = 1, and up to int/float conversion for numbers"},
{"property": "C115", "status": "proved", "theorems": ["C115_float_distributions", "C115_integer_distributions", "C115_generator_errors"], "note": "constructors with a single generator call; tdist, discrete and dice have their own properties (C113, C114, C99, C86)"},
{"property": "C116", "status": "partial", "theorems": ["C116_refuted", "C116_applies_function_to_left", "C116_negation_fails"], "note": "false of the code; refutation proved plus strongest true version. false: the right operand is dropped"},
{"property": "C117", "status": "partial", "theorems": ["C117_growth_one_partial", "C117_doubling_one_partial", "C117_round_trip_one_partial", "C117_many_fails", "C117_refuted"], "note": "false of the code; refutation proved plus strongest true version. false for n > 1 (math.log rejects arrays); true for n = 1 given log and exp inverse to each other"},
{"property": "C118", "status": "partial", "theorems": ["C118_refuted", "C118_different_texts_partial", "C118_dict_keys", "C118_dict_values"], "note": "false of the code; refutation proved plus strongest true version. false for distributions that print alike; true when hashes differ"},
{"property": "C119", "status": "proved", "theorems": ["C119_pairs", "C119_dict"], "note": "dict keys already collapsed by Python (see C118)"},
{"property": "C120", "status": "partial", "theorems": ["C120_log_space", "C120_no_bounds_refuted"], "note": "false of the code; refutation proved plus strongest true version. true with bounds; without bounds only for one sample, because log_t_sample then ignores the number of samples"},
{"property": "C121", "status": "proved", "theorems": ["C121_nearest_double", "C121_binary64", "C121_equal_weights_accepted", "C121_double", "C121_exact_instance"], "note": "standard model of rounding (relative error, no underflow); a list of numbers, summed left to right"},
{"property": "C122", "status": "proved", "theorems": ["C122_near_one_accepted", "C122_far_from_one_rejected", "C122_inferred_last_weight", "C122_normalized"], "note": "standard model of rounding (relative error, no underflow); a list of numbers, summed left to right; sums between 0.98 and 0.995 or 1.005 and 1.02 may go either way"},
{"property": "C123", "status": "proved", "theorems": ["C123_ceil", "C123_floor", "C123_texts_raise"], "note": "finite int or float samples; texts raise TypeError, bools are Unmodelled"},
{"property": "C124", "status": "partial", "theorems": ["C124_text_is_code_partial", "C124_pert_refuted", "C124_categorical_refuted", "C124_lognorm_refuted", "C124_norm_rounded_refuted", "C124_norm_rounded", "C124_operators_partial"], "note": "false of the code; refutation proved plus strongest true version. true of the kinds that print all their arguments unrounded; refuted for PERT and categorical (no such functions), lognorm/invlognorm (both parameter pairs printed, which the constructor rejects) and parameters with more than two decimals. t distributions without low but with high, and constants holding text, are left out"},
{"property": "C125", "status": "proved", "theorems": ["C125_sums", "C125_differences", "C125_products", "C125_quotients", "C125_zero_division", "C125_comparisons", "C125_floor_by_infinity"], "note": "exact numbers and infinities; the sign of zero is not represented, zero divisors in arrays count as +0"},
{"property": "C126", "status": "partial", "theorems": ["C126_number", "C126_array", "C126_distribution", "C126_pipes", "C126_only_right_refuted", "C126_mixed_kinds_refuted", "C126_bool_first", "C126_int_first", "C126_float_first"], "note": "false of the code; refutation proved plus strongest true version. arrays of the kind of the bounds; with mixed kinds refuted (elements are truncated); an upper bound alone on a number raises"},
{"property": "C127", "status": "partial", "theorems": ["C127_cut_points", "C127_rarely_fails_partial", "C127_small_never_fails", "C127_picks_refuted"], "note": "false of the code; refutation proved plus strongest true version. binary64 with unbounded exponent. Small samples: proved for every arithmetic. Large samples: raises only for draws within the slack of the total; refuted in general by seven equal weights and the largest draw 1 - 2^-53"},
{"property": "C128", "status": "proved", "theorems": ["C128_split_exact", "C128_split_total"], "note": "binary64 with unbounded exponent; Python's int / int is correctly rounded"},
{"property": "C129", "status": "partial", "theorems": ["C129_too_many_values_refuted", "C129_noticed_partial"], "note": "false of the code; refutation proved plus strongest true version. plain left-to-right sums, as in Python before 3.12 (later versions compensate); refuted by ten weights 0.1 and eleven values, true from total 1.002 on"},
{"property": "C130", "status": "proved", "theorems": ["C130_probability", "C130_fails_iff", "C130_close"], "note": "binary64 with unbounded exponent (no overflow or underflow)"},
{"property": "C131", "status": "partial", "theorems": ["C131_odds_positive", "C131_probability_partial", "C131_there_and_back", "C131_back_and_there_refuted"], "note": "false of the code; refutation proved plus strongest true version. binary64 with unbounded exponent; probability to odds and back proved, odds to probability and back refuted by odds 2^54, whose probability rounds to 1"},
{"property": "C132", "status": "partial", "theorems": ["C132_never_certain_partial", "C132_never_certain_refuted", "C132_nearest"], "note": "false of the code; refutation proved plus strongest true version. only n given; true up to n + 2 = 2^53, refuted by s = n = 2^54"},
{"property": "C133", "status": "proved", "theorems": ["C133_draws", "C133_probability"], "note": "draws are the multiples k / 2^53 numpy's uniform(0, 1) returns"},
{"property": "C134", "status": "proved", "theorems": ["C134_percentage", "C134_monotone", "C134_total"], "note": "counts and totals converted to doubles exactly"},
{"property": "C135", "status": "proved", "theorems": ["C135_infinite_base", "C135_infinite_exponent", "C135_zero_to_minus_infinity", "C135_infinite_both", "C135_nan", "C135_zero_base", "C135_whole_exponent", "C135_fractional_exponent"], "note": "exact numbers and infinities; the real power of a positive number to a fraction is an oracle; fractional powers of a single negative number (complex in Python) are Unmodelled; zero has no sign"},
{"property": "C136", "status": "proved", "theorems": ["C136_texts", "C136_total_order", "C136_repetition", "C136_text_and_number", "C136_text_and_float", "C136_negation", "C136_clips", "C136_clip_text_and_number", "C136_minus_bool"], "note": "characters are 8 bit codes"},
{"property": "C137", "status": "partial", "theorems": ["C137_exact_without_ties_partial", "C137_refuted", "C137_order_of_exact_scores"], "note": "false of the code; refutation proved plus strongest true version. exact real arithmetic; refuted for samples with ties, where the minimum ranks make the variances of the scores differ"},
{"property": "C138", "status": "proved", "theorems": ["C138_factor_iff_definite", "C138_succeeds_exactly", "C138_same_order_fails", "C138_one_sample_fails", "C138_too_few_samples_fail", "C138_contracts"], "note": "exact real arithmetic; nearly singular matrices may behave differently in doubles"},
{"property": "C139", "status": "proved", "theorems": ["C139_units", "C139_units_without_tolerance"], "note": "numbers are exact rationals; the coefficient used by the tolerance check is assumed to depend on ranks only"},
{"property": "C140", "status": "proved", "theorems": ["C140_accepted_exactly", "C140_rejected", "C140_calendar"], "note": "characters are 8 bit codes"},
{"property": "C141", "status": "partial", "theorems": ["C141_refuted", "C141_one_day_less", "C141_at_midnight_partial", "C141_past_dates", "C141_tomorrow_fails"], "note": "false of the code; refutation proved plus strongest true version. false: the time since midnight is subtracted before rounding down, so n - 1 days are counted; tomorrow divides by zero and today counts as -1; right only exactly at midnight"},
{"property": "C142", "status": "partial", "theorems": ["C142_as_built", "C142_only_through_references", "C142_mixtures_partial", "C142_copies_partial", "C142_discrete_refuted", "C142_die_refuted", "C142_effect_of_the_call", "C142_empty_rejected"], "note": "false of the code; refutation proved plus strongest true version. proved for mixtures (component and weight lists), numpy items and single explode values; refuted for discrete with a list or dict and for die with an explode list, where a later append can even make rolling endless. Objects change only through the lists they refer to. Changes of attributes of the distributions themselves are not modelled."},
{"property": "C143", "status": "proved", "theorems": ["C143_schedule_independent", "C143_result", "C143_batches_in_order", "C143_no_deadlock", "C143_terminates", "C143_counts", "C143_sample_call", "C143_bayesnet_call"], "note": "small-step model of the processes, connected to the one-step models by C143_sample_call and C143_bayesnet_call; that a computed batch can be written is assumed"},
{"property": "C144", "status": "partial", "theorems": ["C144_sample_ignores_leftovers_partial", "C144_bayesnet_stuck", "C144_bayesnet_takes_leftovers", "C144_crash_harmless_refuted"], "note": "false of the code; refutation proved plus strongest true version. proved for sample; refuted for bayesnet, which keeps any file it finds: an interrupted write makes all later calls fail, an interrupted collection hands the old events to the next call"},
{"property": "C145", "status": "partial", "theorems": ["C145_unshared_directories_partial", "C145_own_batches_partial", "C145_concurrent_calls_refuted"], "note": "false of the code; refutation proved plus strongest true version. proved for calls in different directories or of different kinds (one sample, one bayesnet); refuted for two calls of the same kind in one directory, whose files have the same names"},
{"property": "C146", "status": "partial", "theorems": ["C146_single_core", "C146_several_cores_partial", "C146_several_cores_refuted"], "note": "false of the code; refutation proved plus strongest true version. proved on one core; on several cores the bars of samples and events overshoot exactly when the cores do not share the work evenly"},
{"property": "C147", "status": "partial", "theorems": ["C147_mean", "C147_room_partial", "C147_room_refuted", "C147_interval", "C147_rejects"], "note": "false of the code; refutation proved plus strongest true version. neighbouring doubles can give sd 0 (witness); positive whenever a double lies strictly inside; exponent range not modelled"},
{"property": "C148", "status": "partial", "theorems": ["C148_close_partial", "C148_positive_variance", "C148_agreeing_refuted"], "note": "false of the code; refutation proved plus strongest true version. agreeing evidence can move the mean by an ulp (witness); error bounds proved; squares and the square root of the variance are not part of it"},
{"property": "C149", "status": "partial", "theorems": ["C149_close_partial", "C149_roi_partial", "C149_close_refuted"], "note": "false of the code; refutation proved plus strongest true version. error at most 9 * 2^-53 / (1 - market_price); next to price 1 everything is bet on no edge (witness)"},
{"property": "C150", "status": "proved", "theorems": ["C150_two_draws", "C150_weights_multiply"], "note": "draws are taken from the grid 0, 1/N, ..., (N-1)/N (numpy: N = 2^53)"},
{"property": "C151", "status": "proved", "theorems": ["C151_throws_counted", "C151_expected_total", "C151_sampled_throws"], "note": "at most die_fuel explosions per throw are modelled in the sampler (C86); the counts and the mean hold for any number"},
{"property": "C152", "status": "proved", "theorems": ["C152_mean_of_samples"], "note": "one sample at a time (n = 1), at least two components"},
{"property": "C153", "status": "proved", "theorems": ["C153_textbook_formula", "C153_extremes", "C153_range", "C153_units"], "note": "spearmanr is modelled as Pearson's coefficient of average ranks in exact real arithmetic"},
{"property": "C154", "status": "proved", "theorems": ["C154_rejection_is_bayes_rule", "C154_any_probabilities"], "note": "one call per pair of N equally likely uniform draws; exact for probabilities that are multiples of 1/N, otherwise for the shares of draws (see C25)"},
{"property": "C155", "status": "proved", "theorems": ["C155_units", "C155_sign"], "note": "unrounded percentiles; with weights for data that all differ"},
{"property": "C156", "status": "proved", "theorems": ["C156_share_below", "C156_weight_below", "C156_interval_covers"], "note": "unrounded percentiles in exact arithmetic"},
{"property": "C157", "status": "partial", "theorems": ["C157_between_partial", "C157_monotone_partial", "C157_rank_partial", "C157_close_partial", "C157_rank_refuted"], "note": "false of the code; refutation proved plus strongest true version. data are finite doubles, at most 2^53; exponent range not modelled; rank 7 of 0..100 is missed by percentile 7 (witness)"},
{"property": "C158", "status": "partial", "theorems": ["C158_ends_partial", "C158_left_partial", "C158_close_partial", "C158_located", "C158_monotone_refuted"], "note": "false of the code; refutation proved plus strongest true version. about the points as computed in doubles, which may differ from the exact ones; exponent range not modelled; weights 1, 9, 3 give a witness against monotonicity"},
{"property": "C159", "status": "partial", "theorems": ["C159_monotone", "C159_fixed_partial", "C159_error_partial", "C159_nearest_refuted", "C159_one_in"], "note": "false of the code; refutation proved plus strongest true version. finite doubles, exponent range not modelled, power of ten exact (at most 22 digits); staying and one_in proved up to 2^50; nearest multiple refuted by 2.675"},
{"property": "C160", "status": "proved", "theorems": ["C160_exact"], "note": "finite doubles; at most 2^49 samples"},
{"property": "C161", "status": "partial", "theorems": ["C161_backed_partial", "C161_against", "C161_modeled_refuted", "C161_docs_refuted"], "note": "false of the code; refutation proved plus strongest true version. holds for a price not below the market's; below it the reported gains are those of the opposite side of the market (refuted, with what is reported instead proved); exact arithmetic"},
{"property": "C162", "status": "proved", "theorems": ["C162_add", "C162_sub", "C162_mul", "C162_div", "C162_compare", "C162_exact"], "note": "against Coq.Floats.SpecFloat of the standard library; zero has no sign in the model, so a divisor of minus zero is left out; square roots, conversion of decimal literals and C library functions are not part of it"},
{"property": "C163", "status": "partial", "theorems": ["C163_sums", "C163_products_partial", "C163_underflow", "C163_products_refuted"], "note": "false of the code; refutation proved plus strongest true version. holds for sums and differences; products and quotients below 2^-1022 differ (witness), by at most 2^-1075"},
{"property": "C164", "status": "partial", "theorems": ["C164_between_partial", "C164_overflow", "C164_finite_refuted"], "note": "false of the code; refutation proved plus strongest true version. holds for data that span less than the largest double; further apart the difference overflows (witness)"},
{"property": "C165", "status": "proved", "theorems": ["C165_density", "C165_interval", "C165_quantile_unique", "C165_contract"], "note": "areas by antiderivatives; the quantile function is proved to exist and to be unique"},
{"property": "C166", "status": "partial", "theorems": ["C166_moments", "C166_interval", "C166_inverse_interval", "C166_inverse_moments", "C166_inverse_mean_refuted"], "note": "false of the code; refutation proved plus strongest true version. the reported moments of lognorm are right; the mean invlognorm reports is not (witness)"},
{"property": "C167", "status": "partial", "theorems": ["C167_normal", "C167_lognormal", "C167_beta", "C167_gamma_refuted"], "note": "false of the code; refutation proved plus strongest true version. holds for normals, lognormals and betas (whose weight is ignored); fails for gammas (witness)"},
{"property": "C168", "status": "proved", "theorems": ["C168_moments", "C168_mode", "C168_flat"], "note": "improper areas by antiderivatives on the open interval; C85 ties samples to beta draws"},
{"property": "C169", "status": "partial", "theorems": ["C169_values", "C169_between_partial", "C169_lognormal_refuted", "C169_gamma_refuted", "C169_normal_narrows", "C169_beta_narrows_partial", "C169_beta_narrows_refuted"], "note": "false of the code; refutation proved plus strongest true version. holds for normals and betas; lognormal and gamma witnesses for all parameters; moments by (improper) integration"},
{"property": "C170", "status": "partial", "theorems": ["C170_interval_partial", "C170_interval_overflow", "C170_interval_refuted", "C170_interval_rejects", "C170_update_partial", "C170_variance_partial", "C170_variance_refuted"], "note": "false of the code; refutation proved plus strongest true version. intervals characterised exactly; updates agree with the unbounded model of C148 for means and weights of 2^-100..2^100 and sds of 2^-50..2^50; witnesses outside; the square root of the variance is not taken"},
{"property": "C171", "status": "proved", "theorems": ["C171_trials", "C171_times", "C171_steps", "C171_units", "C171_order"], "note": "areas by antiderivatives, improper at 0 and infinity; exact real arithmetic"},
{"property": "C172", "status": "proved", "theorems": ["C172_pooling", "C172_bayes", "C172_forecasters"], "note": "exact real arithmetic; values that are not probabilities are left alone by the revision and raise either way"},
{"property": "C173", "status": "partial", "theorems": ["C173_rise", "C173_robust", "C173_intervals", "C173_logs", "C173_weighted_refuted"], "note": "false of the code; refutation proved plus strongest true version. with weights it is false when data pass each other: the percentile points jump"},
{"property": "C174", "status": "proved", "theorems": ["C174_rise", "C174_rise_each", "C174_rise_odds", "C174_products", "C174_powers", "C174_means", "C174_plain_mean"], "note": "exact real arithmetic; the comparison of means is stated for lists"},
{"property": "C175", "status": "partial", "theorems": ["C175_reorder_partial", "C175_rise_partial", "C175_robust_partial", "C175_rank_partial", "C175_rise_refuted"], "note": "false of the code; refutation proved plus strongest true version. partial: raising a datum can lower a percentile by a rounding error; exponent unbounded; without weights and before rounding to digits"},
{"property": "C176", "status": "proved", "theorems": ["C176_reorder", "C176_pool", "C176_merge", "C176_units"], "note": "exact arithmetic; with a number of bins the change of units needs data that are not all equal"},
{"property": "C177", "status": "proved", "theorems": ["C177_rise", "C177_annual", "C177_gains"], "note": "exact arithmetic; the annual rate needs a power that rises with its base"},
{"property": "C178", "status": "proved", "theorems": ["C178_one_sample", "C178_probabilities", "C178_chain", "C178_total", "C178_bayes"], "note": "exact arithmetic; find and conditional_on answer with booleans and raise nothing"},
{"property": "C179", "status": "proved", "theorems": ["C179_larger", "C179_raised", "C179_moved"], "note": "exact arithmetic; numbers listed in rising order"},
{"property": "C180", "status": "proved", "theorems": ["C180_nearest", "C180_certain", "C180_recovers", "C180_order", "C180_opposite", "C180_chain"], "note": "a sum is any binary tree of correctly rounded additions; unbounded exponent"},
{"property": "C181", "status": "partial", "theorems": ["C181_close", "C181_monotone", "C181_between_refuted", "C181_order_refuted"], "note": "false of the code; refutation proved plus strongest true version. a sum is any binary tree of correctly rounded additions; unbounded exponent"},
{"property": "C182", "status": "partial", "theorems": ["C182_whole", "C182_close", "C182_commutes", "C182_grouping_refuted"], "note": "false of the code; refutation proved plus strongest true version. grouping of fractional counts is false (witness 0.1, 0.2, 0.3); exponent unbounded"},
{"property": "C183", "status": "partial", "theorems": ["C183_close", "C183_commutes", "C183_between_refuted"], "note": "false of the code; refutation proved plus strongest true version. scale 93 updated on itself falls below 93 (witness); exponent unbounded"},
{"property": "C184", "status": "partial", "theorems": ["C184_certain_stays", "C184_impossible_stays", "C184_possible_stays_partial", "C184_order_refuted"], "note": "false of the code; refutation proved plus strongest true version. order of evidence is false in doubles (witness likelihood 2^-60); exponent unbounded"},
{"property": "C185", "status": "partial", "theorems": ["C185_rises", "C185_discrete", "C185_product_refuted"], "note": "false of the code; refutation proved plus strongest true version. exact arithmetic; false for products of distributions of either sign (witness)"},
{"property": "C186", "status": "proved", "theorems": ["C186_mixture"], "note": "exact arithmetic; no clips"},
{"property": "C187", "status": "partial", "theorems": ["C187_uniform", "C187_normal", "C187_exponential", "C187_gamma", "C187_uniform_rises", "C187_normal_rises", "C187_exponential_rises", "C187_gamma_rises", "C187_lognormal_rises", "C187_inverse_falls", "C187_normal_sd_refuted"], "note": "false of the code; refutation proved plus strongest true version. contract standard_draws of numpy, exact arithmetic; larger standard deviations refuted"},
{"property": "C188", "status": "proved", "theorems": ["C188_norm", "C188_norm_mirrored", "C188_lognorm", "C188_lognorm_powers", "C188_lognorm_logs", "C188_inverse_reciprocal", "C188_to", "C188_wider", "C188_more_credible", "C188_read_back", "C188_update_norm", "C188_update_lognorm", "C188_update_gamma", "C188_update_beta"], "note": "real arithmetic; normal quantile under the contract normal_quantile"},
{"property": "C189", "status": "proved", "theorems": ["C189_share", "C189_bayesnet", "C189_average", "C189_mean_answer", "C189_model_function", "C189_total", "C189_laws", "C189_expectation"], "note": "generator contract `reads`: draws are multiples of 1/N, one number per draw; exact numbers"},
{"property": "C190", "status": "proved", "theorems": ["C190_mammography", "C190_mammography_net", "C190_simple_bayes", "C190_alarm_net", "C190_monty_hall", "C190_bags", "C190_kelly"], "note": "the README hedges its alarm net figures (~0.19, ~0.27) as sampled; the exact values round to 0.18 and 0.28"},
{"property": "C191", "status": "proved", "theorems": ["C191_chebyshev", "C191_runs", "C191_model_function", "C191_bayesnet", "C191_conditional"], "note": "generator contract `reads` as in C189: draws are multiples of 1/N, one number per draw; exact numbers; one core"},
{"property": "C192", "status": "proved", "theorems": ["C192_run", "C192_share", "C192_combined", "C192_mixed", "C192_means", "C192_variances", "C192_constants", "C192_same_twice"], "note": "generator contract `reads` as in C189: draws are multiples of 1/N, one number per draw; exact numbers; one sample at a time"},
{"property": "C193", "status": "proved", "theorems": ["C193_law", "C193_share", "C193_mean"], "note": "generator contract `reads_all`: draws are multiples of 1/N, one number per draw also when many are drawn at once; exact numbers"},
{"property": "C194", "status": "proved", "theorems": ["C194_percentile", "C194_interval", "C194_mean_and_interval"], "note": "generator contract `reads_all` as in C193; exact numbers; no weights, no rounding digits"},
{"property": "C195", "status": "proved", "theorems": ["C195_run", "C195_share", "C195_bayesnet", "C195_answers"], "note": "generator contract `reads` as in C189; exact numbers; sampled numbers reach the user's code in lowest terms (as numbers they are the same)"},
{"property": "C196", "status": "proved", "theorems": ["C196_samples", "C196_congruence", "C196_reorder", "C196_numbers", "C196_mixtures", "C196_max_min", "C196_not_distributive", "C196_drawn_twice"], "note": "law of an expression as in C192; the false laws are refuted by witnesses"},
{"property": "C197", "status": "proved", "theorems": ["C197_difference", "C197_law", "C197_share", "C197_opposite", "C197_mirrored", "C197_twice"], "note": "generator contract `reads_all` as in C193; exact numbers"},
{"property": "C198", "status": "proved", "theorems": ["C198_single", "C198_mixture", "C198_law", "C198_not_for_sums", "C198_not_beyond_100"], "note": "generator contract `steady`: drawing n + m numbers is drawing n and then m; the law of first samples under `reads_all` as in C193"},
{"property": "C199", "status": "proved", "theorems": ["C199_samples", "C199_operators", "C199_differences", "C199_products", "C199_mixtures", "C199_leaves", "C199_rising", "C199_contests", "C199_not_from_means"], "note": "generator contract `reads_all` as in C193; exact numbers"},
{"property": "C200", "status": "proved", "theorems": ["C200_statistic", "C200_unbiased", "C200_error", "C200_product", "C200_mixture", "C200_mixture_or_average"], "note": "generator contract `reads_all` as in C193; exact numbers"},
{"property": "C201", "status": "proved", "theorems": ["C201_many", "C201_few", "C201_geometric", "C201_samples", "C201_bayesnet"], "note": "generator contracts `reads` and `reads_all` as in C189 and C193; exact numbers"},
{"property": "C202", "status": "proved", "theorems": ["C202_accurate", "C202_signed", "C202_differences", "C202_range"], "note": "double precision with the range of exponents (M_Ieee, tied to the standard library's IEEE 754 by C162); whole numbers are turned into doubles first"},
{"property": "C203", "status": "proved", "theorems": ["C203_raised", "C203_no_negatives", "C203_sums", "C203_rounding", "C203_not_strict"], "note": "double precision as in C202; samples that are NaN are not compared"},
{"property": "C204", "status": "proved", "theorems": ["C204_percentiles", "C204_intervals", "C204_average", "C204_machine", "C204_summaries", "C204_signs"], "note": "get_percentiles is exact arithmetic on the samples in double precision, without rounding to digits; C204_machine and the last part of C204_summaries have np.percentile in double precision (without the range of exponents); averages are computed in double precision"},
{"property": "C205", "status": "proved", "theorems": ["C205_percentile", "C205_interval", "C205_geometric"], "note": "exact arithmetic; the generator contract of C193"},
{"property": "C206", "status": "proved", "theorems": ["C206_above", "C206_below", "C206_geometric", "C206_bayesnet", "C206_mammography"], "note": "exact arithmetic; the generator contract of C189 and C191; queries that are not cached, on one core"}
]}
