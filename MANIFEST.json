{
 "claims": [
  {
   "property": "C01",
   "status": "proved",
   "theorems": [
    "increasing_tuples_spec",
    "increasing_tuples_once",
    "C01_reals_iterated_sum",
    "C01_zero_before_word_fits"
   ],
   "note": ""
  },
  {
   "property": "C02",
   "status": "proved",
   "theorems": [
    "C02_weighted_reals",
    "C02_zero_weighting_is_unweighted"
   ],
   "note": ""
  },
  {
   "property": "C03",
   "status": "proved",
   "theorems": [
    "C03_arctic_maximum"
   ],
   "note": ""
  },
  {
   "property": "C04",
   "status": "proved",
   "theorems": [
    "C04_bayesian_maximum",
    "C04_negative_data_refuted"
   ],
   "note": ""
  },
  {
   "property": "C05",
   "status": "proved",
   "theorems": [
    "C05_labels",
    "C05_simple_words_apply"
   ],
   "note": ""
  },
  {
   "property": "C06",
   "status": "proved",
   "theorems": [
    "C06_extended_is_single",
    "C06_single_mode",
    "C06_letter_zero_refuted",
    "C06_extended_is_single_any_numbers",
    "C06_arctic_nan_refuted"
   ],
   "note": "words with a letter 0 violate the property (witness); proved for all words without it"
  },
  {
   "property": "C07",
   "status": "proved",
   "theorems": [
    "C07_batches_concatenate",
    "C07_too_large_batch",
    "C07_zero_batch_diverges"
   ],
   "note": ""
  },
  {
   "property": "C08",
   "status": "proved",
   "theorems": [
    "C08_simple_general_agree",
    "C08_letter_order"
   ],
   "note": ""
  },
  {
   "property": "C09",
   "status": "proved",
   "theorems": [
    "C09_bayesian_general_is_strict",
    "C09_simple_general_differ_refuted"
   ],
   "note": ""
  },
  {
   "property": "C10",
   "status": "proved",
   "theorems": [
    "C10_general_words_ignore_weighting",
    "C10_documented_scaling_refuted"
   ],
   "note": ""
  },
  {
   "property": "C100",
   "status": "proved",
   "theorems": [
    "C100_offsets",
    "C100_transform",
    "C100_zero_padding_refuted"
   ],
   "note": "Over the real numbers. C100_zero_padding_refuted shows that zero padding is needed."
  },
  {
   "property": "C101",
   "status": "proved",
   "theorems": [
    "C101_units",
    "C101_transform",
    "C101_std_refuted"
   ],
   "note": "Over the real numbers. The objects that must not read raw sums are all that exist in the heap, used or not."
  },
  {
   "property": "C102",
   "status": "proved",
   "theorems": [
    "C102_sieves",
    "C102_features",
    "C102_longest_run_refuted"
   ],
   "note": "Over the real numbers; all series of the data set are warped alike in C102_features (as in C14), each row in its own way in C102_sieves. C102_longest_run_refuted: LPI is no such sieve."
  },
  {
   "property": "C11",
   "status": "proved",
   "theorems": [
    "C11_samples_independent"
   ],
   "note": ""
  },
  {
   "property": "C12",
   "status": "proved",
   "theorems": [
    "C12_causality"
   ],
   "note": ""
  },
  {
   "property": "C13",
   "status": "proved",
   "theorems": [
    "C13_quasi_shuffle",
    "C13_words_exist"
   ],
   "note": ""
  },
  {
   "property": "C14",
   "status": "proved",
   "theorems": [
    "C14_time_warping",
    "C14_repeating_a_step"
   ],
   "note": "for every time of every time warp; the word must have positive letters"
  },
  {
   "property": "C15",
   "status": "proved",
   "theorems": [
    "C15_parse",
    "C15_reject",
    "C15_counts",
    "C15_every_word_can_be_written",
    "C15_unambiguous",
    "C15_letter_zero_refuted"
   ],
   "note": ""
  },
  {
   "property": "C16",
   "status": "proved",
   "theorems": [
    "C16_multiply_is_concatenation",
    "C16_padding_is_invisible",
    "C16_letter_zero_refuted"
   ],
   "note": ""
  },
  {
   "property": "C17",
   "status": "proved",
   "theorems": [
    "C17_permuted_letters_equal",
    "C17_equality_is_counting",
    "C17_equal_words_equal_sums"
   ],
   "note": ""
  },
  {
   "property": "C18",
   "status": "proved",
   "theorems": [
    "C18_of_weight",
    "C18_count",
    "C18_count_dim1"
   ],
   "note": "w = 0 raises IndexError (Example C18_weight_zero)"
  },
  {
   "property": "C19",
   "status": "proved",
   "theorems": [
    "C19_replace_letters",
    "C19_dim_generator"
   ],
   "note": ""
  },
  {
   "property": "C20",
   "status": "proved",
   "theorems": [
    "C20_alternate_sign",
    "C20_two_digits_refuted",
    "C20_negative_letter_raises"
   ],
   "note": "fails from dimension 10 on (witness)"
  },
  {
   "property": "C21",
   "status": "proved",
   "theorems": [
    "C21_copy",
    "C21_copy_same_sums",
    "C21_set_alpha",
    "C21_multiply_makes_alpha_stale",
    "C21_weighted_copy_differs_refuted"
   ],
   "note": ""
  },
  {
   "property": "C22",
   "status": "proved",
   "theorems": [
    "C22_coswiss",
    "C22_documented_angle_refuted"
   ],
   "note": "Exact values for every word, series, frequency and exponent 0..4, with and without total weighting, where theta(t)=pi t/(f(N-1)) as the code has it; the documentation (f N) is refuted by a witness. Real numbers: the rounding of the frequency to float32 is not modelled."
  },
  {
   "property": "C23",
   "status": "proved",
   "theorems": [
    "C23_table",
    "C23_exponents_from_5_refuted"
   ],
   "note": "The coefficient table is the binomial expansion iff the exponent is at most 4; for every exponent from 5 on there is a series on which transform differs from the formula."
  },
  {
   "property": "C24",
   "status": "proved",
   "theorems": [
    "C24_rows",
    "C24_batches",
    "C24_batch_sizes",
    "C24_batches_need_fit",
    "C24_dropout",
    "C24_network",
    "C24_needs_fit",
    "C24_fit"
   ],
   "note": "Row/label correspondence, batches, dropout (all outcomes of the random selection), networks (all weights), behaviour before fit."
  },
  {
   "property": "C25",
   "status": "proved",
   "theorems": [
    "feature_numbers_unique",
    "feature_numbers_bound",
    "slice_features",
    "fruit_features",
    "library_sieve_shaped",
    "library_prep_rows",
    "library_iss_exact",
    "library_shaped",
    "library_slice_features",
    "library_fruit_features"
   ],
   "note": "For every implementation of the seed interface with results of the right shapes and every history of API calls; the library seeds have these shapes (FUN functions and custom weightings are assumed to keep the number of series)."
  },
  {
   "property": "C26",
   "status": "proved",
   "theorems": [
    "slice_label_names_column",
    "slice_label_names_sum",
    "slice_label_prepared",
    "fruit_label_slices"
   ],
   "note": "Labels of a slice name the column produced by the iterated sum and sieve they display; whole-fruit label."
  },
  {
   "property": "C27",
   "status": "proved",
   "theorems": [
    "slice_transform_needs_fit",
    "slice_stays_fitted",
    "fruit_transform_needs_fit",
    "fruit_stays_fitted",
    "slice_fit_incomplete"
   ],
   "note": "All histories of API calls including raising ones."
  },
  {
   "property": "C28",
   "status": "proved",
   "theorems": [
    "fit_fresh_sieves"
   ],
   "note": ""
  },
  {
   "property": "C29",
   "status": "proved",
   "theorems": [
    "sides_independent",
    "deepcopy_independent",
    "copy_shares_seeds",
    "deepcopy_structure",
    "C29_copy_is_shared_refuted",
    "C29_copy_sample_size_refuted"
   ],
   "note": "copy() shares seeds and loses fit_sample_size: proved in general and run with library seeds."
  },
  {
   "property": "C30",
   "status": "proved",
   "theorems": [
    "C30_preparateurs",
    "C30_iss",
    "C30_sieves",
    "C30_segment_sieves_norm",
    "C30_std_eps_refuted",
    "C30_norm_refuted",
    "C30_ppv_copy_raises_refuted"
   ],
   "note": "Copies taken after any history of calls equal the object as constructed, except STD (std_eps) and segment/increment sieves (norm), refuted by exact witnesses; PPV/CPV built from lists (segmented form: distinct thresholds, equal flags)."
  },
  {
   "property": "C31",
   "status": "proved",
   "theorems": [
    "C31_transparent",
    "C31_answer_iss",
    "C31_answer_coquantile",
    "C31_no_input",
    "C31_no_input_at_all",
    "C31_stale_refuted"
   ],
   "note": ""
  },
  {
   "property": "C32",
   "status": "proved",
   "theorems": [
    "C32_sieve_leaves_no_cache",
    "C32_preparateur_leaves_no_cache",
    "C32_sieve_last_fit_only",
    "C32_preparateur_last_fit_only",
    "C32_raising_call_leaves_cache_refuted",
    "C32_attached_preparateur_refuted"
   ],
   "note": "All preparateurs and sieves including nested wrappers, all histories of non-raising calls; witnesses for a raising call and for use inside a fruit."
  },
  {
   "property": "C33",
   "status": "proved",
   "theorems": [
    "callback_protocol",
    "slice_callback_protocol",
    "library_callback_protocol",
    "C33_on_sieve_columns_refuted"
   ],
   "note": "Exact sequence of callback invocations and their arguments."
  },
  {
   "property": "C34",
   "status": "proved",
   "theorems": [
    "C34_rows_by_position",
    "C34_fit_reads_first_series",
    "C34_prefix_sample",
    "C34_other_sample_refuted"
   ],
   "note": "For histories of library seeds in which FUN preparateurs and custom weightings keep the number of series; SPE preparateurs that take their steps from the cache are left out at top level (they use the rows of all series, not only the first k)."
  },
  {
   "property": "C35",
   "status": "proved",
   "theorems": [
    "C35_inc_zero_padded",
    "C35_inc_default",
    "C35_inc_translation_invariant",
    "C35_inc_linear",
    "C35_unpadded_is_invertible",
    "C35_errors"
   ],
   "note": ""
  },
  {
   "property": "C36",
   "status": "proved",
   "theorems": [
    "C36_std_separately",
    "C36_std_translation_invariant",
    "C36_std_jointly",
    "C36_std_unfitted"
   ],
   "note": ""
  },
  {
   "property": "C37",
   "status": "proved",
   "theorems": [
    "C37_nrm",
    "C37_nrm_affine_invariant",
    "C37_nrm_idempotent",
    "C37_nrm_joint"
   ],
   "note": ""
  },
  {
   "property": "C38",
   "status": "proved",
   "theorems": [
    "C38_mav",
    "C38_mav_float",
    "C38_moving_average_bounds",
    "C38_width_one_identity",
    "C38_width_minus_one_never_works"
   ],
   "note": "the documented width=-1 never works for any fit history"
  },
  {
   "property": "C39",
   "status": "proved",
   "theorems": [
    "C39_lag"
   ],
   "note": ""
  },
  {
   "property": "C40",
   "status": "proved",
   "theorems": [
    "C40_dil",
    "C40_dil_default_clusters",
    "C40_dil_errors",
    "C40_dot",
    "C40_pdd",
    "C40_win",
    "C40_dot_any_integers",
    "C40_dot_zero_step",
    "C40_pdd_positions",
    "C40_pdd_at_most_the_proportion"
   ],
   "note": ""
  },
  {
   "property": "C41",
   "status": "proved",
   "theorems": [
    "C41_pdd_default_is_identity"
   ],
   "note": "statement is the (undocumented) identity behaviour; the documented drop does not happen"
  },
  {
   "property": "C42",
   "status": "proved",
   "theorems": [
    "C42_cts",
    "C42_cts_pseudo",
    "C42_shifts_add",
    "C42_zero_shift_raises"
   ],
   "note": ""
  },
  {
   "property": "C43",
   "status": "proved",
   "theorems": [
    "C43_qtc",
    "C43_qtc_monotone",
    "C43_qtc_bound"
   ],
   "note": ""
  },
  {
   "property": "C44",
   "status": "proved",
   "theorems": [
    "C44_new",
    "C44_new_default_duplicates",
    "C44_new_length_mismatch",
    "C44_dim",
    "C44_dim_out_of_range"
   ],
   "note": ""
  },
  {
   "property": "C45",
   "status": "proved",
   "theorems": [
    "C45_jld_projection",
    "C45_jld_full",
    "C45_jld_linear",
    "C45_jld_distribute",
    "C45_jld_too_many_outputs",
    "C45_bias_once_refuted"
   ],
   "note": "documented bias refuted by an exact witness"
  },
  {
   "property": "C46",
   "status": "proved",
   "theorems": [
    "C46_rin_constant_kernel",
    "C46_rin_constant_kernel_adaptive",
    "C46_rin_general",
    "C46_documented_formula_refuted",
    "C46_force_sum_one",
    "C46_centred_kernels_sum_zero",
    "C46_interval_borders_refuted",
    "C46_fit_errors",
    "C46_fit",
    "C46_rin_general_adaptive",
    "C46_unfitted"
   ],
   "note": "documented formula and [-1,1] border refuted by exact witnesses"
  },
  {
   "property": "C47",
   "status": "proved",
   "theorems": [
    "C47_rpe_isometry",
    "C47_rpe_preserves_norm",
    "C47_rpe_rotation",
    "C47_rpe_wrong_dimension"
   ],
   "note": ""
  },
  {
   "property": "C48",
   "status": "proved",
   "theorems": [
    "C48_cut_order",
    "C48_npi_additive",
    "borders_unique"
   ],
   "note": "Any segment sieve: permuting the cuts does not change the result (any number type). NPI: sums over bins, over segments and over the whole row, for sorted edges. borders_unique: the specification of the borders determines them."
  },
  {
   "property": "C49",
   "status": "proved",
   "theorems": [
    "C49_segment_features",
    "C49_cur_nonneg"
   ],
   "note": "Stand-alone sieves and sieves with a cache; all integer cuts in [-(l+1), l], all float cuts; features against an independent specification (S_Sieve.feature)."
  },
  {
   "property": "C50",
   "status": "proved",
   "theorems": [
    "C50_max_min",
    "C50_default_edges",
    "C50_empty_bin_raises",
    "C50_end",
    "C50_end_columns"
   ],
   "note": "Cut 0 of END yields the last value (part of C50_end); column count equals nfeatures iff two quantiles (or no cut)."
  },
  {
   "property": "C51",
   "status": "proved",
   "theorems": [
    "C51_avg_std_are_cur",
    "C51_avg_refuted"
   ],
   "note": "The documentation is refuted for every input where mean/std differ from CUR; explicit witness."
  },
  {
   "property": "C52",
   "status": "proved",
   "theorems": [
    "C52_C53_thresholds",
    "C52_C53_segments",
    "C52_antitone",
    "C52_pairing_refuted"
   ],
   "note": "np.quantile is an arbitrary function qf. Segments: for constant thresholds (fitted thresholds need not stay sorted when flags are mixed, which C52_pairing_refuted exhibits)."
  },
  {
   "property": "C53",
   "status": "proved",
   "theorems": [
    "C52_C53_thresholds",
    "C52_C53_segments",
    "C53_strips",
    "C53_documented_refuted"
   ],
   "note": "CPV counts the strips that do not start at time 0."
  },
  {
   "property": "C54",
   "status": "proved",
   "theorems": [
    "C54_variations",
    "C54_variation_monotone",
    "C54_coquantile"
   ],
   "note": ""
  },
  {
   "property": "C55",
   "status": "proved",
   "theorems": [
    "C55_int",
    "C55_inc",
    "C55_inc_depth_zero",
    "C55_inc_depth_ineffective",
    "C55_inc_depth_refuted",
    "C55_int_of_inc",
    "C55_inc_of_int"
   ],
   "note": "Transform and fit of wrapped sieves."
  },
  {
   "property": "C56",
   "status": "proved",
   "theorems": [
    "C56_indices",
    "C56_indices_monotone",
    "C56_indices_linear",
    "C56_indices_integer",
    "C56_indices_absolute_degenerate",
    "C56_indices_absolute_refuted",
    "C56_lp",
    "C56_lp_integer",
    "C56_lp_time_transform_monotone",
    "C56_plateaus",
    "C56_plateaus_at_least_two",
    "C56_too_many_plateaus_degenerate"
   ],
   "note": "Indices(relative=False) normalises the integer array np.arange(1, l+1) with NRM, whose result array inherits the integer dtype: the lookup is 0 except at the last time step (stated exactly, and refuted as a rescaling)."
  },
  {
   "property": "C57",
   "status": "proved",
   "theorems": [
    "C57_fitted_edges",
    "C57_quantile_rank",
    "C57_bins_disjoint",
    "C57_bins_cover",
    "C57_unsorted_refuted",
    "C57_unfitted",
    "C57_not_required",
    "C57_required"
   ],
   "note": "Fitted edges are the sorted quantiles of the values the sieve is fitted on (CUR: the raw values, not the second differences)."
  },
  {
   "property": "C58",
   "status": "proved",
   "theorems": [
    "C58_argmax",
    "C58_earlier_times_refuted",
    "C58_weighting_refuted"
   ],
   "note": ""
  },
  {
   "property": "C59",
   "status": "proved",
   "theorems": [
    "C59_reals_scaling",
    "C59_reals_negated_exponents",
    "C59_arctic_scaling",
    "C59_arctic_negated_exponents"
   ],
   "note": ""
  },
  {
   "property": "C60",
   "status": "proved",
   "theorems": [
    "transform_repeatable",
    "slice_transform_repeatable",
    "fit_transform_consistent",
    "slice_fit_transform_consistent",
    "column_blocks"
   ],
   "note": ""
  },
  {
   "property": "C61",
   "status": "proved",
   "theorems": [
    "C61_string_tells_letters",
    "C61_parse_print",
    "C61_string_is_a_key",
    "C61_parser_leniency"
   ],
   "note": "Every history of calls; letter names without ( ) ] for the round trip. int() of a dimension accepts the decimal forms -?digits only (a numeral with blanks, underscores or a plus sign is a ValueError in the model)."
  },
  {
   "property": "C62",
   "status": "proved",
   "theorems": [
    "C62_frame",
    "C62_copy_is_fresh",
    "C62_independence",
    "C62_multiply_shares",
    "C62_self_multiplication"
   ],
   "note": ""
  },
  {
   "property": "C63",
   "status": "proved",
   "theorems": [
    "C63_failing_multiply",
    "C63_failing_constructor"
   ],
   "note": ""
  },
  {
   "property": "C64",
   "status": "proved",
   "theorems": [
    "C64_names_are_final",
    "C64_register",
    "C64_append"
   ],
   "note": ""
  },
  {
   "property": "C65",
   "status": "proved",
   "theorems": [
    "C65_loop_sees_all",
    "C65_nested_loops_stop",
    "C65_growing_loop"
   ],
   "note": ""
  },
  {
   "property": "C66",
   "status": "proved",
   "theorems": [
    "C66_iterated_sums",
    "C66_iterated_sums_unweighted",
    "C66_cosine_sums",
    "C66_moving_average",
    "C66_rotation",
    "C66_random_increments",
    "C66_projection",
    "C66_sieves",
    "C66_cache",
    "C66_sequential",
    "C66_race_is_visible"
   ],
   "note": "Iterations interleave at single reads and writes of the shared array; variables assigned in a loop body are private (as numba makes them); a sieve iteration that raises (MAX/MIN on an empty bin) is excluded by hypothesis. C66_race_is_visible: the semantics does lose updates when iterations share a cell."
  },
  {
   "property": "C67",
   "status": "proved",
   "theorems": [
    "C67_ffn",
    "C67_centred_translation_invariant",
    "C67_time_steps_individually",
    "C67_relu_out_nonneg",
    "C67_fit",
    "C67_errors"
   ],
   "note": "The weights are arbitrary (whatever the generator draws)."
  },
  {
   "property": "C68",
   "status": "proved",
   "theorems": [
    "C68_rdw",
    "C68_uniform_exponents_sum_one",
    "C68_dirichlet_parameters",
    "C68_dirichlet_fit",
    "C68_documented_parameters_refuted",
    "C68_unfitted"
   ],
   "note": "The power function is a parameter of the model (numpy float ** float, NaN for negative bases, is not modelled); the documented parameters are refuted by a witness."
  },
  {
   "property": "C69",
   "status": "proved",
   "theorems": [
    "C69_spe",
    "C69_spe_step_transform",
    "C69_first_value_erased",
    "C69_documented_start_refuted",
    "C69_errors"
   ],
   "note": "The power function is a parameter; user functions are modelled as acting on one number at a time."
  },
  {
   "property": "C70",
   "status": "proved",
   "theorems": [
    "C70_meaning",
    "C70_errors",
    "C70_symmetric_transitive",
    "C70_never_equal",
    "C70_copy_is_equal",
    "C70_kernel_raises",
    "C70_copy_commutes",
    "C70_interchangeable",
    "C70_equal_but_different_INC_refuted",
    "C70_equal_but_different_STD_refuted",
    "C70_order_matters_refuted",
    "C70_constructors"
   ],
   "note": "NaN arguments and booleans passed as numbers are not modelled. Comparing kernels of different shapes depends on the numpy version: an oracle that returns False or raises ValueError."
  },
  {
   "property": "C71",
   "status": "proved",
   "theorems": [
    "C71_loop_sees_all",
    "C71_getitem",
    "C71_calls_leave_it_alone",
    "C71_nested_loops_stop",
    "C71_growing_loop",
    "C71_cut_in_loop"
   ],
   "note": ""
  },
  {
   "property": "C72",
   "status": "proved",
   "theorems": [
    "C72_reals_rounding_error",
    "C72_relative_error",
    "C72_error_linear",
    "C72_binary64"
   ],
   "note": "Standard model of floating point arithmetic: no overflow, no underflow. Sums in the order of the source (numba fastmath may reorder them)."
  },
  {
   "property": "C73",
   "status": "proved",
   "theorems": [
    "C73_arctic_rounding_error",
    "C73_bayesian_rounding_error"
   ],
   "note": "Same model as C72."
  },
  {
   "property": "C74",
   "status": "proved",
   "theorems": [
    "C74_reals_integers_exact",
    "C74_arctic_integers_exact",
    "C74_bayesian_integers_exact",
    "C74_binary64"
   ],
   "note": "C74_binary64 is about rounding to nearest with 53 bits and gradual underflow (Flocq FLT(-1074, 53)); overflow is excluded by the bound."
  },
  {
   "property": "C75",
   "status": "proved",
   "theorems": [
    "C75_features_are_finite",
    "C75_replacement",
    "C75_slices_are_not_finite_refuted",
    "fruit_features",
    "library_fruit_features"
   ],
   "note": "IEEE 754 binary64 as specified in Coq.Floats.SpecFloat; exp, sin and cos are arbitrary functions."
  },
  {
   "property": "C76",
   "status": "proved",
   "theorems": [
    "C76_any_seeds",
    "C76_library_prep",
    "C76_library_iss",
    "C76_library_sieve",
    "C76_rows",
    "C76_one_series",
    "C76_append",
    "C76_fun_refuted"
   ],
   "note": "Exact equality for any number type. The call on X must succeed (the part may succeed where the whole fails). Excluded: cache readers (WIN, SPE with a cached step, relative cuts) inside DIM, NEW, INC, INT; user functions are assumed to treat series on their own."
  },
  {
   "property": "C77",
   "status": "proved",
   "theorems": [
    "C77_letters",
    "C77_single",
    "C77_no_value",
    "C77_extended",
    "C77_batches"
   ],
   "note": "Any number type. _operation is elementwise, _identity constant; letters return arrays of the length of the series; the letter DIM is the built-in one; words have at least one extended letter (C77_single)."
  },
  {
   "property": "C78",
   "status": "proved",
   "theorems": [
    "C78_weighting_ignored",
    "C78_lookup_error",
    "C78_negative_exponents_ignored",
    "C78_reals_subclass_agrees",
    "C78_weighted_subclass_refuted",
    "C78_arctic_subclass_refuted"
   ],
   "note": ""
  },
  {
   "property": "C79",
   "status": "proved",
   "theorems": [
    "fit_trains_on_sample",
    "fit_without_sample",
    "train_then_transform",
    "library_train_then_transform",
    "C79_one_object_twice_refuted"
   ],
   "note": "Any seeds; library_train_then_transform discharges the shape hypotheses for library seeds (FUN and custom weightings keep the number of series, no SPE with steps from the cache at top level)."
  },
  {
   "property": "C80",
   "status": "proved",
   "theorems": [
    "C80_chen_reals",
    "C80_chen_arctic",
    "C80_chen_bayesian"
   ],
   "note": "Without weighting."
  },
  {
   "property": "C81",
   "status": "proved",
   "theorems": [
    "C81_reversal_reals",
    "C81_reversal_arctic",
    "C81_reversal_bayesian"
   ],
   "note": "Without weighting."
  },
  {
   "property": "C82",
   "status": "proved",
   "theorems": [
    "C82_zeros_in_front",
    "C82_zeros_at_end",
    "C82_arctic_refuted"
   ],
   "note": ""
  },
  {
   "property": "C83",
   "status": "proved",
   "theorems": [
    "C83_float_arrays",
    "C83_integer_arrays",
    "C83_iterated_sums",
    "C83_compiled_preparateurs",
    "C83_cached_sums",
    "C83_window",
    "C83_simple_words"
   ],
   "note": "int64 overflow is not modelled; functions given by the user (FUN, SPE, custom weightings) are taken to return float arrays."
  },
  {
   "property": "C84",
   "status": "proved",
   "theorems": [
    "C84_nrm_integers",
    "C84_nrm_joint_integers",
    "C84_nrm_integers_refuted",
    "C84_new_integers",
    "C84_new_integers_refuted"
   ],
   "note": ""
  },
  {
   "property": "C85",
   "status": "proved",
   "theorems": [
    "C85_label",
    "C85_wrapped",
    "C85_out_of_range",
    "C85_increasing_cuts",
    "C85_edges",
    "C85_decreasing_cuts_refuted"
   ],
   "note": "str() of floats is a parameter of the statement."
  },
  {
   "property": "C86",
   "status": "proved",
   "theorems": [
    "C86_nothing_to_learn",
    "C86_unfitted_raises",
    "C86_unfitted_leaf_raises",
    "C86_flag",
    "C86_not_required",
    "C86_fit_suffices",
    "C86_required_but_nothing_to_learn_refuted",
    "C86_iss_not_required",
    "C86_iss_required",
    "C86_iss_fit_suffices"
   ],
   "note": "MAV with an integer width <= 0 is left out of C86_fit_suffices: it cannot be fitted (C40). Sieves: C57."
  },
  {
   "property": "C87",
   "status": "proved",
   "theorems": [
    "C87_window_in_slice",
    "C87_window_in_new",
    "C87_weighting_of_input",
    "C87_weighting_of_prepared",
    "C87_weighting_alone",
    "C87_weighting_no_cache",
    "C87_cos_no_cache",
    "C87_unweighted_no_cache"
   ],
   "note": "That a fruit attaches a cache of its input to every seed before it is used is part of C25."
  },
  {
   "property": "C88",
   "status": "proved",
   "theorems": [
    "C88_std",
    "C88_mav",
    "C88_mav_float",
    "C88_qtc",
    "C88_rin_kernel",
    "C88_jld",
    "C88_jld_distribute",
    "C88_rin",
    "C88_dil",
    "C88_dot",
    "C88_pdd"
   ],
   "note": "FFN and RDW: C67_fit, C68. Random numbers are arbitrary arrays of the requested sizes."
  },
  {
   "property": "C89",
   "status": "proved",
   "theorems": [
    "C89_transform",
    "C89_preparation",
    "C89_fit"
   ],
   "note": "Statement-by-statement memory model of INC, NRM, LAG, CTS, DIL, WIN, DOT, PDD, DIM and NEW; the other classes are numpy expressions or compiled kernels whose result is a new array. _fit methods only read and are not executed in this model."
  },
  {
   "property": "C90",
   "status": "proved",
   "theorems": [
    "C90_caller_isolated",
    "C90_fit_copy_isolated",
    "C90_callback_is_a_stage",
    "C90_no_preparateurs",
    "C90_argument_changed_refuted"
   ],
   "note": "Callbacks on_preparateur and on_preparation_end; user code is any program that writes at most to the array it is given and to arrays of its own."
  },
  {
   "property": "C91",
   "status": "proved",
   "theorems": [
    "C91_slice_lines",
    "C91_slice_width",
    "C91_fruit_lines",
    "C91_fruit_width",
    "C91_no_iss_refuted",
    "C91_features",
    "C91_fruit_features"
   ],
   "note": "str() of preparateurs and ISS, class names and repr() of the name are given as texts without line breaks."
  },
  {
   "property": "C92",
   "status": "proved",
   "theorems": [
    "C92_transform",
    "C92_reachable",
    "C92_library"
   ],
   "note": "Kernels of semirings and sieves read their arguments and return new values; cached values are computed again from the input where needed (the same as long as nobody writes to it). Arrays are rectangular."
  },
  {
   "property": "C93",
   "status": "proved",
   "theorems": [
    "C93_caller_isolated",
    "C93_slice_isolated",
    "C93_library",
    "C93_on_iterated_sum",
    "C93_on_sieving_end",
    "C93_on_sieve_refuted"
   ],
   "note": "User code is any program that writes at most to the array it is given and to arrays of its own. C93_on_iterated_sum and C93_on_sieving_end: the other callbacks observe."
  },
  {
   "property": "C94",
   "status": "proved",
   "theorems": [
    "C94_live",
    "C94_get",
    "C94_cleared",
    "C94_readers",
    "C94_change",
    "C94_ghost_sieve"
   ],
   "note": "C94_readers links the extended programs to the histories of the other properties: reading the lists changes nothing. C94_ghost_sieve: a deviation worth knowing (no error, zero columns)."
  },
  {
   "property": "C95",
   "status": "proved",
   "theorems": [
    "C95_failed_fit",
    "C95_never_fitted",
    "C95_truncated",
    "C95_fruit",
    "C95_as_before_refuted"
   ],
   "note": "C95_as_before_refuted: a deviation worth knowing; the seeds in the witness are user-defined."
  },
  {
   "property": "C96",
   "status": "proved",
   "theorems": [
    "C96_add",
    "C96_fruit"
   ],
   "note": ""
  },
  {
   "property": "C97",
   "status": "proved",
   "theorems": [
    "C97_integer",
    "C97_parts",
    "C97_letter",
    "C97_word",
    "C97_object"
   ],
   "note": "Characters are 8 bit (no other Unicode digits or blanks); the limit of 4300 digits of int() is not modelled."
  },
  {
   "property": "C98",
   "status": "proved",
   "theorems": [
    "C98_general",
    "C98_labels"
   ],
   "note": "A deviation worth knowing: the documented positions are silently missing for general words. C58 is the property for simple words."
  },
  {
   "property": "C99",
   "status": "proved",
   "theorems": [
    "C99_sieves",
    "C99_features",
    "C99_features_arctic",
    "C99_fixed_threshold_refuted"
   ],
   "note": "np.quantile is any function of probability and values that commutes with positive factors; the modelled np.quantile does (quantile_sc). C99_fixed_threshold_refuted shows that the exception for constant thresholds is needed."
  }
 ]
}