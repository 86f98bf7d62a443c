claim('C01','proved','increasing_tuples_spec increasing_tuples_once C01_reals_iterated_sum C01_zero_before_word_fits')
claim('C02','proved','C02_weighted_reals C02_zero_weighting_is_unweighted')
claim('C03','proved','C03_arctic_maximum')
claim('C04','proved','C04_bayesian_maximum C04_negative_data_refuted')
claim('C05','proved','C05_labels C05_simple_words_apply')
claim('C06','proved','C06_extended_is_single C06_single_mode C06_letter_zero_refuted C06_extended_is_single_any_numbers C06_arctic_nan_refuted','words with a letter 0 violate the property (witness); proved for all words without it')
claim('C07','proved','C07_batches_concatenate C07_too_large_batch C07_zero_batch_diverges')
claim('C08','proved','C08_simple_general_agree C08_letter_order')
claim('C09','proved','C09_bayesian_general_is_strict C09_simple_general_differ_refuted')
claim('C10','proved','C10_general_words_ignore_weighting C10_documented_scaling_refuted')
claim('C11','proved','C11_samples_independent')
claim('C12','proved','C12_causality')
claim('C15','proved','C15_parse C15_reject C15_counts C15_every_word_can_be_written C15_unambiguous C15_letter_zero_refuted')
claim('C16','proved','C16_multiply_is_concatenation C16_padding_is_invisible C16_letter_zero_refuted')
claim('C17','proved','C17_permuted_letters_equal C17_equality_is_counting C17_equal_words_equal_sums')
claim('C19','proved','C19_replace_letters C19_dim_generator')
claim('C13','proved','C13_quasi_shuffle C13_words_exist')
claim('C18','proved','C18_of_weight C18_count C18_count_dim1','w = 0 raises IndexError (Example C18_weight_zero)')
claim('C58','proved','C58_argmax C58_earlier_times_refuted C58_weighting_refuted')
claim('C59','proved','C59_reals_scaling C59_reals_negated_exponents C59_arctic_scaling C59_arctic_negated_exponents')
claim('C20','proved','C20_alternate_sign C20_two_digits_refuted C20_negative_letter_raises','fails from dimension 10 on (witness)')
claim('C21','proved','C21_copy C21_copy_same_sums C21_set_alpha C21_multiply_makes_alpha_stale C21_weighted_copy_differs_refuted')
claim('C35','proved','C35_inc_zero_padded C35_inc_default C35_inc_translation_invariant C35_inc_linear C35_unpadded_is_invertible C35_errors','')
claim('C36','proved','C36_std_separately C36_std_translation_invariant C36_std_jointly C36_std_unfitted','')
claim('C37','proved','C37_nrm C37_nrm_affine_invariant C37_nrm_idempotent C37_nrm_joint','')
claim('C38','proved','C38_mav C38_mav_float C38_moving_average_bounds C38_width_one_identity C38_width_minus_one_never_works','the documented width=-1 never works for any fit history')
claim('C39','proved','C39_lag','')
claim('C40','proved','C40_dil C40_dil_default_clusters C40_dil_errors C40_dot C40_pdd C40_win C40_dot_any_integers C40_dot_zero_step C40_pdd_positions C40_pdd_at_most_the_proportion','')
claim('C41','proved','C41_pdd_default_is_identity','statement is the (undocumented) identity behaviour; the documented drop does not happen')
claim('C42','proved','C42_cts C42_cts_pseudo C42_shifts_add C42_zero_shift_raises','')
claim('C43','proved','C43_qtc C43_qtc_monotone C43_qtc_bound','')
claim('C44','proved','C44_new C44_new_default_duplicates C44_new_length_mismatch C44_dim C44_dim_out_of_range','')
claim('C45','proved','C45_jld_projection C45_jld_full C45_jld_linear C45_jld_distribute C45_jld_too_many_outputs C45_bias_once_refuted','documented bias refuted by an exact witness')
claim('C46','proved','C46_rin_constant_kernel C46_rin_constant_kernel_adaptive C46_rin_general C46_documented_formula_refuted C46_force_sum_one C46_centred_kernels_sum_zero C46_interval_borders_refuted C46_fit_errors C46_fit C46_rin_general_adaptive C46_unfitted','documented formula and [-1,1] border refuted by exact witnesses')
claim('C47','proved','C47_rpe_isometry C47_rpe_preserves_norm C47_rpe_rotation C47_rpe_wrong_dimension','')
claim('C54','proved','C54_variations C54_variation_monotone C54_coquantile','')
claim('C56','proved','C56_indices C56_indices_monotone C56_indices_linear C56_indices_integer C56_indices_absolute_degenerate C56_indices_absolute_refuted C56_lp C56_lp_integer C56_lp_time_transform_monotone C56_plateaus C56_plateaus_at_least_two C56_too_many_plateaus_degenerate','Indices(relative=False) normalises the integer array np.arange(1, l+1) with NRM, whose result array inherits the integer dtype: the lookup is 0 except at the last time step (stated exactly, and refuted as a rescaling).')
claim('C14','proved','C14_time_warping C14_repeating_a_step','for every time of every time warp; the word must have positive letters')
claim('C48','proved','C48_cut_order C48_npi_additive borders_unique','Any segment sieve: permuting the cuts does not change the result (any number type). NPI: sums over bins, over segments and over the whole row, for sorted edges. borders_unique: the specification of the borders determines them.')
claim('C49','proved','C49_segment_features C49_cur_nonneg','Stand-alone sieves and sieves with a cache; all integer cuts in [-(l+1), l], all float cuts; features against an independent specification (S_Sieve.feature).')
claim('C50','proved','C50_max_min C50_default_edges C50_empty_bin_raises C50_end C50_end_columns','Cut 0 of END yields the last value (part of C50_end); column count equals nfeatures iff two quantiles (or no cut).')
claim('C51','proved','C51_avg_std_are_cur C51_avg_refuted','The documentation is refuted for every input where mean/std differ from CUR; explicit witness.')
claim('C52','proved','C52_C53_thresholds C52_C53_segments C52_antitone C52_pairing_refuted','np.quantile is an arbitrary function qf. Segments: for constant thresholds (fitted thresholds need not stay sorted when flags are mixed, which C52_pairing_refuted exhibits).')
claim('C53','proved','C52_C53_thresholds C52_C53_segments C53_strips C53_documented_refuted','CPV counts the strips that do not start at time 0.')
claim('C55','proved','C55_int C55_inc C55_inc_depth_zero C55_inc_depth_ineffective C55_inc_depth_refuted C55_int_of_inc C55_inc_of_int','Transform and fit of wrapped sieves.')
claim('C57','proved','C57_fitted_edges C57_quantile_rank C57_bins_disjoint C57_bins_cover C57_unsorted_refuted C57_unfitted C57_not_required C57_required','Fitted edges are the sorted quantiles of the values the sieve is fitted on (CUR: the raw values, not the second differences).')
claim('C30','proved','C30_preparateurs C30_iss C30_sieves C30_segment_sieves_norm C30_std_eps_refuted C30_norm_refuted C30_ppv_copy_raises_refuted','Copies taken after any history of calls equal the object as constructed, except STD (std_eps) and segment/increment sieves (norm), refuted by exact witnesses; PPV/CPV built from lists (segmented form: distinct thresholds, equal flags).')
claim('C31','proved','C31_transparent C31_answer_iss C31_answer_coquantile C31_no_input C31_no_input_at_all C31_stale_refuted','')
claim('C32','proved','C32_sieve_leaves_no_cache C32_preparateur_leaves_no_cache C32_sieve_last_fit_only C32_preparateur_last_fit_only C32_raising_call_leaves_cache_refuted C32_attached_preparateur_refuted','All preparateurs and sieves including nested wrappers, all histories of non-raising calls; witnesses for a raising call and for use inside a fruit.')
claim('C25','proved','feature_numbers_unique feature_numbers_bound slice_features fruit_features library_sieve_shaped library_prep_rows library_iss_exact library_shaped library_slice_features library_fruit_features','For every implementation of the seed interface with results of the right shapes and every history of API calls; the library seeds have these shapes (FUN functions and custom weightings are assumed to keep the number of series).')
claim('C27','proved','slice_transform_needs_fit slice_stays_fitted fruit_transform_needs_fit fruit_stays_fitted slice_fit_incomplete','All histories of API calls including raising ones.')
claim('C28','proved','fit_fresh_sieves','')
claim('C29','proved','sides_independent deepcopy_independent copy_shares_seeds deepcopy_structure C29_copy_is_shared_refuted C29_copy_sample_size_refuted','copy() shares seeds and loses fit_sample_size: proved in general and run with library seeds.')
claim('C26','proved','slice_label_names_column slice_label_names_sum slice_label_prepared fruit_label_slices','Labels of a slice name the column produced by the iterated sum and sieve they display; whole-fruit label.')
claim('C33','proved','callback_protocol slice_callback_protocol library_callback_protocol C33_on_sieve_columns_refuted','Exact sequence of callback invocations and their arguments.')
claim('C60','proved','transform_repeatable slice_transform_repeatable fit_transform_consistent slice_fit_transform_consistent column_blocks','')
claim('C22','proved','C22_coswiss C22_documented_angle_refuted','Exact values for every word, series, frequency and exponent 0..4, with and without total weighting, where theta(t)=pi t/(f(N-1)) as the code has it; the documentation (f N) is refuted by a witness. Real numbers: the rounding of the frequency to float32 is not modelled.')
claim('C23','proved','C23_table C23_exponents_from_5_refuted','The coefficient table is the binomial expansion iff the exponent is at most 4; for every exponent from 5 on there is a series on which transform differs from the formula.')
claim('C24','proved','C24_rows C24_batches C24_batch_sizes C24_batches_need_fit C24_dropout C24_network C24_needs_fit C24_fit','Row/label correspondence, batches, dropout (all outcomes of the random selection), networks (all weights), behaviour before fit.')

claim('C34','proved','C34_rows_by_position C34_fit_reads_first_series C34_prefix_sample C34_other_sample_refuted','For histories of library seeds in which FUN preparateurs and custom weightings keep the number of series; SPE preparateurs that take their steps from the cache are left out at top level (they use the rows of all series, not only the first k).')

claim('C61','proved','C61_string_tells_letters C61_parse_print C61_string_is_a_key C61_parser_leniency','Every history of calls; letter names without ( ) ] for the round trip. int() of a dimension accepts the decimal forms -?digits only (a numeral with blanks, underscores or a plus sign is a ValueError in the model).')
claim('C62','proved','C62_frame C62_copy_is_fresh C62_independence C62_multiply_shares C62_self_multiplication','')
claim('C63','proved','C63_failing_multiply C63_failing_constructor','')
claim('C64','proved','C64_names_are_final C64_register C64_append','')
claim('C65','proved','C65_loop_sees_all C65_nested_loops_stop C65_growing_loop','')
claim('C66','proved','C66_iterated_sums C66_iterated_sums_unweighted C66_cosine_sums C66_moving_average C66_rotation C66_random_increments C66_projection C66_sieves C66_cache C66_sequential C66_race_is_visible','Iterations interleave at single reads and writes of the shared array; variables assigned in a loop body are private (as numba makes them); a sieve iteration that raises (MAX/MIN on an empty bin) is excluded by hypothesis. C66_race_is_visible: the semantics does lose updates when iterations share a cell.')
claim('C67','proved','C67_ffn C67_centred_translation_invariant C67_time_steps_individually C67_relu_out_nonneg C67_fit C67_errors','The weights are arbitrary (whatever the generator draws).')
claim('C68','proved','C68_rdw C68_uniform_exponents_sum_one C68_dirichlet_parameters C68_dirichlet_fit C68_documented_parameters_refuted C68_unfitted','The power function is a parameter of the model (numpy float ** float, NaN for negative bases, is not modelled); the documented parameters are refuted by a witness.')
claim('C69','proved','C69_spe C69_spe_step_transform C69_first_value_erased C69_documented_start_refuted C69_errors','The power function is a parameter; user functions are modelled as acting on one number at a time.')
claim('C70','proved','C70_meaning C70_errors C70_symmetric_transitive C70_never_equal C70_copy_is_equal C70_kernel_raises C70_copy_commutes C70_interchangeable C70_equal_but_different_INC_refuted C70_equal_but_different_STD_refuted C70_order_matters_refuted C70_constructors','NaN arguments and booleans passed as numbers are not modelled. Comparing kernels of different shapes depends on the numpy version: an oracle that returns False or raises ValueError.')
claim('C71','proved','C71_loop_sees_all C71_getitem C71_calls_leave_it_alone C71_nested_loops_stop C71_growing_loop C71_cut_in_loop','')
claim('C72','proved','C72_reals_rounding_error C72_relative_error C72_error_linear C72_binary64','Standard model of floating point arithmetic: no overflow, no underflow. Sums in the order of the source (numba fastmath may reorder them).')
claim('C73','proved','C73_arctic_rounding_error C73_bayesian_rounding_error','Same model as C72.')
claim('C74','proved','C74_reals_integers_exact C74_arctic_integers_exact C74_bayesian_integers_exact C74_binary64','C74_binary64 is about rounding to nearest with 53 bits and gradual underflow (Flocq FLT(-1074, 53)); overflow is excluded by the bound.')
claim('C75','proved','C75_features_are_finite C75_replacement C75_slices_are_not_finite_refuted fruit_features library_fruit_features','IEEE 754 binary64 as specified in Coq.Floats.SpecFloat; exp, sin and cos are arbitrary functions.')
claim('C76','proved','C76_any_seeds C76_library_prep C76_library_iss C76_library_sieve C76_rows C76_one_series C76_append C76_fun_refuted','Exact equality for any number type. The call on X must succeed (the part may succeed where the whole fails). Excluded: cache readers (WIN, SPE with a cached step, relative cuts) inside DIM, NEW, INC, INT; user functions are assumed to treat series on their own.')
claim('C77','proved','C77_letters C77_single C77_no_value C77_extended C77_batches','Any number type. _operation is elementwise, _identity constant; letters return arrays of the length of the series; the letter DIM is the built-in one; words have at least one extended letter (C77_single).')
claim('C78','proved','C78_weighting_ignored C78_lookup_error C78_negative_exponents_ignored C78_reals_subclass_agrees C78_weighted_subclass_refuted C78_arctic_subclass_refuted','')
claim('C79','proved','fit_trains_on_sample fit_without_sample train_then_transform library_train_then_transform C79_one_object_twice_refuted','Any seeds; library_train_then_transform discharges the shape hypotheses for library seeds (FUN and custom weightings keep the number of series, no SPE with steps from the cache at top level).')
claim('C80','proved','C80_chen_reals C80_chen_arctic C80_chen_bayesian','Without weighting.')
claim('C81','proved','C81_reversal_reals C81_reversal_arctic C81_reversal_bayesian','Without weighting.')
claim('C82','proved','C82_zeros_in_front C82_zeros_at_end C82_arctic_refuted','')
claim('C83','proved','C83_float_arrays C83_integer_arrays C83_iterated_sums C83_compiled_preparateurs C83_cached_sums C83_window C83_simple_words','int64 overflow is not modelled; functions given by the user (FUN, SPE, custom weightings) are taken to return float arrays.')
claim('C84','proved','C84_nrm_integers C84_nrm_joint_integers C84_nrm_integers_refuted C84_new_integers C84_new_integers_refuted','')
claim('C85','proved','C85_label C85_wrapped C85_out_of_range C85_increasing_cuts C85_edges C85_decreasing_cuts_refuted','str() of floats is a parameter of the statement.')
claim('C86','proved','C86_nothing_to_learn C86_unfitted_raises C86_unfitted_leaf_raises C86_flag C86_not_required C86_fit_suffices C86_required_but_nothing_to_learn_refuted C86_iss_not_required C86_iss_required C86_iss_fit_suffices','MAV with an integer width <= 0 is left out of C86_fit_suffices: it cannot be fitted (C40). Sieves: C57.')
claim('C87','proved','C87_window_in_slice C87_window_in_new C87_weighting_of_input C87_weighting_of_prepared C87_weighting_alone C87_weighting_no_cache C87_cos_no_cache C87_unweighted_no_cache','That a fruit attaches a cache of its input to every seed before it is used is part of C25.')
claim('C88','proved','C88_std C88_mav C88_mav_float C88_qtc C88_rin_kernel C88_jld C88_jld_distribute C88_rin C88_dil C88_dot C88_pdd','FFN and RDW: C67_fit, C68. Random numbers are arbitrary arrays of the requested sizes.')
claim('C89','proved','C89_transform C89_preparation C89_fit','Statement-by-statement memory model of INC, NRM, LAG, CTS, DIL, WIN, DOT, PDD, DIM and NEW; the other classes are numpy expressions or compiled kernels whose result is a new array. _fit methods only read and are not executed in this model.')
claim('C90','proved','C90_caller_isolated C90_fit_copy_isolated C90_callback_is_a_stage C90_no_preparateurs C90_argument_changed_refuted','Callbacks on_preparateur and on_preparation_end; user code is any program that writes at most to the array it is given and to arrays of its own.')
claim('C91','proved','C91_slice_lines C91_slice_width C91_fruit_lines C91_fruit_width C91_no_iss_refuted C91_features C91_fruit_features','str() of preparateurs and ISS, class names and repr() of the name are given as texts without line breaks.')
claim('C92','proved','C92_transform C92_reachable C92_library','Kernels of semirings and sieves read their arguments and return new values; cached values are computed again from the input where needed (the same as long as nobody writes to it). Arrays are rectangular.')
claim('C93','proved','C93_caller_isolated C93_slice_isolated C93_library C93_on_iterated_sum C93_on_sieving_end C93_on_sieve_refuted','User code is any program that writes at most to the array it is given and to arrays of its own. C93_on_iterated_sum and C93_on_sieving_end: the other callbacks observe.')
claim('C94','proved','C94_live C94_get C94_cleared C94_readers C94_change C94_ghost_sieve','C94_readers links the extended programs to the histories of the other properties: reading the lists changes nothing. C94_ghost_sieve: a deviation worth knowing (no error, zero columns).')
claim('C95','proved','C95_failed_fit C95_never_fitted C95_truncated C95_fruit C95_as_before_refuted','C95_as_before_refuted: a deviation worth knowing; the seeds in the witness are user-defined.')
claim('C96','proved','C96_add C96_fruit','')
claim('C97','proved','C97_integer C97_parts C97_letter C97_word C97_object','Characters are 8 bit (no other Unicode digits or blanks); the limit of 4300 digits of int() is not modelled.')
claim('C98','proved','C98_general C98_labels','A deviation worth knowing: the documented positions are silently missing for general words. C58 is the property for simple words.')
claim('C99','proved','C99_sieves C99_features C99_features_arctic C99_fixed_threshold_refuted','np.quantile is any function of probability and values that commutes with positive factors; the modelled np.quantile does (quantile_sc). C99_fixed_threshold_refuted shows that the exception for constant thresholds is needed.')
claim('C100','proved','C100_offsets C100_transform C100_zero_padding_refuted','Over the real numbers. C100_zero_padding_refuted shows that zero padding is needed.')
claim('C101','proved','C101_units C101_transform C101_std_refuted','Over the real numbers. The objects that must not read raw sums are all that exist in the heap, used or not.')
claim('C102','proved','C102_sieves C102_features C102_longest_run_refuted','Over the real numbers; all series of the data set are warped alike in C102_features (as in C14), each row in its own way in C102_sieves. C102_longest_run_refuted: LPI is no such sieve.')
