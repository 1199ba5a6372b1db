{
 "claims": [
  {
   "property": "C01",
   "status": "proved",
   "theorems": [
    "C01_map_unary",
    "C01_map_unary_same_type",
    "C01_map_binary",
    "C01_map_binary_overloads"
   ],
   "note": ""
  },
  {
   "property": "C02",
   "status": "partial",
   "theorems": [
    "C02_map_argument_unchanged_partial",
    "C02_map_nonconst_lvalue_refuted",
    "C02_map_nonconst_vector_lost"
   ],
   "note": "False for non-const lvalues: the forwarding-reference overload of unary map overwrites and moves from the named array (finding). Holds for const arrays and type-changing operations."
  },
  {
   "property": "C03",
   "status": "proved",
   "theorems": [
    "C03_predefined",
    "C03_filter_exact",
    "C03_filter_idempotent"
   ],
   "note": ""
  },
  {
   "property": "C04",
   "status": "proved",
   "theorems": [
    "C04_filter_reduce_fold"
   ],
   "note": ""
  },
  {
   "property": "C05",
   "status": "proved",
   "theorems": [
    "C05_pairwise_is_sequential",
    "C05_pairwise_code_equation"
   ],
   "note": ""
  },
  {
   "property": "C06",
   "status": "proved",
   "theorems": [
    "C06_pairwise_sum_error",
    "C06_pairwise_sum_error_binary64"
   ],
   "note": ""
  },
  {
   "property": "C07",
   "status": "proved",
   "theorems": [
    "C07_cumsum_cumprod",
    "C07_nancum",
    "C07_overloads",
    "C07_argument_consumed",
    "C07_cumulative",
    "C07_cumulative_unfiltered"
   ],
   "note": ""
  },
  {
   "property": "C08",
   "status": "proved",
   "theorems": [
    "C08_sum_prod_ring",
    "C08_nansum_nanprod",
    "C08_nan_propagates",
    "C08_finite_sum"
   ],
   "note": ""
  },
  {
   "property": "C09",
   "status": "proved",
   "theorems": [
    "C09_diff_binomial",
    "C09_diff_cumsum",
    "C09_array_overload",
    "C09_negative_order"
   ],
   "note": ""
  },
  {
   "property": "C10",
   "status": "partial",
   "theorems": [
    "C10_trapz_partial",
    "C10_trapz_additive",
    "C10_trapz_affine",
    "C10_trapz_single_sample_refuted"
   ],
   "note": "Holds for 0 and >= 2 samples; one sample sums the reversed range (first+1, last-1): undefined behaviour (finding)."
  },
  {
   "property": "C11",
   "status": "proved",
   "theorems": [
    "C11_inner",
    "C11_inner_bilinear",
    "C11_vdot_hermitian",
    "C11_vdot_self_real"
   ],
   "note": ""
  },
  {
   "property": "C12",
   "status": "partial",
   "theorems": [
    "C12_comparisons_partial",
    "C12_array_comparisons_partial",
    "C12_le_ge_nan_refuted"
   ],
   "note": "<= and >= (and less_equal, greater_equal) are negations of >/<, so they return true for NaN (finding); all other comparisons, and these on NaN-free data, are correct."
  },
  {
   "property": "C13",
   "status": "proved",
   "theorems": [
    "C13_mask"
   ],
   "note": ""
  },
  {
   "property": "C14",
   "status": "proved",
   "theorems": [
    "C14_argmax_argmin",
    "C14_doubles_without_nan_qualify"
   ],
   "note": ""
  },
  {
   "property": "C15",
   "status": "partial",
   "theorems": [
    "C15_nanarg_partial",
    "C15_nanarg_behaviour",
    "C15_nanargmax_refuted",
    "C15_all_nan_refuted"
   ],
   "note": "idx starts at 0 instead of the first valid position: nanargmax({NaN,5,3}) = 0; all-NaN input reads past the end (findings). Exact behaviour proved in C15_nanarg_behaviour."
  },
  {
   "property": "C16",
   "status": "proved",
   "theorems": [
    "C16_argwhere",
    "C16_nonzero"
   ],
   "note": ""
  },
  {
   "property": "C17",
   "status": "partial",
   "theorems": [
    "C17_linspace",
    "C17_linspace_int_refuted"
   ],
   "note": "Exact rational arithmetic; C18 covers binary64."
  },
  {
   "property": "C18",
   "status": "partial",
   "theorems": [
    "C18_linspace_binary64_refuted"
   ],
   "note": "False in binary64: linspace(0,1,50) ends at 1-2^-53 (finding)."
  },
  {
   "property": "C19",
   "status": "partial",
   "theorems": [
    "C19_arange_sound_partial",
    "C19_arange_complete_up_to_last_partial",
    "C19_arange_whole_steps_partial",
    "C19_arange_missing_last_refuted",
    "C19_arange_int_partial",
    "C19_arange_int_missing_last_refuted",
    "C19_arange_zero_step_refuted"
   ],
   "note": "Proved: every element is in the interval and equals start + i*step, and all points up to the last whole step are there. Findings: the last point is dropped when (stop-start) is not a multiple of step; step 0 is not rejected."
  },
  {
   "property": "C20",
   "status": "proved",
   "theorems": [
    "C20_full_zeros_ones",
    "C20_logspace"
   ],
   "note": ""
  },
  {
   "property": "C21",
   "status": "partial",
   "theorems": [
    "C21_concatenate",
    "C21_concatenate_mixed_partial",
    "C21_concatenate_rvalue_mixed_refuted",
    "C21_flip",
    "C21_flip_argument_refuted"
   ],
   "note": "Proved for all overloads with equal element types and flip; findings: concatenate of an rvalue vector with another element type returns wrong content, flip of a named array changes it."
  },
  {
   "property": "C22",
   "status": "partial",
   "theorems": [
    "C22_subvector_partial",
    "C22_subvector_overrun_refuted"
   ],
   "note": "Proved when offset + len fits; finding: the length is clipped to the size without the offset, so subvector reads past the end."
  },
  {
   "property": "C23",
   "status": "proved",
   "theorems": [
    "C23_amax_amin_ptp",
    "C23_empty"
   ],
   "note": ""
  },
  {
   "property": "C24",
   "status": "partial",
   "theorems": [
    "C24_sorted_version_exists_unique",
    "C24_median",
    "C24_median_order_independent",
    "C24_median_filtered",
    "C24_nanmedian",
    "C24_median_integer_refuted"
   ],
   "note": "Holds for floating-point elements for every nth_element meeting the standard contract; integer elements truncate the mean of the two middle values and return 0 for empty (finding)."
  },
  {
   "property": "C25",
   "status": "partial",
   "theorems": [
    "C25_nanquantile_partial",
    "C25_nanquantile_ignores_nan",
    "C25_quantile_position_partial",
    "C25_percentile_iqr_partial",
    "C25_quantile_integer_modes",
    "C25_quantile_bounds",
    "C25_quantile_monotone_partial",
    "C25_quantile_ends",
    "C25_quantile_half_is_median",
    "C25_quantile_order_independent",
    "C25_iqr_rvalue",
    "C25_quantile_snap_refuted"
   ],
   "note": "A position just below an integer k is judged equal to k and then truncated to k-1 (finding, e.g. quantile(0..49, 1/49) in binary64); everything else proved, position/monotonicity for positions not subject to this snapping (always true for LOWER/HIGHER/NEAREST, and MIDPOINT below 2^52 elements)."
  },
  {
   "property": "C26",
   "status": "partial",
   "theorems": [
    "C26_mean",
    "C26_mean_filtered",
    "C26_mean_bounds",
    "C26_average",
    "C26_mean_integer_refuted"
   ],
   "note": "Integer element types use integer division (finding)."
  },
  {
   "property": "C27",
   "status": "proved",
   "theorems": [
    "C27_covariance",
    "C27_variance",
    "C27_covariance_complex",
    "C27_variance_complex"
   ],
   "note": ""
  },
  {
   "property": "C28",
   "status": "partial",
   "theorems": [
    "C28_nancov_partial",
    "C28_nanvar_partial",
    "C28_nanvar_block_of_nans_refuted",
    "C28_nancov_positions_refuted",
    "C28_nanvar_all_nan_refuted"
   ],
   "note": "Correct when no 32 consecutive elements are filtered out and both arrays have the same valid positions. Findings: a block of filtered-out elements poisons the result with NaN; different NaN positions use the wrong means; all-NaN gives inf."
  },
  {
   "property": "C29",
   "status": "partial",
   "theorems": [
    "C29_moment",
    "C29_nanmoment_partial",
    "C29_trim_filter_refuted"
   ],
   "note": "moment / nanmoment proved (order 2 of nanmoment under C28's density condition); with Trim filters the filter is re-applied to the powers of the deviations (finding)."
  },
  {
   "property": "C30",
   "status": "proved",
   "theorems": [
    "C30_cov_matrix",
    "C30_cov_matrix_hermitian"
   ],
   "note": ""
  },
  {
   "property": "C31",
   "status": "partial",
   "theorems": [
    "C31_histogram_counts_partial",
    "C31_histogram_all_inputs",
    "C31_order_independent",
    "C31_few_edges",
    "C31_infinity_refuted",
    "C31_above_last_refuted"
   ],
   "note": "Counts proved for all inputs (general bin search, real upper_bound halving); the closed last bin uses almost_equal, so +inf and values slightly above the last edge are counted (finding)."
  },
  {
   "property": "C32",
   "status": "partial",
   "theorems": [
    "C32_uniform_fast_path",
    "C32_uniform_binary64_refuted"
   ],
   "note": "Equal in exact arithmetic for every data array; in binary64 the index computation (x-b0)/step can fall in the neighbouring bin (finding)."
  },
  {
   "property": "C33",
   "status": "partial",
   "theorems": [
    "C33_density_partial",
    "C33_int_overflow_refuted",
    "C33_repeated_edge_refuted"
   ],
   "note": "Proved for strictly increasing edges and fewer than 2^31 counted elements; repeated edges give NaN and the int cast of the count overflows (findings)."
  },
  {
   "property": "C34",
   "status": "proved",
   "theorems": [
    "C34_almost_equal_refl_sym",
    "C34_almost_equal_array",
    "C34_almost_equal_finite",
    "C34_almost_equal_complex",
    "C34_array_equal"
   ],
   "note": "Double precision scalars/arrays, exact rational model of the comparison."
  },
  {
   "property": "C35",
   "status": "proved",
   "theorems": [
    "C35_lerp_any_monotone_rounding",
    "C35_lerp_binary64",
    "C35_lerp_affine",
    "C35_lerp_arrays"
   ],
   "note": ""
  },
  {
   "property": "C36",
   "status": "proved",
   "theorems": [
    "C36_polyval",
    "C36_polyval_array"
   ],
   "note": ""
  },
  {
   "property": "C37",
   "status": "partial",
   "theorems": [
    "C37_add_sub",
    "C37_mul",
    "C37_mulx",
    "C37_pow",
    "C37_class_operators_partial",
    "C37_empty_operand_refuted"
   ],
   "note": "The free functions are proved for non-empty vectors over every commutative ring; finding: an empty operand is undefined behaviour in the class operators."
  },
  {
   "property": "C38",
   "status": "partial",
   "theorems": [
    "C38_polydiv_partial",
    "C38_polydiv_scaled_partial",
    "C38_polydiv_nonmonic_refuted",
    "C38_empty_operand"
   ],
   "note": "Proved for monic divisors; for others the exact relation satisfied is proved; finding: non-monic divisors give a wrong remainder."
  },
  {
   "property": "C39",
   "status": "partial",
   "theorems": [
    "C39_polyint_antiderivative",
    "C39_iterates",
    "C39_polyint_overloads",
    "C39_polyder_descending_partial",
    "C39_polyder_refuted"
   ],
   "note": "polyint proved; finding: polyder differentiates in descending order while polyval uses ascending order."
  },
  {
   "property": "C40",
   "status": "partial",
   "theorems": [
    "C40_polytrim_partial",
    "C40_polytrim_nonnegative_partial",
    "C40_polytrim_negative_refuted"
   ],
   "note": "Proved for non-negative coefficients; finding: negative trailing coefficients are compared without absolute value and removed."
  },
  {
   "property": "C41",
   "status": "proved",
   "theorems": [
    "C41_polyfromroots",
    "C41_zeros"
   ],
   "note": ""
  },
  {
   "property": "C42",
   "status": "partial",
   "theorems": [
    "C42_polyvander_partial",
    "C42_degree_zero_refuted",
    "C42_companion_eigenvalues"
   ],
   "note": "Proved for deg >= 1; finding: deg 0 writes outside the matrix (UB). Companion matrix eigen relation proved."
  },
  {
   "property": "C43",
   "status": "proved",
   "theorems": [
    "C43_convolve",
    "C43_commutative",
    "C43_associative",
    "C43_bilinear",
    "C43_impulse",
    "C43_both_empty"
   ],
   "note": ""
  },
  {
   "property": "C44",
   "status": "proved",
   "theorems": [
    "C44_fftconvolve_complex",
    "C44_fftconvolve_real"
   ],
   "note": "Eigen's FFT is represented by the exact discrete Fourier transform"
  },
  {
   "property": "C45",
   "status": "proved",
   "theorems": [
    "C45_correlate"
   ],
   "note": ""
  },
  {
   "property": "C46",
   "status": "partial",
   "theorems": [
    "C46_shift_partial",
    "C46_ishift_partial",
    "C46_inverse_partial",
    "C46_fftshift_empty_refuted"
   ],
   "note": "for every non-empty array; the const overload of fftshift on an empty array dereferences the end iterator (undefined behaviour), so emptiness is excluded there"
  },
  {
   "property": "C47",
   "status": "proved",
   "theorems": [
    "C47_fftfreq",
    "C47_fftshift_increasing",
    "C47_rfftfreq",
    "C47_rejects"
   ],
   "note": ""
  },
  {
   "property": "C48",
   "status": "proved",
   "theorems": [
    "C48_next_fast_len"
   ],
   "note": ""
  },
  {
   "property": "C49",
   "status": "proved",
   "theorems": [
    "C49_zero_padding"
   ],
   "note": ""
  },
  {
   "property": "C50",
   "status": "proved",
   "theorems": [
    "C50_symmetric",
    "C50_get_window"
   ],
   "note": ""
  },
  {
   "property": "C51",
   "status": "partial",
   "theorems": [
    "C51_periodic_partial",
    "C51_tukey_refuted"
   ],
   "note": "holds for every family except tukey with alpha >= 1, which ignores the symmetry argument (refuted)"
  },
  {
   "property": "C52",
   "status": "partial",
   "theorems": [
    "C52_formulas_partial",
    "C52_range_partial",
    "C52_maximum_partial",
    "C52_get_window",
    "C52_tukey_even_partial",
    "C52_tukey_even_refuted",
    "C52_length_one_refuted"
   ],
   "note": "exact real arithmetic. All 18 families, length >= 2; refuted for tukey of even length and for length-1 windows (NaN). Flattop is not in [0,1] by design and is excluded from the range theorem"
  },
  {
   "property": "C53",
   "status": "proved",
   "theorems": [
    "C53_sums",
    "C53_enbw",
    "C53_boxcar"
   ],
   "note": ""
  },
  {
   "property": "C54",
   "status": "proved",
   "theorems": [
    "C54_schedule_independent",
    "C54_thread_pool",
    "C54_nthreads_irrelevant"
   ],
   "note": "Transition system of the main thread, workers and mutex; floating-point addition is not associative, so for binary64 the result may depend on the schedule by rounding (the theorem is for exact values)."
  },
  {
   "property": "C55",
   "status": "partial",
   "theorems": [
    "C55_configured_consistent",
    "C55_segments_partial",
    "C55_full_overlap_refuted",
    "C55_short_refuted",
    "C55_short_nan_refuted"
   ],
   "note": "Refuted: noverlap = nperseg is accepted and divides by zero; signals shorter than a segment give NaN (nseg 0) or violate a precondition. Proved for signals of at least one segment and noverlap < nperseg."
  },
  {
   "property": "C56",
   "status": "proved",
   "theorems": [
    "C56_onesided_power",
    "C56_parseval"
   ],
   "note": "Over exact real numbers."
  },
  {
   "property": "C57",
   "status": "partial",
   "theorems": [
    "C57_periodogram_refuted",
    "C57_periodogram_partial",
    "C57_periodogram_value"
   ],
   "note": "Refuted: periodogram leaves noverlap = 0 behind. Proved: nothing else changes."
  },
  {
   "property": "C58",
   "status": "partial",
   "theorems": [
    "C58_unit_impulse",
    "C58_sawtooth_partial",
    "C58_width_checked",
    "C58_sawtooth_negative_refuted"
   ],
   "note": "unit_impulse proved; sawtooth proved for t >= 0; finding: negative t leaves [-1, 1] or fails a require."
  },
  {
   "property": "C59",
   "status": "partial",
   "theorems": [
    "C59_string_fields",
    "C59_pieces_unique",
    "C59_fromstring",
    "C59_roundtrip",
    "C59_int_roundtrip_partial",
    "C59_int64_refuted",
    "C59_string_overload_refuted",
    "C59_string"
   ],
   "note": "Tokenising proved for every text; round trips for 32-bit ints; findings: 64-bit ints read with atoi overflow (UB), the std::string overload differs."
  },
  {
   "property": "C60",
   "status": "partial",
   "theorems": [
    "C60_rows",
    "C60_lines_unique",
    "C60_matrix_partial",
    "C60_tuples_partial",
    "C60_tuple_columns",
    "C60_no_rows_refuted",
    "C60_ragged_refuted",
    "C60_usecols_refuted",
    "C60_converters_refuted",
    "C60_filters_refuted"
   ],
   "note": "Rows, columns and tuples proved for rectangular files; findings: a file without rows divides by zero (UB), ragged rows abort, usecols that are not increasing lose columns, converters are looked up by position, filters drop cells instead of rows."
  },
  {
   "property": "C61",
   "status": "partial",
   "theorems": [
    "C61_last_wins_partial",
    "C61_sort",
    "C61_usecols_variadic_refuted",
    "C61_load_partial",
    "C61_load_tuple_partial"
   ],
   "note": "Setters proved to be independent and last-wins; finding: the variadic usecols does not replace the earlier selection."
  },
  {
   "property": "C62",
   "status": "partial",
   "theorems": [
    "C62_prime_factors_partial",
    "C62_overflow_refuted"
   ],
   "note": "Proved for 1 <= n < 3037000499^2 (checked z*z); refuted for primes above that: z*z overflows, 2^63-25 shown prime as a witness. The compile-time evaluation step limit of compilers is not modelled."
  },
  {
   "property": "C63",
   "status": "partial",
   "theorems": [
    "C63_is_prime_partial",
    "C63_is_prime_refuted",
    "C63_is_prime_overflow_refuted",
    "C63_next_prime_partial",
    "C63_prime_list_partial"
   ],
   "note": "is_prime/next_prime/prime_list right from 2 up to 3037000493^2; refuted below 2 (1, -1, -5, ... reported prime; next_prime(0) = 1) and near the end of the range (overflow)."
  },
  {
   "property": "C64",
   "status": "partial",
   "theorems": [
    "C64_exact_root",
    "C64_ct_root_integer_partial",
    "C64_ct_root_integer_refuted",
    "C64_ct_root_never_wrong",
    "C64_ct_root_real_partial",
    "C64_ct_root_binary64_refuted"
   ],
   "note": "is_exact_root/compute_root exact. Integer ct_root: exact characterisation of when it returns (then the floor) and when it recurses for ever. Reals: converges, exact if it stops. binary64: never returns for ct_root<3>(0.5), ct_root<3>(4), ct_root<4>(2); accuracy of the returned double in general not proved."
  },
  {
   "property": "C65",
   "status": "partial",
   "theorems": [
    "C65_exact",
    "C65_defined",
    "C65_canonical_partial",
    "C65_canonical_refuted",
    "C65_common"
   ],
   "note": "Value-exact for multiply/divide/power/root/common; the representation is canonical only for a fixed root (refuted in general: root<4> of 4 vs root<2> of 2). Compile-time overflow = compile error, not modelled."
  },
  {
   "property": "C66",
   "status": "partial",
   "theorems": [
    "C66_same_type_same_exponents",
    "C66_products",
    "C66_integer_exponents_partial",
    "C66_fractional_refuted"
   ],
   "note": "Sound for all types (same type implies same exponents), complete without roots or with integer exponents; finding: types with equal fractional exponents can differ."
  },
  {
   "property": "C67",
   "status": "partial",
   "theorems": [
    "C67_compiles",
    "C67_same_offset_partial",
    "C67_physical_iff",
    "C67_round_trip_iff",
    "C67_temperature_refuted",
    "C67_integer_value",
    "C67_integer_refuted",
    "C67_eval"
   ],
   "note": "Exact when offsets are equal, with an iff for when the physical value is kept; findings: temperature casts (Celsius/Fahrenheit) are wrong, integer casts truncate the factor to 0."
  },
  {
   "property": "C68",
   "status": "partial",
   "theorems": [
    "C68_unary_partial",
    "C68_unary_refuted",
    "C68_comparisons_partial",
    "C68_sum_partial",
    "C68_offset_sum",
    "C68_compound_partial",
    "C68_integer_sum",
    "C68_scalars_partial",
    "C68_comparison_refuted",
    "C68_division_refuted",
    "C68_compound_refuted"
   ],
   "note": "Proved for equal offsets and rational scales; findings: comparisons with offsets, division and compound assignment."
  },
  {
   "property": "C69",
   "status": "partial",
   "theorems": [
    "C69_families_partial",
    "C69_conductivity_refuted",
    "C69_units_partial",
    "C69_wrong_refuted",
    "C69_rounded_partial"
   ],
   "note": "Families: every derived quantity family has the SI dimension and the requested scale, except electrical and thermal conductivity (scale inverted, refuted). Units: 981 of the 1032 named units and literals equal an independent reference table exactly; the others are listed as wrong (refuted) or rounded (bounded)."
  },
  {
   "property": "C70",
   "status": "partial",
   "theorems": [
    "C70_infinity_vs_finite_refuted",
    "C70_infinity_partial"
   ],
   "note": "almost_equal(inf, x) is true for every finite non-zero x when rel_tol >= 1 (finding)."
  },
  {
   "property": "C71",
   "status": "partial",
   "theorems": [
    "C71_pow_nonnegative_partial",
    "C71_pow_negative_refuted"
   ],
   "note": "pow<n> ignores the sign of n: pow<-2>(x) = x^2 (finding)."
  },
  {
   "property": "C72",
   "status": "partial",
   "theorems": [
    "C72_histogram_n_counts_all_partial",
    "C72_histogram_n_binary64_refuted"
   ],
   "note": "Proved in exact arithmetic; in binary64 linspace's last point can be below the maximum by more than almost_equal tolerates and the maximum is dropped (finding, histogram({-6,9},11))."
  },
  {
   "property": "C73",
   "status": "proved",
   "theorems": [
    "C73_ifft_real",
    "C73_fft",
    "C73_real_input",
    "C73_ifft_inverts",
    "C73_irfft_inverts",
    "C73_parseval",
    "C73_empty_rejected"
   ],
   "note": "Eigen's FFT is represented by the exact discrete Fourier transform over an arbitrary field with a primitive root / over the complex numbers"
  },
  {
   "property": "C74",
   "status": "partial",
   "theorems": [
    "C74_chain_partial",
    "C74_chain_object_refuted",
    "C74_defaults",
    "C74_order_refuted"
   ],
   "note": "Refuted: setters return a copy, so chaining on a named object only applies the first one; order matters."
  },
  {
   "property": "C75",
   "status": "proved",
   "theorems": [
    "C75_coherence_real",
    "C75_coherence_complex"
   ],
   "note": "Over exact numbers, at bins where both signals have power (0/0 elsewhere)."
  },
  {
   "property": "C76",
   "status": "partial",
   "theorems": [
    "C76_conjugate_partial",
    "C76_real_gain_partial",
    "C76_complex_gain_refuted",
    "C76_delay_refuted"
   ],
   "note": "Refuted: the estimate is the complex conjugate (csd(y, x) instead of csd(x, y)). Exact for real gains."
  },
  {
   "property": "C77",
   "status": "proved",
   "theorems": [
    "C77_csd_self",
    "C77_csd_swap",
    "C77_zero_padding"
   ],
   "note": ""
  },
  {
   "property": "C78",
   "status": "proved",
   "theorems": [
    "C78_welch_real",
    "C78_welch_complex",
    "C78_csd_real",
    "C78_csd_complex"
   ],
   "note": ""
  },
  {
   "property": "C79",
   "status": "partial",
   "theorems": [
    "C79_physical_partial",
    "C79_compiles",
    "C79_offset_refuted"
   ],
   "note": "Proved for left operands without offset; finding: a left operand with an offset is accepted with a wrong physical value."
  },
  {
   "property": "C80",
   "status": "partial",
   "theorems": [
    "C80_integer_partial",
    "C80_floating_point",
    "C80_lossy_refuted"
   ],
   "note": "Floating-point rules proved; integer rule proved for equal offsets; finding: an implicit integer conversion that loses information."
  },
  {
   "property": "C81",
   "status": "partial",
   "theorems": [
    "C81_same_unit_partial",
    "C81_angles",
    "C81_polar",
    "C81_scale_one_partial",
    "C81_fma_partial",
    "C81_dimension_checked",
    "C81_scaled_refuted"
   ],
   "note": "Proved for units with scale 1 and no offset; finding: exp, log, asin of a percentage use the number (exp(100%) = exp(100)), fma adds numbers of different units."
  },
  {
   "property": "C82",
   "status": "proved",
   "theorems": [
    "C82_sweep_poly",
    "C82_empty"
   ],
   "note": ""
  },
  {
   "property": "C83",
   "status": "partial",
   "theorems": [
    "C83_save_load",
    "C83_ints",
    "C83_sizes",
    "C83_array",
    "C83_newline_refuted",
    "C83_saver"
   ],
   "note": "Proved for every element type whose parser reads what its printer writes, for int arrays exactly; refuted for a newline character other than '\\n' (TxtLoader has no such option: all but the first value are lost)."
  },
  {
   "property": "C84",
   "status": "partial",
   "theorems": [
    "C84_complex_text",
    "C84_complex_columns",
    "C84_other_texts_refuted",
    "C84_float_refuted",
    "C84_stream_format_refuted"
   ],
   "note": "Proved for complex<double> in tuples of arrays (values to the nearest 1e-6); refuted for complex<float> (undefined behaviour), for single arrays (operator<< writes (re,im), read back as nan) and for texts a-bj and a (uninitialised imaginary part)."
  },
  {
   "property": "C85",
   "status": "partial",
   "theorems": [
    "C85_double_text",
    "C85_array",
    "C85_columns",
    "C85_precision_refuted"
   ],
   "note": "savetxt writes six significant digits: relative error at most 5e-6, exact if six digits suffice (proved for single arrays and tuples); refuted in general (every integer in [1e6,1e7) not a multiple of ten). Doubles are exact rationals in the model."
  },
  {
   "property": "C86",
   "status": "proved",
   "theorems": [
    "C86_std_sem"
   ],
   "note": "Exact real arithmetic, real square root; unfiltered overloads (filtered variances: C28)."
  },
  {
   "property": "C87",
   "status": "proved",
   "theorems": [
    "C87_kurtosis",
    "C87_skew",
    "C87_constant_is_nan"
   ],
   "note": "Exact real arithmetic, real square root; unfiltered overloads."
  },
  {
   "property": "C88",
   "status": "partial",
   "theorems": [
    "C88_gmean",
    "C88_gmean_filtered",
    "C88_gmean_argument_refuted"
   ],
   "note": "gmean of a named non-const vector leaves it empty, of a named std::array overwrites it with the logarithms (finding); everything else proved over exact reals."
  },
  {
   "property": "C89",
   "status": "partial",
   "theorems": [
    "C89_tuples",
    "C89_pairs",
    "C89_reals_partial",
    "C89_complexes",
    "C89_ints_partial",
    "C89_ints_refuted",
    "C89_reals_refuted"
   ],
   "note": "Findings: zeros at the end of integers are blanked (100 prints as 1, 0 as nothing), also doubles with precision 0. Proved for reals with at least one decimal, complex numbers with any precision, integers not ending in 0."
  },
  {
   "property": "C90",
   "status": "partial",
   "theorems": [
    "C90_notation_partial",
    "C90_with_nan",
    "C90_refuted"
   ],
   "note": "Finding: a NaN before every non-zero finite element disables scientific notation, so [NaN, 1e-9] shows 0 where [1e-9, NaN] shows 1e-9. The exact rule with and without NaN is proved, stated with the letter e in the text."
  },
  {
   "property": "C91",
   "status": "partial",
   "theorems": [
    "C91_reals_partial",
    "C91_ints_partial",
    "C91_summary_refuted",
    "C91_summary_ints_partial"
   ],
   "note": "Proved for one-character separators without summary; finding: a summarised array can overrun the limit (by at most 3 characters plus two separators, proved for int arrays)."
  },
  {
   "property": "C92",
   "status": "partial",
   "theorems": [
    "C92_summary_partial",
    "C92_refuted",
    "C92_failure"
   ],
   "note": "Finding: threshold < size <= 2*edgeitems makes the require fail (C92_failure: that is the only failure, for every element type). Reals with at least one decimal."
  },
  {
   "property": "C93",
   "status": "partial",
   "theorems": [
    "C93_finite_partial",
    "C93_refuted"
   ],
   "note": "Finding: the formatter keeps a reference to a destroyed temporary PrintOptions; NaN and infinities read it. Finite numbers proved."
  },
  {
   "property": "C94",
   "status": "partial",
   "theorems": [
    "C94_best_fit_partial",
    "C94_exact",
    "C94_lengths",
    "C94_degree_zero_refuted"
   ],
   "note": "degree 0 is undefined behaviour (finding); exact arithmetic, the Eigen least squares solver is assumed correct"
  },
  {
   "property": "C95",
   "status": "proved",
   "theorems": [
    "C95_polyroots",
    "C95_polyroots_real"
   ],
   "note": ""
  },
  {
   "property": "C96",
   "status": "partial",
   "theorems": [
    "C96_through_partial",
    "C96_linear",
    "C96_array",
    "C96_int_argument_refuted",
    "C96_int_division_refuted",
    "C96_sizes_refuted"
   ],
   "note": "an argument of integer type is scaled with integer division, and sizes are checked after the fit (findings); the Eigen spline fit is assumed correct"
  },
  {
   "property": "C97",
   "status": "partial",
   "theorems": [
    "C97_draws_partial",
    "C97_prefix",
    "C97_range",
    "C97_normal",
    "C97_calls_refuted",
    "C97_normal_correlated_refuted"
   ],
   "note": "calls do not continue the sequence: the scalar functions always return the same number (finding)"
  },
  {
   "property": "C98",
   "status": "proved",
   "theorems": [
    "C98_get_field",
    "C98_get_field_type",
    "C98_unpack"
   ],
   "note": ""
  },
  {
   "property": "C99",
   "status": "partial",
   "theorems": [
    "C99_fmod",
    "C99_exact",
    "C99_arrays",
    "C99_integers_partial",
    "C99_scalar_integers_partial",
    "C99_zero_refuted",
    "C99_min_refuted"
   ],
   "note": "integer operands: undefined for a zero divisor and for the smallest int % -1 (finding)"
  },
  {
   "property": "C100",
   "status": "partial",
   "theorems": [
    "C100_drawing_partial",
    "C100_vector_refuted",
    "C100_fliers_refuted"
   ],
   "note": "proved for std::array of data sets; vector data is undefined behaviour and fliers are measured from the median instead of the box (findings)"
  },
  {
   "property": "C101",
   "status": "partial",
   "theorems": [
    "C101_capwidths_refuted",
    "C101_short_refuted",
    "C101_last_wins_partial"
   ],
   "note": "capwidths(double) changes the box widths; too short lists are read outside (findings)"
  },
  {
   "property": "C102",
   "status": "partial",
   "theorems": [
    "C102_history_partial",
    "C102_first_size",
    "C102_sizes_refuted",
    "C102_color_cycle"
   ],
   "note": "only the first curve's size is checked (finding)"
  },
  {
   "property": "C103",
   "status": "partial",
   "theorems": [
    "C103_psd",
    "C103_csd_refuted",
    "C103_csd_partial",
    "C103_cohere",
    "C103_settings"
   ],
   "note": "csd draws |Pxy|^2, so a signal with itself is drawn with twice the decibels of its psd (finding)"
  },
  {
   "property": "C104",
   "status": "partial",
   "theorems": [
    "C104_winvis_partial",
    "C104_peak",
    "C104_sizes",
    "C104_zero_sum_refuted",
    "C104_abscissa_refuted"
   ],
   "note": "for windows with a non-zero sum; samples are drawn at k n/(n-1) instead of k (finding)"
  },
  {
   "property": "C105",
   "status": "partial",
   "theorems": [
    "C105_history_partial",
    "C105_log_refuted",
    "C105_types_refuted",
    "C105_nobins_refuted"
   ],
   "note": "log(false) does not undo log(true), STEP and BARSTACKED draw nothing, no bins is undefined behaviour (findings)"
  },
  {
   "property": "C106",
   "status": "partial",
   "theorems": [
    "C106_sqrt_partial",
    "C106_rice_partial",
    "C106_sturges_partial",
    "C106_scott_partial",
    "C106_fd_partial",
    "C106_doane_partial",
    "C106_auto_partial",
    "C106_doane_sturges",
    "C106_degenerate",
    "C106_close_refuted",
    "C106_fd_refuted"
   ],
   "note": "real arithmetic; almost equal but different data, or an IQR tiny compared with the range, are undefined behaviour (findings)"
  },
  {
   "property": "C107",
   "status": "partial",
   "theorems": [
    "C107_elementwise_partial",
    "C107_temporary_refuted",
    "C107_lifetime_refuted",
    "C107_history_partial"
   ],
   "note": "a vectorized lambda expression refers to a destroyed temporary (finding)"
  },
  {
   "property": "C108",
   "status": "partial",
   "theorems": [
    "C108_physical_partial",
    "C108_dimension",
    "C108_norm_polar",
    "C108_no_overload_refuted"
   ],
   "note": "units without offset; complex number times real quantity has no overload (finding)"
  },
  {
   "property": "C109",
   "status": "partial",
   "theorems": [
    "C109_pi_e_partial",
    "C109_long_double_refuted",
    "C109_dimension",
    "C109_formulas_partial",
    "C109_float_refuted",
    "C109_codata"
   ],
   "note": "long double constants have double accuracy only; in float the magnetons underflow to 0 (findings); euler_gamma and apery_cst: C129"
  },
  {
   "property": "C110",
   "status": "partial",
   "theorems": [
    "C110_polynomials",
    "C110_calculus",
    "C110_containers",
    "C110_polypow_partial",
    "C110_polypow_refuted"
   ],
   "note": "polypow: the two overloads multiply in different orders; equal in every commutative ring, different in binary64 (refuted theorem), and an empty vector throws where the empty array does not compile."
  },
  {
   "property": "C111",
   "status": "partial",
   "theorems": [
    "C111_history_partial",
    "C111_compiles",
    "C111_integer_division",
    "C111_offset_refuted",
    "C111_almost_equal",
    "C111_almost_equal_refuted"
   ],
   "note": "Units with an offset: *= scales the number, not the physical value (refuted theorem). almost_equal uses an absolute tolerance of rel_tol*eps/2 base units, so e.g. one and two elementary charges are almost equal (refuted theorem)."
  },
  {
   "property": "C112",
   "status": "partial",
   "theorems": [
    "C112_expressions_partial",
    "C112_const",
    "C112_reuse_refuted"
   ],
   "note": "Proved for every expression in which an array that is given away occurs once, and in full for const arrays. Refuted otherwise: an operator with one array operand overwrites and empties a non-const named vector, so 2*a + a fails its size check."
  },
  {
   "property": "C113",
   "status": "partial",
   "theorems": [
    "C113_direct",
    "C113_swapped_partial",
    "C113_swapped_refuted"
   ],
   "note": "less_equal and greater forward their operands with each other's types: operands of different type or constness do not compile, and with arrays of bool a named operand is overwritten (refuted theorem)."
  },
  {
   "property": "C114",
   "status": "partial",
   "theorems": [
    "C114_means",
    "C114_nan_partial",
    "C114_trim_partial",
    "C114_refuted"
   ],
   "note": "Variance-like statistics need a selected element in every block of the recursion; 64 excluded elements in a row can turn the result into NaN (refuted theorem)."
  },
  {
   "property": "C115",
   "status": "partial",
   "theorems": [
    "C115_variance",
    "C115_variance_binary64",
    "C115_constant_refuted"
   ],
   "note": "Non-negativity and the root claims are proved for every monotone rounding. The last sentence (constant data) is false in binary64: ten times 0.1 has a mean below 0.1 and a variance above 0 (C115_constant_refuted)."
  },
  {
   "property": "C116",
   "status": "proved",
   "theorems": [
    "C116_sum_mean",
    "C116_cumsum",
    "C116_inner",
    "C116_prod",
    "C116_trapz",
    "C116_polyval",
    "C116_convolve"
   ],
   "note": "Finite numbers: overflow is not modelled. prod: formats without underflow. inner/convolve need no hypothesis on the operands."
  },
  {
   "property": "C117",
   "status": "partial",
   "theorems": [
    "C117_linspace",
    "C117_arange",
    "C117_iota_saturates_refuted",
    "C117_linspace_large_refuted",
    "C117_linspace_overflow_refuted",
    "C117_arange_reaches_stop_refuted"
   ],
   "note": "False parts, with proofs: beyond 2^prec+1 elements the indices saturate and the last elements repeat (C117_iota_saturates_refuted, C117_linspace_large_refuted); stop-start may overflow and then even the first element is NaN (C117_linspace_overflow_refuted); an element of arange can round to stop (C117_arange_reaches_stop_refuted)."
  },
  {
   "property": "C118",
   "status": "proved",
   "theorems": [
    "C118_quantile_between",
    "C118_quantile_ranks",
    "C118_quantile_monotone",
    "C118_quantile_ends",
    "C118_quantile_short",
    "C118_percentile_iqr",
    "C118_median"
   ],
   "note": ""
  },
  {
   "property": "C119",
   "status": "proved",
   "theorems": [
    "C119_variance",
    "C119_std"
   ],
   "note": ""
  },
  {
   "property": "C120",
   "status": "proved",
   "theorems": [
    "C120_accuracy",
    "C120_range",
    "C120_binary64",
    "C120_bartlett_negative_ends"
   ],
   "note": ""
  },
  {
   "property": "C121",
   "status": "partial",
   "theorems": [
    "C121_eval",
    "C121_cast",
    "C121_cast_same_offset",
    "C121_cast_monotone",
    "C121_cast_exact",
    "C121_cast_same_unit",
    "C121_round_trip",
    "C121_round_trip_refuted",
    "C121_comparisons",
    "C121_equal_close",
    "C121_equal_refuted",
    "C121_transitive_refuted",
    "C121_division",
    "C121_division_refuted",
    "C121_sum",
    "C121_sum_commutes",
    "C121_compound"
   ],
   "note": ""
  },
  {
   "property": "C122",
   "status": "proved",
   "theorems": [
    "C122_add",
    "C122_pow",
    "C122_pow_nonnegative",
    "C122_integral",
    "C122_derivative",
    "C122_fromroots",
    "C122_exact_integers",
    "C122_overloads_may_differ"
   ],
   "note": ""
  },
  {
   "property": "C123",
   "status": "partial",
   "theorems": [
    "C123_objects",
    "C123_values",
    "C123_equality",
    "C123_zero_difference_refuted"
   ],
   "note": "The arithmetic is proved for every program; the last clause is false: operator== distinguishes polynomials that differ only by zero coefficients of high powers, e.g. P - P from 0 (C123_zero_difference_refuted)."
  },
  {
   "property": "C124",
   "status": "partial",
   "theorems": [
    "C124_nonnegative",
    "C124_csd_self",
    "C124_csd_conjugate",
    "C124_psd_accuracy",
    "C124_csd_accuracy",
    "C124_transfer_accuracy",
    "C124_coherence_accuracy",
    "C124_coherence_self",
    "C124_transfer_self",
    "C124_schedules",
    "C124_same_result_refuted",
    "C124_coherence_above_one_refuted"
   ],
   "note": "The FFT of a segment is an arbitrary function of the window and the samples. The last sentence is false in binary64: with three threads welch gives two different results for the same signal (C124_same_result_refuted), and a coherence is 1 + 2^-52 (C124_coherence_above_one_refuted)."
  },
  {
   "property": "C125",
   "status": "proved",
   "theorems": [
    "C125_double",
    "C125_unambiguous",
    "C125_int",
    "C125_complex"
   ],
   "note": "std::atoi, std::atof and std::sscanf are modelled from the C standard (no hexadecimal floats, infinities, NaN texts); values are exact rationals. Undefined cases are part of the theorems: integers outside int, complex texts whose first number is not followed by + and a number."
  },
  {
   "property": "C126",
   "status": "partial",
   "theorems": [
    "C126_fftfreq",
    "C126_rfftfreq",
    "C126_exact",
    "C126_axis",
    "C126_rejects",
    "C126_fftfreq_large_refuted"
   ],
   "note": "Proved for n <= 2 * 2^prec + 1 (strict increase for n <= 2^prec). 'For every n' is false: beyond that std::iota, counting in the element type, gets stuck; all frequencies of fftfreq<float>(33554440) are equal (C126_fftfreq_large_refuted)."
  },
  {
   "property": "C127",
   "status": "proved",
   "theorems": [
    "C127_complex_tone",
    "C127_cross_tone",
    "C127_real_tone",
    "C127_offset",
    "C127_gain"
   ],
   "note": ""
  },
  {
   "property": "C128",
   "status": "proved",
   "theorems": [
    "C128_covariance",
    "C128_swap",
    "C128_swap_differs",
    "C128_matrix"
   ],
   "note": ""
  },
  {
   "property": "C129",
   "status": "partial",
   "theorems": [
    "C129_euler_gamma_partial",
    "C129_apery_partial",
    "C129_long_double_refuted"
   ],
   "note": "Proved for float and double; false for long double: the literals are doubles (finding)."
  },
  {
   "property": "C130",
   "status": "proved",
   "theorems": [
    "C130_join",
    "C130_bilinear",
    "C130_affine"
   ],
   "note": ""
  },
  {
   "property": "C131",
   "status": "partial",
   "theorems": [
    "C131_embedding",
    "C131_value",
    "C131_tfestimate_partial",
    "C131_tfestimate_refuted",
    "C131_coherence_refuted"
   ],
   "note": "csd and tfestimate(complex, real) agree with the all-complex calls. coherence of a mixed pair and tfestimate(real, complex) always fail a size check when the window has more than two samples: the cross-spectrum is two-sided, the spectrum of the real signal one-sided (finding, C131_coherence_refuted, C131_tfestimate_refuted)."
  },
  {
   "property": "C132",
   "status": "partial",
   "theorems": [
    "C132_s2",
    "C132_enbw",
    "C132_enbw_nonnegative",
    "C132_boxcar",
    "C132_one_bin_refuted",
    "C132_one_bin_partial"
   ],
   "note": "The error bounds and the boxcar value are proved. The lower bound of one bin holds up to the roundings only: enbw of three equal samples is below 1/3 (C132_one_bin_refuted)."
  },
  {
   "property": "C133",
   "status": "partial",
   "theorems": [
    "C133_uniform",
    "C133_on_edge_partial",
    "C133_on_edge_refuted",
    "C133_density"
   ],
   "note": "Proved for every precision: where a sample can be counted, the exact first and second edges, densities and their integral. 'A sample equal to an edge goes right of it' fails beyond the second edge with uniform bins: the double 0.3 in the bins 0, 0.1, 0.2, 0.3, 0.4 is counted in bin 2 (C133_on_edge_refuted), while the general search puts it in bin 3. Overflow and underflow are not modelled (unbounded exponent range)."
  },
  {
   "property": "C134",
   "status": "partial",
   "theorems": [
    "C134_gmean",
    "C134_gmean_single_refuted",
    "C134_average",
    "C134_average_between",
    "C134_average_equal_refuted"
   ],
   "note": "The error bounds are proved for every precision. The last sentence is false: whatever exp does, a correctly rounded log maps neighbouring large doubles to the same value, so gmean({x}) differs from x for some x (C134_gmean_single_refuted); average({a, a}, {a, a}) exceeds a for the double a = 0.1 (C134_average_equal_refuted). Overflow and underflow are not modelled."
  },
  {
   "property": "C135",
   "status": "partial",
   "theorems": [
    "C135_sawtooth_partial",
    "C135_default_width",
    "C135_range_refuted"
   ],
   "note": "The error bounds are proved for every precision and width, and the range for the rising part and for the default width 1. The range is false for widths just below 1: with width 1 - 2^-52 a time just below 2 pi<double> gives 2 (C135_range_refuted). Negative times, overflow and underflow are not covered."
  }
 ]
}