# A Rocq (Coq 8.16.1) model of SciCpp

## 1. Approach

The code is header-only C++17 templates; almost all of it is pure functions over `std::vector` / `std::array`.
The model (`rocq/theories`) is executable Gallina:

* a container is a `list`; sizes and indices are `nat` (or `Z` where the code does signed / wrapping arithmetic that matters);
* a template over the element type is a Gallina function over a type `T` and its operations;
  algebraic theorems quantify over every commutative ring / field (`ring_theory`, `field_theory` hypotheses closed into the statement);
* `double` is modelled, depending on what the property is about, by
  - an arbitrary type with arbitrary operations (claims that hold bit-for-bit, e.g. symmetry of windows, permutation claims),
  - `fl`: exact rationals (`Qc`) extended with `+inf`, `-inf` and `NaN`, IEEE rules for the special values, **no rounding and no signed zero** (statistics, nan-functions),
  - `R` (trigonometric windows, error bounds),
  - Flocq `binary64` / arbitrary rounding where the claim is about rounding;
* undefined behaviour and failed `scicpp_require` are distinct outcomes (`Base.outcome`): `Ok v`, `RequireFail`
  (assert in debug builds, `__builtin_unreachable` in release), `UB` (unchecked C++ undefined behaviour), `Throw`.
* loops become folds/structural recursion; loops with data-dependent exit use fuel with a separate out-of-fuel result
  which the theorem excludes.

Layout: `Base*.v` (outcomes, numbers), one model file per header (definitions with `file:lines` citations), `Spec*.v` (small independent
specifications), `*Facts.v`, `*Proofs.v` (lemmas), `Prop*.v` (only statements, `exact`, `Print Assumptions`, non-vacuity examples).

## 2. Naming

`…_partial`: part of the English property, what is missing is said next to it. `…_refuted`: the faithful model violates the property;
the theorem exhibits a witness. A refuted property is reported as `partial` in MANIFEST.json together with the part that does hold.

## 3. Plan per property

(`Plan` is what is modelled and how it is proved; MANIFEST.json has the outcome and a note per property)

| Id | Model file(s) | Plan |
|---|---|---|
| C01-C04 | Functional, Maths | lists and arbitrary operations, structural induction; value categories are an explicit argument, the post-state of the argument is part of the result |
| C03, C07, C25, C34, C35; C68, C73, C121; C59, C89 | PropExtra; PropExtra2; PropExtra3 | further API functions of these properties: predefined filters, cumsum/cumprod/nancum*, nanquantile, array_equal and complex almost_equal, lerp on arrays; unary -, ifft of reals, eval; string fields, tuples and pairs |
| C05 | Numeric | recursion on `size` as in the code (split at size/2), well-founded; monoid law |
| C06 | Numeric, PairwiseError | same recursion over `R` with any rounded addition satisfying the standard model |
| C07-C11 | Numeric, Functional | list induction, ring algebra; NaN-aware versions on `fl` |
| C12 | Functional | `fl` comparisons, NaN included (`<=` is `!(>)`) |
| C13-C16 | Numeric, Functional, RangeManips | index-level specifications |
| C17-C20 | RangeManips | exact rationals; binary64 by computation for the refutations |
| C21-C22 | RangeManips | lists; out-of-bounds access is `UB` |
| C23-C30 | Stats, StatsVar | `fl`; nth_element is any relation satisfying the standard's postcondition; blocked covariance by the update formula |
| C31-C33, C72 | Histogram | `Qc` data and edges, counting specification; primitive doubles for the refutations |
| C34-C35, C70 | Equal | `fl`, primitive doubles |
| C36-C43, C45 | Polynomial, PolyExtra, PolyReal | arbitrary commutative ring/field; Eigen's decompositions (companion matrix eigenvalues, lstsq) are not modelled |
| C44, C73 | Fft, FftConv, FftConvFacts | Eigen's FFT is the textbook DFT over a ring with a primitive root; Bluestein-like padding and the packing of the code are modelled |
| C46-C49 | Convolve, Fft, HammingFacts | lists, `nat` arithmetic; Hamming generator as a state machine with invariant |
| C50-C53 | Windows, WindowsReal | arbitrary sample generator for symmetry; `R` for formulas |
| C54 | SpectralConc | small-step interleaving semantics of worker threads with a mutex, all schedules |
| C55-C57, C74-C78 | Spectral, SpectralSpec | integer arithmetic of the segments; configuration object as state; welch/csd over an ordered field of complex numbers |
| C58, C82 | Waveforms | `R` |
| C59-C61, C83-C85 | Io, IoNumber, IoPrint, IoSpec | text is a list of `ascii`, a file an `option text`; exact rationals, `%g`, `%f` and `%e` printing defined digit by digit; atof/atoi/sscanf defined on text |
| C62-C65, C71 | Arith, ArithNewton | `Z`; trial division, Newton iteration with fuel and termination theorems |
| C66-C69, C79-C81 | Quantity, QuantityMaths, UnitsTable (generated by tools/units.py from units.hpp), UnitsRef (independent reference values) | template arguments (prime-encoded dimension, root_ratio scale, offset) as values; `None` = does not compile |
| C86-C88 | StatsReal | `R` (sqrt, exp, ln); NaN results are a parameter |
| C94-C96 | PolyFit | `R` and complex numbers; the Eigen solvers (least squares, eigenvalues, spline fit) are parameters with a stated contract |
| C97-C99 | Misc, FmodExact | engine and distribution as abstract state machines; tuples as dependent products over type codes; `Z`, `R` and (exactness) Flocq formats |
| C100-C102 | Plots | a drawing is the list of marks (paths, curves, boxes) the code passes to sciplot; objects with a history of setter calls |
| C103-C105 | Plots2 | reals with infinities and NaN (`ext`); over the models of welch, csd, coherence, rfft and histogram; Cauchy-Schwarz for the peak at frequency 0 |
| C106 | Binning | real arithmetic; bin count = least natural number satisfying the rule, via ceil lemmas; UB when the count does not fit std::size_t |
| C107 | Vectorize | a store of callables with lifetimes; the closure holds a reference |
| C108 | QuantityCplx | complex values over the unit-type model of C75-C81; algebra with `field` |
| C109 | Constants | reals with Flocq rounding to the three formats; rational enclosures of pi (Machin) and e (series); relative errors composed as powers of 1 - u |
| C110 | FixedSize | the array overloads as bounds-checked loops over value-initialised buffers, compared element by element with the vector models; no algebraic law assumed (polyder: commutative product; polypow: commutative ring, with a binary64 counterexample) |
| C111 | QuantityState | statements on a quantity variable as a step function, histories by induction against the effect on the physical value; almost_equal as a decision on the physical values |
| C112 | ArrayExpr | expressions as syntax trees over a store of named arrays, evaluated with explicit value categories, in-place updates, moves and an arbitrary operand order; induction over the tree against the scalar expression |
| C113 | CompareArgs | a call as argument descriptors (container type, const, value category) plus contents; std::forward as a partial function; result, buffer reuse and non-compilation as outcomes |
| C114 | StatsNan | the generic moment code instantiated with reals and NaN (option R); induction over the pairwise recursion against the textbook formulas on the selected numbers |
| C115 | FloatStats, PropFloatStats | the generic variance code run with an arbitrary monotone rounding that keeps 0 (option R, None = not finite); the two means of the pairwise recursion stay equal, so every product is a square or a scaled square; instance for binary64; constant data: counterexample computed with primitive floats |
| C116 | FloatArith, FloatArithFacts, FloatConvFacts | the generic code run with rounded operations in an arbitrary binary format (Flocq FLT: any precision, smallest exponent, tie rule); induction over the pairwise recursion, Horner scheme and convolution loops; prod in FLX (no underflow) |
| C117 | FloatArith, FloatRangeFacts | std::iota by repeated rounded increments, linspace and arange with rounded operations; monotonicity of rounding for order, forward error analysis for accuracy; saturation of the indices at 2^prec by computing the tie |
| C118 | FloatQuantile, FloatQuantileFacts | median, quantile, percentile, iqr with every arithmetic operation rounded (fl_ operations of FloatArith), nth_element any function with its contract, almost_equal any reflexive test; the rounded result as a function of the sorted data (uniqueness of sorting), position between floor and ceil by monotonicity of rounding, rounded lerp between its ends (EqualFacts.v) |
| C119 | FloatVar, FloatVarFacts | the blocked covariance code run with rounded operations on one data set (no underflow: FLX format); invariant on the square root of the scatter through the pairwise tree: relative error plus K sqrt(n) M, combined with Minkowski's inequality in three dimensions |
| C120 | FloatWindows.v (Windows.v with rounded operations), FloatWindowsFacts.v, PropFloatWindows.v | Forward error calculus: x approximates X of magnitude A with k roundings and an inherited error E; closed under +, *, rounding and 1-Lipschitz library functions; purely relative factors (in both directions) for angles, divisions and the Gaussian exponent. Mirrored half by the symmetry theorem of C50. Kaiser, general Gaussian and Tukey are not analysed. |
| C121 | FloatUnits.v, FloatUnitsFacts.v, PropFloatUnits.v | Quantity.v instantiated with rounded operations (Flocq FLX, any precision and tie-breaking); conversion factor and offset are shown to be three roundings from the exact ones, then relative/absolute error calculus of FloatWindowsFacts.v; monotonicity of rounding gives the comparison theorems; counterexamples computed exactly at 53 bits |
| C122 | FloatPoly, FloatPolyFacts, PropFloatPoly | the generic code of Polynomial.v instantiated with rounded operations; coefficientwise error invariant (`near`) through convolution, the repeated-squaring loop and the root loop; relative errors for derivatives and integrals; exactness on integers by bounding every intermediate by the product of the coefficient sums; disagreement of the two overloads by a binary64 computation |
| C123 | PolyObjects, PolyObjectsFacts | programs over a store of Polynomial objects, loops read the right-hand side from the store (aliasing); induction over the program against a coefficient and a function semantics; finding: P - P keeps its degree and differs from the zero polynomial |
| C124 | FloatSpectral, FloatSpectralFacts, FloatSpectralErr, SchedFacts, FloatSpectralSelf, FloatSpectralRatio | spectra with every operation after the FFT rounded, over the thread model of SpectralConc; simulation between csd and welch, between csd(x,y) and csd(y,x); error calculus over the order of additions (relative to the terms for csd and tfestimate, absolute for the coherence by Cauchy-Schwarz); with n threads every order is reachable; findings: the result depends on the schedule, the coherence can exceed 1 |
| C125 | IoNumber, IoSyntax | a grammar of decimal numbers as inductive predicates, given what follows (longest match); the scanners of IoNumber succeed exactly on it, with its value |
| C126 | Fft (fftfreq, rfftfreq with rounded operations), PropFloatFreq | std::iota exact up to 2^prec by induction; relative-error calculus; consecutive harmonics stay distinct by the u/(1+u) bound; finding: above 2^(prec+1) samples the counter can stay at its start |
| C127 | Spectral, SpectralSpec, ToneFacts | from the closed form of welch and csd (C78): the bins are linear in the segment, a tone is an eigenvector up to a phase, orthogonality of the roots of unity removes its mean and, for equal weights, its leakage |
| C128 | FloatVar, FloatCovFacts | invariant through the pairwise tree: |c - C| <= (G-1)(s+p)(t+q) + sq + pt + pq; each bilinear term of the two halves and of the correction combines by Cauchy-Schwarz; the counterexample to symmetry is computed with Flocq's rounding |
| C129 | Constants, MathConstFacts | H_n - ln(n+1/2) and the partial sums of 1/n^3, corrected by 3 or 4 terms of the midpoint Euler-Maclaurin expansion, are monotone (a polynomial inequality after bounding ln((1+u)/(1-u)) by its partial sums), so they bracket the limits at every n; n = 121 gives 18 digits, more than the distance to the rounding boundaries |
| C130 | Stats, StatsVar, StatsOrder, StatsQuantile, RescaleFacts | the sum of products of deviations is a difference of plain sums, which add and scale; the sorted version of k x + c is the mapped (k < 0: reversed) sorted version, and the position of a quantile does not depend on the data |
| C131 | Spectral, SpectralMixed, SpectralMixedFacts | the spectrum of a detrended windowed real segment equals that of its embedding, for every outcome; so every relation of the mixed call is that of the complex one; the bin counts N and N/2+1 differ for N > 2 |
| C132 | Windows with rounded operations, PropFloatEnbw | relative-error calculus for the loop of s2 (all terms positive); the pairwise sum's error divided by the sum is t, the quotient then lies within (1+u)^(n+4)/(1-t)^2; Cauchy-Schwarz for the lower bound; finding: one bin can be missed by a rounding |
| C133 | Histogram with rounded operations, PropFloatHist | the computed position is within three relative errors of (x - first)/step and monotone in x; the loop bumps one slot per sample; densities by the relative-error calculus; finding: with uniform bins a sample equal to an edge can be counted left of it |
| C134 | r_gmean (tied to StatsReal.gmean by a lemma) and Stats.average with rounded operations, PropFloatMeans | error of the mean of the logarithms, then monotonicity of exp; quotient of an absolute error (inner) by a relative one (pairwise sum of non-negative weights, induction over the tree); findings: pigeonhole on the rounded logarithms of four neighbouring doubles, 0.1 weighted with 0.1 |
| C135 | r_sawtooth: Waveforms.sawtooth with every operation rounded except fmod (exact by C99), tied to the model of C58 by a lemma, PropFloatSaw | the threshold and period round exactly up to a doubling; fmod removes whole periods; acc/rel error calculi on the two branches; range by monotonicity of rounding; finding: width 1 - 2^-52, evaluated exactly |
| C89-C93 | Print, PrintSpec | text as above; doubles without signed zero |

Modelling decisions that matter for reading the statements:

* C44/C73: Fermat's little theorem and primitive roots are proved in the development (Fermat.v); the DFT theorems hold for every
  commutative ring with a suitable root of unity, and are instantiated with the complex numbers (CplxR.v).
* C54: the thread pool is a transition system (one step = one atomic action of one thread: take the lock, read, add, write, release, push);
  theorems quantify over all finite schedules.
* Io: a file is a value; the operating system (permissions, partial writes) is not modelled.
* Eigen (`lstsq`, eigenvalues, FFT) and libstdc++ (`<random>`, `std::sort`, `std::nth_element`, `std::async`) enter only through the
  postconditions the standard or the library documents.

Not modelled: what sciplot/gnuplot render from the marks of plots/ (the marks themselves are modelled),  performance, `io` of binary files, compile-time errors other than those of units, of the containers of C113 and of a few
static_assert.

## 4. Trusted base

* the Coq 8.16.1 kernel, with `vm_compute` (used in examples, refutation witnesses and finite tables);
* the standard library: its axioms are those of the classical real numbers (`ClassicalDedekindReals.sig_forall_dec`, `sig_not_dec`),
  `functional_extensionality_dep`, `Classical_Prop.classic` (through Coquelicot or Flocq lemmas, or the library's trigonometry), and the primitives
  and specifications of `PrimInt63`/`PrimFloat` where a theorem is about IEEE doubles (mostly refutation witnesses evaluated by the kernel);
  no other library's axioms, none of our own. Section 5 lists them per theorem;
* the reading of the C++: every definition cites the lines it models; simplifications are said in the comment. The theorems were tested
  against edited models (seeded/LOG.jsonl);
* the specifications: `Spec.v`, `IoSpec.v`, `SpectralSpec.v`, `UnitsSpec.v`, `UnitsRef.v`, `PrintSpec.v` and the definitions at the head of the `Prop*.v` files.

## 5. Print Assumptions for each theorem

573 theorems; generated by tools/assume.py from the compiled development. Every axiom below is the standard library's.

### no axioms (closed under the global context)

C01_map_binary, C01_map_binary_overloads, C01_map_unary, C01_map_unary_same_type, C02_map_argument_unchanged_partial, C02_map_nonconst_lvalue_refuted, C02_map_nonconst_vector_lost, C03_filter_exact, C03_filter_idempotent, C03_predefined, C04_filter_reduce_fold, C05_pairwise_code_equation, C05_pairwise_is_sequential, C07_argument_consumed, C07_cumsum_cumprod, C07_cumulative, C07_cumulative_unfiltered, C07_nancum, C07_overloads, C08_finite_sum, C08_nan_propagates, C08_nansum_nanprod, C08_sum_prod_ring, C09_array_overload, C09_diff_binomial, C09_diff_cumsum, C09_negative_order, C100_drawing_partial, C100_fliers_refuted, C100_vector_refuted, C101_capwidths_refuted, C101_last_wins_partial, C101_short_refuted, C102_color_cycle, C102_first_size, C102_history_partial, C102_sizes_refuted, C103_settings, C105_log_refuted, C105_nobins_refuted, C105_types_refuted, C107_elementwise_partial, C107_history_partial, C107_lifetime_refuted, C107_temporary_refuted, C10_trapz_additive, C10_trapz_affine, C10_trapz_partial, C10_trapz_single_sample_refuted, C110_calculus, C110_containers, C110_polynomials, C110_polypow_partial, C111_integer_division, C112_const, C112_expressions_partial, C112_reuse_refuted, C113_direct, C113_swapped_partial, C113_swapped_refuted, C11_inner, C11_inner_bilinear, C11_vdot_hermitian, C11_vdot_self_real, C123_equality, C123_objects, C123_values, C123_zero_difference_refuted, C125_complex, C125_double, C125_int, C125_unambiguous, C12_array_comparisons_partial, C12_comparisons_partial, C12_le_ge_nan_refuted, C130_affine, C130_bilinear, C130_join, C13_mask, C14_argmax_argmin, C14_doubles_without_nan_qualify, C15_all_nan_refuted, C15_nanarg_behaviour, C15_nanarg_partial, C15_nanargmax_refuted, C16_argwhere, C16_nonzero, C17_linspace, C17_linspace_int_refuted, C19_arange_complete_up_to_last_partial, C19_arange_int_missing_last_refuted, C19_arange_int_partial, C19_arange_missing_last_refuted, C19_arange_sound_partial, C19_arange_whole_steps_partial, C19_arange_zero_step_refuted, C20_full_zeros_ones, C20_logspace, C21_concatenate, C21_concatenate_mixed_partial, C21_concatenate_rvalue_mixed_refuted, C21_flip, C21_flip_argument_refuted, C22_subvector_overrun_refuted, C22_subvector_partial, C23_amax_amin_ptp, C23_empty, C24_median, C24_median_filtered, C24_median_integer_refuted, C24_median_order_independent, C24_nanmedian, C24_sorted_version_exists_unique, C25_iqr_rvalue, C25_nanquantile_ignores_nan, C25_nanquantile_partial, C25_percentile_iqr_partial, C25_quantile_bounds, C25_quantile_ends, C25_quantile_half_is_median, C25_quantile_integer_modes, C25_quantile_monotone_partial, C25_quantile_order_independent, C25_quantile_position_partial, C26_average, C26_mean, C26_mean_bounds, C26_mean_filtered, C26_mean_integer_refuted, C27_covariance, C27_covariance_complex, C27_variance, C27_variance_complex, C28_nancov_partial, C28_nancov_positions_refuted, C28_nanvar_all_nan_refuted, C28_nanvar_block_of_nans_refuted, C28_nanvar_partial, C29_moment, C29_nanmoment_partial, C29_trim_filter_refuted, C30_cov_matrix, C30_cov_matrix_hermitian, C31_above_last_refuted, C31_few_edges, C31_histogram_all_inputs, C31_histogram_counts_partial, C31_infinity_refuted, C31_order_independent, C32_uniform_fast_path, C33_density_partial, C33_int_overflow_refuted, C33_repeated_edge_refuted, C34_almost_equal_array, C34_almost_equal_complex, C34_almost_equal_finite, C34_almost_equal_refl_sym, C34_array_equal, C35_lerp_affine, C35_lerp_arrays, C36_polyval, C36_polyval_array, C37_add_sub, C37_class_operators_partial, C37_empty_operand_refuted, C37_mul, C37_mulx, C37_pow, C38_empty_operand, C38_polydiv_nonmonic_refuted, C38_polydiv_partial, C38_polydiv_scaled_partial, C39_polyint_overloads, C40_polytrim_negative_refuted, C40_polytrim_nonnegative_partial, C40_polytrim_partial, C41_polyfromroots, C41_zeros, C42_companion_eigenvalues, C42_degree_zero_refuted, C42_polyvander_partial, C43_associative, C43_bilinear, C43_both_empty, C43_commutative, C43_convolve, C43_impulse, C45_correlate, C46_fftshift_empty_refuted, C46_inverse_partial, C46_ishift_partial, C46_shift_partial, C47_fftfreq, C47_fftshift_increasing, C47_rejects, C47_rfftfreq, C48_next_fast_len, C49_zero_padding, C50_get_window, C50_symmetric, C51_periodic_partial, C52_get_window, C52_length_one_refuted, C54_schedule_independent, C54_thread_pool, C58_unit_impulse, C59_fromstring, C59_int64_refuted, C59_int_roundtrip_partial, C59_pieces_unique, C59_roundtrip, C59_string, C59_string_fields, C59_string_overload_refuted, C60_converters_refuted, C60_filters_refuted, C60_lines_unique, C60_matrix_partial, C60_no_rows_refuted, C60_ragged_refuted, C60_rows, C60_tuple_columns, C60_tuples_partial, C60_usecols_refuted, C61_last_wins_partial, C61_load_partial, C61_load_tuple_partial, C61_sort, C61_usecols_variadic_refuted, C62_overflow_refuted, C62_prime_factors_partial, C63_is_prime_overflow_refuted, C63_is_prime_partial, C63_is_prime_refuted, C63_next_prime_partial, C63_prime_list_partial, C64_ct_root_integer_partial, C64_ct_root_integer_refuted, C64_ct_root_never_wrong, C64_exact_root, C65_defined, C66_fractional_refuted, C70_infinity_partial, C70_infinity_vs_finite_refuted, C71_pow_negative_refuted, C71_pow_nonnegative_partial, C72_histogram_n_counts_all_partial, C79_compiles, C80_floating_point, C82_empty, C83_array, C83_ints, C83_newline_refuted, C83_save_load, C83_saver, C83_sizes, C84_complex_columns, C84_complex_text, C84_float_refuted, C84_other_texts_refuted, C84_stream_format_refuted, C85_array, C85_columns, C85_double_text, C85_precision_refuted, C87_constant_is_nan, C89_complexes, C89_ints_partial, C89_ints_refuted, C89_pairs, C89_reals_partial, C89_reals_refuted, C89_tuples, C90_notation_partial, C90_refuted, C90_with_nan, C91_ints_partial, C91_reals_partial, C91_summary_ints_partial, C91_summary_refuted, C92_failure, C92_refuted, C92_summary_partial, C93_finite_partial, C93_refuted, C94_degree_zero_refuted, C97_calls_refuted, C97_draws_partial, C97_normal, C97_prefix, C97_range, C98_get_field, C98_get_field_type, C98_unpack, C99_integers_partial, C99_min_refuted, C99_scalar_integers_partial, C99_zero_refuted.

### `ClassicalDedekindReals.sig_forall_dec`

C105_history_partial, C74_chain_object_refuted, C96_array.

### `ClassicalDedekindReals.sig_forall_dec`, `FunctionalExtensionality.functional_extensionality_dep`

C06_pairwise_sum_error, C108_dimension, C108_no_overload_refuted, C114_means, C118_quantile_short, C124_csd_conjugate, C124_csd_self, C124_nonnegative, C126_rejects, C35_lerp_any_monotone_rounding, C39_iterates, C39_polyder_descending_partial, C39_polyder_refuted, C39_polyint_antiderivative, C53_enbw, C53_sums, C64_ct_root_real_partial, C68_division_refuted, C74_chain_partial, C94_best_fit_partial, C94_exact, C94_lengths, C95_polyroots, C95_polyroots_real, C96_int_argument_refuted, C96_int_division_refuted, C96_linear, C96_sizes_refuted, C96_through_partial, C97_normal_correlated_refuted, C99_arrays, C99_fmod.

### `ClassicalDedekindReals.sig_forall_dec`, `ClassicalDedekindReals.sig_not_dec`, `FunctionalExtensionality.functional_extensionality_dep`

C103_cohere, C104_peak, C114_nan_partial, C114_refuted, C114_trim_partial, C115_variance, C131_embedding, C44_fftconvolve_complex, C44_fftconvolve_real, C57_periodogram_partial, C58_sawtooth_negative_refuted, C58_sawtooth_partial, C58_width_checked, C73_empty_rejected, C73_fft, C73_ifft_inverts, C73_ifft_real, C73_irfft_inverts, C73_parseval, C73_real_input, C77_zero_padding, C82_sweep_poly, C86_std_sem, C87_kurtosis, C87_skew.

### `ClassicalDedekindReals.sig_forall_dec`, `ClassicalDedekindReals.sig_not_dec`, `Classical_Prop.classic`, `FunctionalExtensionality.functional_extensionality_dep`

C06_pairwise_sum_error_binary64, C103_csd_partial, C103_csd_refuted, C103_psd, C104_abscissa_refuted, C104_sizes, C104_winvis_partial, C104_zero_sum_refuted, C106_auto_partial, C106_close_refuted, C106_degenerate, C106_doane_partial, C106_doane_sturges, C106_fd_partial, C106_fd_refuted, C106_rice_partial, C106_scott_partial, C106_sqrt_partial, C106_sturges_partial, C108_norm_polar, C108_physical_partial, C109_codata, C109_dimension, C109_float_refuted, C109_formulas_partial, C109_long_double_refuted, C109_pi_e_partial, C111_almost_equal, C111_almost_equal_refuted, C111_compiles, C111_history_partial, C111_offset_refuted, C115_variance_binary64, C116_convolve, C116_cumsum, C116_inner, C116_polyval, C116_prod, C116_sum_mean, C116_trapz, C117_arange, C117_arange_reaches_stop_refuted, C117_iota_saturates_refuted, C117_linspace, C117_linspace_large_refuted, C118_median, C118_percentile_iqr, C118_quantile_between, C118_quantile_ends, C118_quantile_monotone, C118_quantile_ranks, C119_std, C119_variance, C120_accuracy, C120_bartlett_negative_ends, C120_binary64, C120_range, C121_cast, C121_cast_exact, C121_cast_monotone, C121_cast_same_offset, C121_cast_same_unit, C121_comparisons, C121_compound, C121_division, C121_division_refuted, C121_equal_close, C121_equal_refuted, C121_eval, C121_round_trip, C121_round_trip_refuted, C121_sum, C121_sum_commutes, C121_transitive_refuted, C122_add, C122_derivative, C122_exact_integers, C122_fromroots, C122_integral, C122_overloads_may_differ, C122_pow, C122_pow_nonnegative, C124_coherence_above_one_refuted, C124_coherence_accuracy, C124_coherence_self, C124_csd_accuracy, C124_psd_accuracy, C124_same_result_refuted, C124_schedules, C124_transfer_accuracy, C124_transfer_self, C126_axis, C126_exact, C126_fftfreq, C126_fftfreq_large_refuted, C126_rfftfreq, C127_complex_tone, C127_cross_tone, C127_gain, C127_offset, C127_real_tone, C128_covariance, C128_matrix, C128_swap, C128_swap_differs, C129_apery_partial, C129_euler_gamma_partial, C129_long_double_refuted, C131_coherence_refuted, C131_tfestimate_partial, C131_tfestimate_refuted, C131_value, C132_boxcar, C132_enbw, C132_enbw_nonnegative, C132_one_bin_partial, C132_one_bin_refuted, C132_s2, C133_density, C133_on_edge_partial, C133_on_edge_refuted, C133_uniform, C134_average, C134_average_between, C134_average_equal_refuted, C134_gmean, C134_gmean_single_refuted, C135_default_width, C135_range_refuted, C135_sawtooth_partial, C35_lerp_binary64, C51_tukey_refuted, C52_formulas_partial, C52_maximum_partial, C52_range_partial, C52_tukey_even_partial, C52_tukey_even_refuted, C53_boxcar, C54_nthreads_irrelevant, C55_configured_consistent, C55_full_overlap_refuted, C55_segments_partial, C55_short_refuted, C56_onesided_power, C56_parseval, C57_periodogram_refuted, C57_periodogram_value, C65_canonical_partial, C65_canonical_refuted, C65_common, C65_exact, C66_integer_exponents_partial, C66_products, C66_same_type_same_exponents, C67_compiles, C67_eval, C67_integer_refuted, C67_integer_value, C67_physical_iff, C67_round_trip_iff, C67_same_offset_partial, C67_temperature_refuted, C68_comparison_refuted, C68_comparisons_partial, C68_compound_partial, C68_compound_refuted, C68_integer_sum, C68_offset_sum, C68_scalars_partial, C68_sum_partial, C68_unary_partial, C68_unary_refuted, C69_conductivity_refuted, C69_families_partial, C69_rounded_partial, C69_units_partial, C69_wrong_refuted, C74_defaults, C74_order_refuted, C75_coherence_complex, C75_coherence_real, C76_complex_gain_refuted, C76_conjugate_partial, C76_delay_refuted, C76_real_gain_partial, C77_csd_self, C77_csd_swap, C78_csd_complex, C78_csd_real, C78_welch_complex, C78_welch_real, C79_offset_refuted, C79_physical_partial, C80_integer_partial, C80_lossy_refuted, C81_angles, C81_dimension_checked, C81_fma_partial, C81_polar, C81_same_unit_partial, C81_scale_one_partial, C81_scaled_refuted, C88_gmean, C88_gmean_argument_refuted, C88_gmean_filtered, C99_exact.

### `PrimFloat.add`, `PrimFloat.eqb`, `PrimFloat.float`, `PrimFloat.mul`

C110_polypow_refuted.

### `PrimFloat.add`, `PrimFloat.div`, `PrimFloat.float`, `PrimFloat.of_uint63`, `PrimInt63.int`, `PrimInt63.lor`, `PrimInt63.lsl`, `PrimInt63.sub`

C55_short_nan_refuted.

### `PrimFloat.div`, `PrimFloat.ltb`, `PrimFloat.mul`, `PrimFloat.of_uint63`, `PrimInt63.int`, `PrimInt63.lor`, `PrimInt63.lsl`, `PrimInt63.sub`

C25_quantile_snap_refuted.

### `PrimFloat.add`, `PrimFloat.div`, `PrimFloat.eqb`, `PrimFloat.float`, `PrimFloat.ltb`, `PrimFloat.mul`, `PrimFloat.of_uint63`, `PrimInt63.int`, `PrimInt63.lor`, `PrimInt63.lsl`, `PrimInt63.sub`

C64_ct_root_binary64_refuted.

### `PrimFloat.add`, `PrimFloat.div`, `PrimFloat.eqb`, `PrimFloat.float`, `PrimFloat.mul`, `PrimFloat.of_uint63`, `PrimFloat.sub`, `PrimInt63.int`, `PrimInt63.lor`, `PrimInt63.lsl`, `PrimInt63.sub`

C18_linspace_binary64_refuted.

### `PrimFloat.add`, `PrimFloat.div`, `PrimFloat.float`, `PrimFloat.ltb`, `PrimFloat.mul`, `PrimFloat.of_uint63`, `PrimFloat.sub`, `PrimInt63.int`, `PrimInt63.lor`, `PrimInt63.lsl`, `PrimInt63.sub`

C115_constant_refuted.

### `PrimFloat.abs`, `PrimFloat.add`, `PrimFloat.div`, `PrimFloat.eqb`, `PrimFloat.float`, `PrimFloat.mul`, `PrimFloat.of_uint63`, `PrimFloat.sub`, `PrimInt63.int`, `PrimInt63.lor`, `PrimInt63.lsl`, `PrimInt63.sub`

C117_linspace_overflow_refuted.

### `PrimFloat.abs`, `PrimFloat.add`, `PrimFloat.div`, `PrimFloat.eqb`, `PrimFloat.float`, `PrimFloat.leb`, `PrimFloat.ltb`, `PrimFloat.mul`, `PrimFloat.of_uint63`, `PrimFloat.sub`, `PrimInt63.int`, `PrimInt63.lor`, `PrimInt63.lsl`, `PrimInt63.sub`

C32_uniform_binary64_refuted, C72_histogram_n_binary64_refuted.
