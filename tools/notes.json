{
 "C02": {
  "note": "False for non-const lvalues: the forwarding-reference overload of unary map overwrites and moves from the named array (finding). Holds for const arrays and type-changing operations."
 },
 "C10": {
  "note": "Holds for 0 and >= 2 samples; one sample sums the reversed range (first+1, last-1): undefined behaviour (finding)."
 },
 "C12": {
  "note": "<= and >= (and less_equal, greater_equal) are negations of >/<, so they return true for NaN (finding); all other comparisons, and these on NaN-free data, are correct."
 },
 "C15": {
  "note": "idx starts at 0 instead of the first valid position: nanargmax({NaN,5,3}) = 0; all-NaN input reads past the end (findings). Exact behaviour proved in C15_nanarg_behaviour."
 },
 "C17": {
  "note": "Exact rational arithmetic; C18 covers binary64."
 },
 "C18": {
  "note": "False in binary64: linspace(0,1,50) ends at 1-2^-53 (finding)."
 },
 "C24": {
  "note": "Holds for floating-point elements for every nth_element meeting the standard contract; integer elements truncate the mean of the two middle values and return 0 for empty (finding)."
 },
 "C25": {
  "note": "A position just below an integer k is judged equal to k and then truncated to k-1 (finding, e.g. quantile(0..49, 1/49) in binary64); everything else proved, position/monotonicity for positions not subject to this snapping (always true for LOWER/HIGHER/NEAREST, and MIDPOINT below 2^52 elements)."
 },
 "C26": {
  "note": "Integer element types use integer division (finding)."
 },
 "C28": {
  "note": "Correct when no 32 consecutive elements are filtered out and both arrays have the same valid positions. Findings: a block of filtered-out elements poisons the result with NaN; different NaN positions use the wrong means; all-NaN gives inf."
 },
 "C29": {
  "note": "moment / nanmoment proved (order 2 of nanmoment under C28's density condition); with Trim filters the filter is re-applied to the powers of the deviations (finding)."
 },
 "C34": {
  "note": "Double precision scalars/arrays, exact rational model of the comparison."
 },
 "C70": {
  "note": "almost_equal(inf, x) is true for every finite non-zero x when rel_tol >= 1 (finding)."
 },
 "C71": {
  "note": "pow<n> ignores the sign of n: pow<-2>(x) = x^2 (finding)."
 },
 "C31": {
  "note": "Counts proved for all inputs (general bin search, real upper_bound halving); the closed last bin uses almost_equal, so +inf and values slightly above the last edge are counted (finding)."
 },
 "C32": {
  "note": "Equal in exact arithmetic for every data array; in binary64 the index computation (x-b0)/step can fall in the neighbouring bin (finding)."
 },
 "C33": {
  "note": "Proved for strictly increasing edges and fewer than 2^31 counted elements; repeated edges give NaN and the int cast of the count overflows (findings)."
 },
 "C72": {
  "note": "Proved in exact arithmetic; in binary64 linspace's last point can be below the maximum by more than almost_equal tolerates and the maximum is dropped (finding, histogram({-6,9},11))."
 },
 "C46": {
  "note": "for every non-empty array; the const overload of fftshift on an empty array dereferences the end iterator (undefined behaviour), so emptiness is excluded there"
 },
 "C44": {
  "note": "Eigen's FFT is represented by the exact discrete Fourier transform"
 },
 "C73": {
  "note": "Eigen's FFT is represented by the exact discrete Fourier transform over an arbitrary field with a primitive root / over the complex numbers"
 },
 "C51": {
  "note": "holds for every family except tukey with alpha >= 1, which ignores the symmetry argument (refuted)"
 },
 "C52": {
  "note": "exact real arithmetic. All 18 families, length >= 2; refuted for tukey of even length and for length-1 windows (NaN). Flattop is not in [0,1] by design and is excluded from the range theorem"
 },
 "C54": {
  "note": "Transition system of the main thread, workers and mutex; floating-point addition is not associative, so for binary64 the result may depend on the schedule by rounding (the theorem is for exact values)."
 },
 "C55": {
  "note": "Refuted: noverlap = nperseg is accepted and divides by zero; signals shorter than a segment give NaN (nseg 0) or violate a precondition. Proved for signals of at least one segment and noverlap < nperseg."
 },
 "C56": {
  "note": "Over exact real numbers."
 },
 "C57": {
  "note": "Refuted: periodogram leaves noverlap = 0 behind. Proved: nothing else changes."
 },
 "C74": {
  "note": "Refuted: setters return a copy, so chaining on a named object only applies the first one; order matters."
 },
 "C75": {
  "note": "Over exact numbers, at bins where both signals have power (0/0 elsewhere)."
 },
 "C76": {
  "note": "Refuted: the estimate is the complex conjugate (csd(y, x) instead of csd(x, y)). Exact for real gains."
 },
 "C62": {
  "note": "Proved for 1 <= n < 3037000499^2 (checked z*z); refuted for primes above that: z*z overflows, 2^63-25 shown prime as a witness. The compile-time evaluation step limit of compilers is not modelled."
 },
 "C63": {
  "note": "is_prime/next_prime/prime_list right from 2 up to 3037000493^2; refuted below 2 (1, -1, -5, ... reported prime; next_prime(0) = 1) and near the end of the range (overflow)."
 },
 "C64": {
  "note": "is_exact_root/compute_root exact. Integer ct_root: exact characterisation of when it returns (then the floor) and when it recurses for ever. Reals: converges, exact if it stops. binary64: never returns for ct_root<3>(0.5), ct_root<3>(4), ct_root<4>(2); accuracy of the returned double in general not proved."
 },
 "C65": {
  "note": "Value-exact for multiply/divide/power/root/common; the representation is canonical only for a fixed root (refuted in general: root<4> of 4 vs root<2> of 2). Compile-time overflow = compile error, not modelled."
 },
 "C69": {
  "note": "Families: every derived quantity family has the SI dimension and the requested scale, except electrical and thermal conductivity (scale inverted, refuted). Units: 981 of the 1032 named units and literals equal an independent reference table exactly; the others are listed as wrong (refuted) or rounded (bounded)."
 },
 "C83": {
  "note": "Proved for every element type whose parser reads what its printer writes, for int arrays exactly; refuted for a newline character other than '\\n' (TxtLoader has no such option: all but the first value are lost)."
 },
 "C84": {
  "note": "Proved for complex<double> in tuples of arrays (values to the nearest 1e-6); refuted for complex<float> (undefined behaviour), for single arrays (operator<< writes (re,im), read back as nan) and for texts a-bj and a (uninitialised imaginary part)."
 },
 "C85": {
  "note": "savetxt writes six significant digits: relative error at most 5e-6, exact if six digits suffice (proved for single arrays and tuples); refuted in general (every integer in [1e6,1e7) not a multiple of ten). Doubles are exact rationals in the model."
 },
 "C88": {
  "note": "gmean of a named non-const vector leaves it empty, of a named std::array overwrites it with the logarithms (finding); everything else proved over exact reals."
 },
 "C86": {
  "note": "Exact real arithmetic, real square root; unfiltered overloads (filtered variances: C28)."
 },
 "C87": {
  "note": "Exact real arithmetic, real square root; unfiltered overloads."
 },
 "C89": {
  "note": "Findings: zeros at the end of integers are blanked (100 prints as 1, 0 as nothing), also doubles with precision 0. Proved for reals with at least one decimal, complex numbers with any precision, integers not ending in 0."
 },
 "C90": {
  "note": "Finding: a NaN before every non-zero finite element disables scientific notation, so [NaN, 1e-9] shows 0 where [1e-9, NaN] shows 1e-9. The exact rule with and without NaN is proved, stated with the letter e in the text."
 },
 "C91": {
  "note": "Proved for one-character separators without summary; finding: a summarised array can overrun the limit (by at most 3 characters plus two separators, proved for int arrays)."
 },
 "C92": {
  "note": "Finding: threshold < size <= 2*edgeitems makes the require fail (C92_failure: that is the only failure, for every element type). Reals with at least one decimal."
 },
 "C93": {
  "note": "Finding: the formatter keeps a reference to a destroyed temporary PrintOptions; NaN and infinities read it. Finite numbers proved."
 },
 "C19": {
  "note": "Proved: every element is in the interval and equals start + i*step, and all points up to the last whole step are there. Findings: the last point is dropped when (stop-start) is not a multiple of step; step 0 is not rejected."
 },
 "C21": {
  "note": "Proved for all overloads with equal element types and flip; findings: concatenate of an rvalue vector with another element type returns wrong content, flip of a named array changes it."
 },
 "C22": {
  "note": "Proved when offset + len fits; finding: the length is clipped to the size without the offset, so subvector reads past the end."
 },
 "C37": {
  "note": "The free functions are proved for non-empty vectors over every commutative ring; finding: an empty operand is undefined behaviour in the class operators."
 },
 "C38": {
  "note": "Proved for monic divisors; for others the exact relation satisfied is proved; finding: non-monic divisors give a wrong remainder."
 },
 "C39": {
  "note": "polyint proved; finding: polyder differentiates in descending order while polyval uses ascending order."
 },
 "C40": {
  "note": "Proved for non-negative coefficients; finding: negative trailing coefficients are compared without absolute value and removed."
 },
 "C42": {
  "note": "Proved for deg >= 1; finding: deg 0 writes outside the matrix (UB). Companion matrix eigen relation proved."
 },
 "C58": {
  "note": "unit_impulse proved; sawtooth proved for t >= 0; finding: negative t leaves [-1, 1] or fails a require."
 },
 "C59": {
  "note": "Tokenising proved for every text; round trips for 32-bit ints; findings: 64-bit ints read with atoi overflow (UB), the std::string overload differs."
 },
 "C60": {
  "note": "Rows, columns and tuples proved for rectangular files; findings: a file without rows divides by zero (UB), ragged rows abort, usecols that are not increasing lose columns, converters are looked up by position, filters drop cells instead of rows."
 },
 "C61": {
  "note": "Setters proved to be independent and last-wins; finding: the variadic usecols does not replace the earlier selection."
 },
 "C66": {
  "note": "Sound for all types (same type implies same exponents), complete without roots or with integer exponents; finding: types with equal fractional exponents can differ."
 },
 "C67": {
  "note": "Exact when offsets are equal, with an iff for when the physical value is kept; findings: temperature casts (Celsius/Fahrenheit) are wrong, integer casts truncate the factor to 0."
 },
 "C68": {
  "note": "Proved for equal offsets and rational scales; findings: comparisons with offsets, division and compound assignment."
 },
 "C79": {
  "note": "Proved for left operands without offset; finding: a left operand with an offset is accepted with a wrong physical value."
 },
 "C80": {
  "note": "Floating-point rules proved; integer rule proved for equal offsets; finding: an implicit integer conversion that loses information."
 },
 "C81": {
  "note": "Proved for units with scale 1 and no offset; finding: exp, log, asin of a percentage use the number (exp(100%) = exp(100)), fma adds numbers of different units."
 },
 "C94": {
  "note": "degree 0 is undefined behaviour (finding); exact arithmetic, the Eigen least squares solver is assumed correct"
 },
 "C96": {
  "note": "an argument of integer type is scaled with integer division, and sizes are checked after the fit (findings); the Eigen spline fit is assumed correct"
 },
 "C97": {
  "note": "calls do not continue the sequence: the scalar functions always return the same number (finding)"
 },
 "C99": {
  "note": "integer operands: undefined for a zero divisor and for the smallest int % -1 (finding)"
 },
 "C100": {
  "note": "proved for std::array of data sets; vector data is undefined behaviour and fliers are measured from the median instead of the box (findings)"
 },
 "C101": {
  "note": "capwidths(double) changes the box widths; too short lists are read outside (findings)"
 },
 "C102": {
  "note": "only the first curve's size is checked (finding)"
 },
 "C103": {
  "note": "csd draws |Pxy|^2, so a signal with itself is drawn with twice the decibels of its psd (finding)"
 },
 "C104": {
  "note": "for windows with a non-zero sum; samples are drawn at k n/(n-1) instead of k (finding)"
 },
 "C105": {
  "note": "log(false) does not undo log(true), STEP and BARSTACKED draw nothing, no bins is undefined behaviour (findings)"
 },
 "C106": {
  "note": "real arithmetic; almost equal but different data, or an IQR tiny compared with the range, are undefined behaviour (findings)"
 },
 "C107": {
  "note": "a vectorized lambda expression refers to a destroyed temporary (finding)"
 },
 "C108": {
  "note": "units without offset; complex number times real quantity has no overload (finding)"
 },
 "C109": {
  "note": "long double constants have double accuracy only; in float the magnetons underflow to 0 (findings); euler_gamma and apery_cst: C129"
 },
 "C110": {
  "note": "polypow: the two overloads multiply in different orders; equal in every commutative ring, different in binary64 (refuted theorem), and an empty vector throws where the empty array does not compile."
 },
 "C111": {
  "note": "Units with an offset: *= scales the number, not the physical value (refuted theorem). almost_equal uses an absolute tolerance of rel_tol*eps/2 base units, so e.g. one and two elementary charges are almost equal (refuted theorem)."
 },
 "C112": {
  "note": "Proved for every expression in which an array that is given away occurs once, and in full for const arrays. Refuted otherwise: an operator with one array operand overwrites and empties a non-const named vector, so 2*a + a fails its size check."
 },
 "C113": {
  "note": "less_equal and greater forward their operands with each other's types: operands of different type or constness do not compile, and with arrays of bool a named operand is overwritten (refuted theorem)."
 },
 "C114": {
  "note": "Variance-like statistics need a selected element in every block of the recursion; 64 excluded elements in a row can turn the result into NaN (refuted theorem)."
 },
 "C115": {
  "note": "Non-negativity and the root claims are proved for every monotone rounding. The last sentence (constant data) is false in binary64: ten times 0.1 has a mean below 0.1 and a variance above 0 (C115_constant_refuted)."
 },
 "C116": {
  "note": "Finite numbers: overflow is not modelled. prod: formats without underflow. inner/convolve need no hypothesis on the operands."
 },
 "C117": {
  "note": "False parts, with proofs: beyond 2^prec+1 elements the indices saturate and the last elements repeat (C117_iota_saturates_refuted, C117_linspace_large_refuted); stop-start may overflow and then even the first element is NaN (C117_linspace_overflow_refuted); an element of arange can round to stop (C117_arange_reaches_stop_refuted)."
 },
 "C123": {
  "note": "The arithmetic is proved for every program; the last clause is false: operator== distinguishes polynomials that differ only by zero coefficients of high powers, e.g. P - P from 0 (C123_zero_difference_refuted)."
 },
 "C124": {
  "note": "The FFT of a segment is an arbitrary function of the window and the samples. The last sentence is false in binary64: with three threads welch gives two different results for the same signal (C124_same_result_refuted), and a coherence is 1 + 2^-52 (C124_coherence_above_one_refuted)."
 },
 "C125": {
  "note": "std::atoi, std::atof and std::sscanf are modelled from the C standard (no hexadecimal floats, infinities, NaN texts); values are exact rationals. Undefined cases are part of the theorems: integers outside int, complex texts whose first number is not followed by + and a number."
 },
 "C126": {
  "note": "Proved for n <= 2 * 2^prec + 1 (strict increase for n <= 2^prec). 'For every n' is false: beyond that std::iota, counting in the element type, gets stuck; all frequencies of fftfreq<float>(33554440) are equal (C126_fftfreq_large_refuted)."
 },
 "C129": {
  "note": "Proved for float and double; false for long double: the literals are doubles (finding)."
 },
 "C131": {
  "note": "csd and tfestimate(complex, real) agree with the all-complex calls. coherence of a mixed pair and tfestimate(real, complex) always fail a size check when the window has more than two samples: the cross-spectrum is two-sided, the spectrum of the real signal one-sided (finding, C131_coherence_refuted, C131_tfestimate_refuted)."
 },
 "C132": {
  "note": "The error bounds and the boxcar value are proved. The lower bound of one bin holds up to the roundings only: enbw of three equal samples is below 1/3 (C132_one_bin_refuted)."
 },
 "C133": {
  "note": "Proved for every precision: where a sample can be counted, the exact first and second edges, densities and their integral. 'A sample equal to an edge goes right of it' fails beyond the second edge with uniform bins: the double 0.3 in the bins 0, 0.1, 0.2, 0.3, 0.4 is counted in bin 2 (C133_on_edge_refuted), while the general search puts it in bin 3. Overflow and underflow are not modelled (unbounded exponent range)."
 },
 "C134": {
  "note": "The error bounds are proved for every precision. The last sentence is false: whatever exp does, a correctly rounded log maps neighbouring large doubles to the same value, so gmean({x}) differs from x for some x (C134_gmean_single_refuted); average({a, a}, {a, a}) exceeds a for the double a = 0.1 (C134_average_equal_refuted). Overflow and underflow are not modelled."
 },
 "C135": {
  "note": "The error bounds are proved for every precision and width, and the range for the rising part and for the default width 1. The range is false for widths just below 1: with width 1 - 2^-52 a time just below 2 pi<double> gives 2 (C135_range_refuted). Negative times, overflow and underflow are not covered."
 }
}
