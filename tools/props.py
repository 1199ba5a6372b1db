#!/usr/bin/env python3
"""Source of properties.jsonl: run from /verif as  python3 tools/props.py"""
import json
P = []
def p(title, statement, quantifier, why, anchors):
    P.append(dict(id="C%02d" % (len(P) + 1), title=title, statement=statement,
                  quantifier=quantifier, why_tests_cant=why, anchors=anchors))

F = "scicpp/core/functional.hpp"
N = "scicpp/core/numeric.hpp"
# ---------------------------------------------------------------- functional
p("map is element-wise",
  "map(op, a) returns an array of the same length whose i-th element is op(a[i]); map(op, a, b) returns op(a[i], b[i]) at every i when the two arrays have equal lengths, and is a precondition violation (assert / undefined behaviour) exactly when they differ. The overload chosen by value category never changes the returned value.",
  "all element types, operations, arrays of every length, all value-category overloads",
  "Tests check a few literals for one overload; the claim ranges over every length, every operation and the four binary overloads.",
  [F + ": map (31-127)"])
p("map leaves a named array unchanged",
  "Calling map(op, a) (or a vectorised function built on it) with a named array leaves that array's contents unchanged.",
  "all operations and named (lvalue) arrays, const or not",
  "Needs reasoning about overload resolution for every value category and every operation type; tests use const arrays.",
  [F + ": map (31-57)", F + ": vectorize (154-169)"])
p("filter keeps exactly the satisfying elements in order",
  "filter(a, p) contains exactly those elements of a satisfying p, with multiplicity, in their original order; filtering twice is the same as filtering once.",
  "all arrays and predicates", "Multiset and order claims over all arrays and predicates.",
  [F + ": filter (208-221)"])
p("reduce/filter_reduce is a left fold with an exact count",
  "filter_reduce(a, op, init, p) returns (fold-left of op from init over the elements satisfying p, the number of elements satisfying p); reduce is the same with no filter and counts every element.",
  "all arrays, operations, initial values and predicates", "Universally quantified over operation and predicate.",
  [F + ": filter_reduce (227-252)", F + ": reduce (258-262)"])
p("pairwise recursion computes the sequential fold for associative operations",
  "For every associative operation with identity id, the pairwise/blocked reduction used for non-integer types returns the same value and count as the plain sequential fold over the filtered array, for every array length (every split tree) — so sum, prod and inner do not depend on the block size or on the type dispatch.",
  "all associative operations with identity, all filters, arrays of every length",
  "The recursion tree depends on the length; tests cover only few lengths around the block size.",
  [F + ": pairwise_accumulate (284-334)", F + ": filter_reduce_associative (345-377)"])
p("pairwise summation error bound",
  "With rounded addition of relative error at most u, sum(a) of n floating-point numbers differs from the exact sum by at most ((1+u)^(64+ceil(log2 n)) - 1) times the sum of absolute values: the error exponent grows logarithmically beyond a 64-element block.",
  "all finite inputs of every length, every rounded addition obeying the standard model (including IEEE binary64 round-to-nearest without overflow)",
  "A bound over all inputs and lengths; testing cannot establish a worst case.",
  [F + ": pairwise_accumulate, filter_reduce_associative", N + ": sum (29-52)"])
p("cumulative operations are running folds",
  "The k-th element of cumsum(a)/cumprod(a) (nancumsum/nancumprod) is the sum/product of the first k+1 (non-NaN) elements of a; the result has as many elements as a has (non-NaN) elements; empty gives empty.",
  "all arrays and operations", "All lengths and prefixes.",
  [F + ": cumacc (386-396)", N + ": cumsum, nancumsum, cumprod, nancumprod (89-123)"])
p("sum, prod, nansum, nanprod are the mathematical sum and product",
  "sum(a) equals a[0]+...+a[n-1] and prod(a) the product (0 and 1 for empty arrays); nansum/nanprod equal sum/prod of the array with NaNs removed, and sum is NaN as soon as one element is NaN. sum is invariant under permutation and additive under concatenation.",
  "all arrays (exact arithmetic, idealised doubles with NaN and infinities)", "All lengths, all NaN positions and all permutations.",
  [N + ": sum, nansum, prod, nanprod (29-83)"])
p("diff is the n-th forward difference",
  "diff(a, n) has max(len(a)-n, 0) elements and its i-th element is sum_k (-1)^(n-k) C(n,k) a[i+k]; diff(a, 1) undoes cumsum; the std::array overload agrees with the std::vector overload.",
  "all arrays, all orders n", "All orders and lengths.",
  [N + ": diff (154-207)"])
p("trapz is the trapezoidal rule",
  "trapz(f, dx) of n samples equals dx * sum_i (f[i]+f[i+1])/2; it is exact for affine functions, additive over adjacent intervals and defined for every array (empty and one-element arrays integrate to 0).",
  "all arrays including empty and single-element ones, all steps", "Boundary sizes and all lengths.",
  [N + ": trapz (129-148)"])
p("inner/dot/vdot are (sesqui)linear products",
  "inner(a, b) = sum a[i]b[i] for equal-length arrays (precondition violation otherwise): symmetric and bilinear; vdot conjugates its first argument, so vdot(a,a) is real and non-negative and vdot(b,a) = conj(vdot(a,b)).",
  "all pairs of arrays, real and complex", "Algebraic laws over all arrays and lengths including the 64-element block recursion.",
  [N + ": inner, dot, vdot (213-275)"])
p("element-wise comparisons agree with scalar comparisons",
  "less/less_equal/greater/greater_equal/equal/not_equal and the operators <, <=, >, >= between arrays (or array and scalar) yield at each position the truth value of the corresponding scalar comparison, including when an operand is NaN.",
  "all arrays, all scalars including NaN", "NaN positions are quantified; unit tests never compare NaN.",
  [N + ": comparison operators and functions (283-658)"])
p("mask selects exactly the flagged positions",
  "mask(a, m) returns the elements of a at the positions where m is true, in order (equal lengths required); the in-place and copying overloads agree, and masking by a predicate's truth values equals filter.",
  "all arrays, all masks", "All lengths and masks, both overloads.",
  [N + ": mask (664-705)"])
p("argmax/argmin return the first extremal index",
  "argmax(a)/argmin(a) of a non-empty array without NaN returns the smallest index holding the maximal/minimal element.",
  "all non-empty arrays", "All arrays and tie patterns.",
  [N + ": argmax, argmin (713-796)"])
p("nanargmax/nanargmin return the index of the extremal non-NaN element",
  "nanargmax(a)/nanargmin(a) of an array with at least one non-NaN element returns the smallest index of an element extremal among the non-NaN elements; with no such element the call does not read outside the array.",
  "all arrays, all NaN placements", "NaN placement before the maximum is quantified; tests use one placement.",
  [N + ": argcmp, nanargmax, nanargmin (713-796)"])
p("argwhere/nonzero list exactly the matching indices",
  "argwhere(a, p) is the strictly increasing list of all indices whose element satisfies p; nonzero/flatnonzero use p(v) = (v != 0); indexing a at these positions gives filter(a, p).",
  "all arrays and predicates", "Universal over predicates and lengths.",
  [N + ": argwhere, nonzero (802-829)"])
# ---------------------------------------------------------------- range/manips/utils
R = "scicpp/core/range.hpp"
p("linspace spacing and end points",
  "linspace(start, stop, num) has num elements, the i-th equals start + i*(stop-start)/(num-1) (first element start, last element stop), monotone when start<=stop; num=1 gives {start}; num=0 gives an empty array.",
  "all start, stop, num (exact arithmetic)", "All sizes and end points.",
  [R + ": linspace (101-130)"])
p("linspace hits stop exactly in floating point",
  "The last element of linspace(start, stop, num), num >= 2, compares equal to stop in double precision.",
  "all doubles start, stop, all num", "Rounding depends on the exact inputs; only a few are tested with a tolerance.",
  [R + ": linspace (101-130)"])
p("arange enumerates the half-open interval",
  "arange(start, stop, step) returns exactly the points start + i*step lying in [start, stop) (or (stop, start] for negative steps) — as many as there are, none when the direction of step is wrong.",
  "all start, stop, step != 0", "The count depends on the fractional part of (stop-start)/step.",
  [R + ": arange (194-209)"])
p("full/zeros/ones/logspace",
  "full(n, v), zeros(n), ones(n) have n elements all equal to v, 0, 1; logspace(start, stop, num, base)[i] = base^(start + i*(stop-start)/(num-1)).",
  "all n, v, start, stop, base", "All sizes.",
  [R + ": full, zeros, ones (35-93)", R + ": logspace (138-187)"])
M = "scicpp/core/manips.hpp"
p("concatenate and flip",
  "concatenate(a, b, ...) holds a's elements followed by b's (and so on), every value-category overload gives the same content, and grouping does not matter; flip(a)[i] = a[n-1-i], flip is an involution and flip(concatenate(a,b)) = concatenate(flip(b), flip(a)).",
  "all arrays of every length, all overloads, any number of arguments", "All lengths and overloads.",
  [M + ": concatenate (27-145)", M + ": flip (151-167)"])
p("subvector is in bounds",
  "subvector(v, len, offset) returns v[offset .. offset+min(len, size)) and never reads outside v.",
  "all vectors, lengths, offsets", "Out-of-bounds combinations are never tested.",
  ["scicpp/core/utils.hpp: subvector (41-55)"])
# ---------------------------------------------------------------- stats
S = "scicpp/core/stats.hpp"
p("amax/amin/ptp",
  "amax(a)/amin(a) of a non-empty NaN-free array return an element of a that is >= / <= all others, ptp their difference; empty arrays give NaN.",
  "all arrays", "All arrays and orders.", [S + ": amax, amin, ptp (40-74)"])
p("median is the middle order statistic",
  "median(a) equals the middle element of the sorted data (odd size) or the mean of the two middle ones (even size), NaN for empty; it does not depend on the order of the elements nor on how the selection algorithm permutes them; nanmedian ignores NaNs; tmedian uses only values within limits.",
  "all arrays, every behaviour of nth_element allowed by the C++ standard", "Every permutation and every conforming nth_element.",
  [S + ": median_inplace, median, nanmedian, tmedian (97-140)"])
p("quantile interpolates order statistics",
  "quantile(a, q) with 0<=q<=1 returns the interpolation-mode dependent combination of the order statistics around q*(n-1): it lies between amin and amax, is non-decreasing in q for a fixed mode, equals amin at q=0 and amax at q=1 and the median at q=1/2 (linear/midpoint); independent of element order.",
  "all non-empty arrays, all q in [0,1], all interpolation modes", "Continuous parameter q and all arrays.",
  [S + ": quantile (150-203), percentile, iqr (244-302)"])
p("mean/average",
  "mean(a) = sum/len, NaN for empty; nanmean(a) = mean of the non-NaN elements; min <= mean <= max; average(a, w) = sum(w a)/sum(w) and equals mean for constant non-zero weights.",
  "all arrays (exact arithmetic)", "All arrays and lengths.",
  [S + ": average (80-87), mean, nanmean, tmean (308-340)"])
p("variance/covariance equal the two-pass textbook formula",
  "covariance(a, b, ddof) = sum (a_i - mean a)(b_i - mean b) / (n - ddof) for equal-length NaN-free arrays of every length (whatever the block splitting), var(a) = covariance(a, a) >= 0, shift invariant and quadratic under scaling; infinity when n <= ddof.",
  "all NaN-free arrays of any length, all ddof", "The blocked pairwise update formula must agree with the two-pass one for every recursion tree.",
  [S + ": covariance (376-452), var (475-508)"])
p("nanvar/nancov ignore NaNs",
  "nanvar(a) equals var of the array with NaNs removed; nancov(a,b) equals the covariance over the positions where both are non-NaN.",
  "all arrays, all NaN placements", "Depends on NaN placement relative to 64-element blocks.",
  [S + ": covariance (376-452), nanvar, nancov"])
p("central moments",
  "moment<n>(a) = mean((a - mean a)^n) over the elements selected by the filter (nanmoment: non-NaN elements, tmoment: within limits); moment<0> = 1, moment<1> = 0.",
  "all arrays, filters and orders", "All arrays and filters.",
  [S + ": moment (572-600)"])
p("cov matrix",
  "cov(x, y) is the symmetric 2x2 matrix {var x, cov(x,y); cov(x,y), var y} and satisfies Cauchy-Schwarz (non-negative determinant).",
  "all equal-length arrays", "Inequality over all data.",
  [S + ": cov (608-678)"])
H = "scicpp/core/histogram.hpp"
p("histogram counts per bin",
  "histogram(x, edges) returns for each bin [e_i, e_{i+1}) (last bin closed) the number of elements falling in it; the counts add up to the number of elements within [e_0, e_last]; values outside are ignored; fewer than two edges give an empty histogram; the result does not depend on the order of x.",
  "all data, all increasing edge vectors", "All data/edge configurations.",
  [H + ": histogram (139-220)"])
p("uniform-bin histogram agrees with the general one",
  "The fast path for uniform bins returns the same counts as the general bin search on the same edges.",
  "all data, all uniform edges (exact arithmetic)", "Index computation vs search for every datum, including those exactly on edges.",
  [H + ": histogram (139-220)"])
p("density histogram integrates to one",
  "With density normalisation sum_i density_i * (e_{i+1}-e_i) = 1 whenever at least one element is in range.",
  "all data and increasing edges", "All data.",
  [H + ": histogram density (160-220)"])
# ---------------------------------------------------------------- equal / maths
p("almost_equal is reflexive and symmetric",
  "almost_equal<tol>(a, b) is symmetric, true when a and b are identical (including infinities), and for arrays true only when sizes match and every pair of elements is almost equal.",
  "all pairs of doubles including NaN, infinities and subnormals; all arrays", "All bit patterns.",
  ["scicpp/core/equal.hpp: fp_equal_predicate (29-51), almost_equal (55-98)"])
p("lerp is exact at the end points and monotone",
  "lerp(a, b, 0) = a, lerp(a, b, 1) = b, lerp(a, a, t) = a; for t in [0,1] the result lies between a and b and is monotone in t.",
  "all a, b, t (exact arithmetic)", "Continuous parameters.",
  ["scicpp/core/maths.hpp: lerp (177-199)"])
# ---------------------------------------------------------------- polynomials
Y = "scicpp/polynomials/polynomial.hpp"
C = "scicpp/signal/convolve.hpp"
p("polyval evaluates the polynomial",
  "polyval(x, P) = P[0] + P[1] x + ... + P[n-1] x^(n-1) (0 for an empty P), at every point of an array argument.",
  "all points, all coefficient vectors over any commutative ring", "All degrees and ring elements.",
  [Y + ": polyval (36-54)"])
p("polynomial addition, subtraction, multiplication, powers are pointwise",
  "For every x, polyval(x, P+Q) = polyval(x,P)+polyval(x,Q); likewise for polysub, polymul, polymulx (times x), polypow (n-th power, n>=0), with vectors of arbitrary different lengths; P - Q = P + (-Q).",
  "all coefficient vectors, exponents and points over any commutative ring", "All degrees.",
  [Y + ": polyadd (62-99), polysub (107-148), polymul (154-163), polymulx (246-265), polypow (275-320)"])
p("polydiv is Euclidean division",
  "polydiv(u, v) = (q, r) with u = q v + r and deg r < deg v for every divisor with non-zero leading coefficient.",
  "all dividends and divisors", "All degrees, including non-monic divisors which tests may miss.",
  [Y + ": polydiv_impl, polydiv (174-240)"])
p("polyder and polyint are inverse",
  "polyder is the derivative of the polynomial represented (in the order used by polyval) and polyint an antiderivative: polyder(polyint(P)) = P; iterating m times composes.",
  "all coefficient vectors, all m", "All degrees and orders.",
  [Y + ": polyder (328-391), polyint (399-458)"])
p("polytrim removes only negligible leading coefficients",
  "polytrim(P, tol) removes trailing coefficients whose magnitude is <= tol and nothing else, so with tol = 0 the polynomial function is unchanged.",
  "all coefficient vectors and tolerances", "Sign of the leading coefficient is quantified.",
  [Y + ": polytrim (546-556)"])
p("polyfromroots has exactly the given roots",
  "polyfromroots(r) is monic of degree len(r) and polyval(x, polyfromroots(r)) = prod (x - r_i), so it vanishes exactly at the roots.",
  "all root lists", "All lists and points.",
  [Y + ": polyfromroots (705-721)"])
p("polycompanion and polyvander",
  "polyvander(x, deg) has len(x) rows and deg+1 columns with entry (i,j) = x_i^j; every root r of P gives the eigen relation of the companion matrix of P.",
  "all points, degrees, polynomials", "All sizes including degree 0.",
  [Y + ": polycompanion (464-482), polyvander (497-526)"])
p("convolution is the Cauchy product",
  "convolve(a, v)[k] = sum_i a[i] v[k-i] with len(a)+len(v)-1 elements for non-empty inputs; it is commutative, associative, bilinear and has the unit impulse as identity.",
  "all non-empty arrays over any commutative ring", "All lengths and both argument orders (the code swaps the longer first).",
  [C + ": direct_convolve (34-81), convolve"])
p("fftconvolve equals direct convolution",
  "fftconvolve(a, v) equals convolve(a, v) (exact arithmetic, given an FFT back-end that computes the DFT and its inverse).",
  "all non-empty arrays", "Zero padding must prevent wrap-around for every pair of lengths.",
  [C + ": fftconvolve (89-107)"])
p("correlate is the cross-correlation",
  "correlate(a, v)[k] = sum_n a[n+k-(len(v)-1)] conj(v[n]).",
  "all non-empty arrays", "All lengths.",
  [C + ": correlate (134-149)"])
# ---------------------------------------------------------------- fft utils
X = "scicpp/signal/fft.hpp"
p("fftshift and ifftshift are inverse",
  "ifftshift(fftshift(a)) = a = fftshift(ifftshift(a)) for every length, odd or even; both are permutations that move the zero-frequency sample to index n/2; all overloads agree, and the call is defined for every array including the empty one.",
  "all arrays of every length", "Parity and all lengths incl. empty.",
  [X + ": fftshift, ifftshift (26-63)"])
p("fftfreq/rfftfreq layout",
  "fftfreq(n, d)[i] = i/(nd) for i < (n+1)/2 and (i-n)/(nd) above; fftshift(fftfreq(n,d)) is strictly increasing for d>0; rfftfreq(n,d)[i] = i/(nd) with n/2+1 entries.",
  "all n >= 1, d > 0", "All sizes.",
  [X + ": fftfreq, rfftfreq (69-110)"])
p("next_fast_len is the smallest 5-smooth number not below n",
  "next_fast_len(n) returns a number m >= n whose only prime factors are 2, 3, 5, and no smaller such number exists; the search terminates.",
  "all n", "Unbounded search over the Hamming-number generator.",
  [X + ": Hamming generator, next_fast_len (116-166)"])
p("zero_padding truncates or pads",
  "zero_padding(v, m) has m elements: v's first min(m,len) elements then zeros.",
  "all vectors and sizes", "All lengths.",
  [X + ": zero_padding (168-184)"])
# ---------------------------------------------------------------- windows
W = "scicpp/signal/windows.hpp"
p("symmetric windows are symmetric and have the requested length",
  "Every window built with the symmetric mode satisfies w[i] = w[M-1-i] for all i and has M elements (bit-for-bit, for any arithmetic).",
  "all M, all window generators", "All sizes and generators, odd and even.",
  [W + ": symmetric_filler, build_window (32-64)"])
p("periodic windows drop the last sample of the next symmetric one",
  "window(M, Periodic) = first M samples of window(M+1, Symmetric), for every window family and every parameter.",
  "all M, all families and parameters", "Special-cased parameters.",
  [W + ": build_window (40-64), tukey, get_window"])
p("window values and formulas",
  "Each window sample equals its documented formula and lies in [0,1] with maximum 1 for the positive windows (bartlett, hann, hamming, cosine, triangular tapers...).",
  "all M and all indices", "All sizes.",
  [W + ": bartlett, hann, hamming, cosine, general_cosine"])
p("equivalent noise bandwidth is at least one bin",
  "enbw(w) >= 1/N-normalised bound: N*s2 >= s1 with s1=(sum w)^2, s2 = sum w^2 for every window, equality for the boxcar.",
  "all windows", "Cauchy-Schwarz over all data.",
  [W + ": s1, s2, enbw (598-617)"])
# ---------------------------------------------------------------- spectral
Z = "scicpp/signal/spectral.hpp"
p("multithreaded spectra are schedule independent",
  "The averaged spectrum computed with any number of threads and any interleaving of the worker's critical sections equals the sequential one (addition being associative and commutative), every segment being processed exactly once.",
  "all schedules, thread counts, segment counts", "Schedules cannot be enumerated by tests.",
  [Z + ": compute_segments_multithread (328-348), compute_spectrum (351-375)"])
p("segments cover the signal without overrun",
  "welch splits a signal of length n into 1+(n-nperseg)/(nperseg-noverlap) segments all inside the signal for nperseg <= n and noverlap < nperseg, no further full segment fits; invalid settings are rejected before any division by zero or out-of-bounds access.",
  "all n, nperseg, noverlap that the setters accept", "All integer combinations accepted by the API.",
  [Z + ": welch_impl (378-391), set_parameters"])
p("one-sided normalisation preserves power",
  "One-sided doubling multiplies every bin except DC (and Nyquist for even length) by two so the total equals that of the two-sided spectrum of a real signal.",
  "all lengths (odd and even) and all spectra of real signals", "All lengths and parities.",
  [Z + ": normalize (419-440)"])
p("spectral calls do not change the configuration",
  "Calling periodogram/welch/csd on a Spectrum object does not change the result of later calls with the same arguments.",
  "all sequences of setter and computation calls", "Histories of calls.",
  [Z + ": Spectrum"])
# ---------------------------------------------------------------- waveforms
V = "scicpp/signal/waveforms.hpp"
p("unit_impulse and sawtooth",
  "unit_impulse(n, i) has a single 1 at index i and zeros elsewhere; sawtooth(t) is 2*pi periodic with values in [-1, 1] for every t, negative t included.",
  "all n, i, t", "All real t.",
  [V + ": unit_impulse (26-46), sawtooth (54-70)"])
# ---------------------------------------------------------------- io
I = "scicpp/core/io.hpp"
p("fromstring/tokenising",
  "Splitting a line on the delimiter yields the maximal delimiter-free non-empty pieces in order; joining numbers with the delimiter and reading them back returns the same numbers.",
  "all strings and delimiters", "All strings.",
  [I + ": iterate_line (122-145), fromstring"])
p("loadtxt skips comments, header rows and honours max_rows",
  "loadtxt returns the values of exactly those lines that come after skiprows lines, are not comments, up to max_rows of them, column-filtered by usecols.",
  "all files and settings", "All file contents and option combinations.",
  [I + ": iterate_file (217-242), loadtxt_to_vector (246-274)"])
p("TxtLoader setters",
  "Each TxtLoader setter changes only its own option; calls compose in any order and the last call for an option wins.",
  "all sequences of setter calls", "Histories of setter calls.",
  [I + ": TxtLoader (407-524)"])
# ---------------------------------------------------------------- units
A = "scicpp/core/units/arithmetic.hpp"
U = "scicpp/core/units/quantity.hpp"
p("prime factorisation is correct",
  "prime_factors(n) for n >= 1 lists primes with positive multiplicities in increasing order whose product of powers is n, within the allocated table.",
  "all n in the intmax range (unbounded integers in the model)", "All integers.",
  [A + ": prime_factors (86-133)"])
p("primality and prime enumeration",
  "is_prime(n) is true exactly for primes; next_prime(n) is the least prime greater than n; prime_list enumerates primes in order.",
  "all integers", "All integers.",
  [A + ": is_prime, next_prime, prime_list (303-344)"])
p("integer roots are exact",
  "ct_root<k>(x) is the floor of the k-th root; is_exact_root recognises exactly the perfect k-th powers.",
  "all k>=1, x>=0", "Newton iteration must converge for every input.",
  [A + ": ct_root, root_newton_raphson (54-79), is_exact_root (166)"])
p("root_ratio arithmetic is exact",
  "The real number denoted by multiply/divide/power of root ratios is the product/quotient/power of the denoted numbers, and root_ratio_root denotes the root.",
  "all root ratios", "All rational/exponent combinations.",
  [A + ": root_ratio, root_ratio_multiply, divide, power, root (145-293)"])
p("dimension bookkeeping is a group homomorphism",
  "Two quantities have the same dimension type exactly when their exponent vectors agree: multiplication adds exponents, division subtracts, powers scale.",
  "all exponent vectors", "Unique factorisation over all exponent vectors.",
  ["scicpp/core/units/units.hpp: dimensional_system", U + ": quantity_multiply, quantity_divide"])
p("quantity_cast converts units exactly and round-trips",
  "quantity_cast to another unit of the same dimension preserves the physical value (scale and offset) and casting back returns the original value.",
  "all values, scales and offsets", "All scale/offset combinations (Celsius to Fahrenheit included).",
  [U + ": quantity_cast (138-154)"])
p("quantity comparison and arithmetic respect physical values",
  "a+b, a-b, comparisons between quantities of the same dimension in different units agree with the physical (base-unit) values; dividing a quantity by a number divides its value.",
  "all values and scales", "All scale combinations, integer representations included.",
  [U + ": comparisons (211-265), arithmetic (269-401)"])
p("derived unit definitions are correct",
  "Each named unit equals its international definition in SI base units (km/h = 1000/3600 m/s, knot = 1852/3600 m/s, teratonne = 10^15 kg, forces have the dimension of force).",
  "all named units of units.hpp", "Type-level constants are never exercised at run time.",
  ["scicpp/core/units/units.hpp"])

p("almost_equal separates infinities from finite numbers",
  "almost_equal(inf, x) is false for every finite x and for the opposite infinity.",
  "all tolerances and all finite x", "Only special values are sampled by tests; the failing case needs inf - x and tol * inf.",
  ["scicpp/core/equal.hpp: fp_equal_predicate (29-51)"])
p("pow<n> is the n-th power",
  "pow<n>(x) equals x multiplied n times with itself for n >= 0 and 1/x^|n| for n < 0, element-wise on arrays.",
  "all integer exponents, all values", "Every exponent is a separate template instantiation; negative ones are not exercised.",
  ["scicpp/core/units/maths.hpp: pow (125-140)", "scicpp/core/maths.hpp: pow<n> (163-166)"])
p("histogram(x, nbins) counts every element",
  "For non-empty finite data and nbins >= 1, histogram(x, nbins) returns nbins counts adding up to len(x): the automatically computed edges cover the whole data range.",
  "all finite data, all nbins", "Depends on rounding of the last edge for every data range and bin count.",
  ["scicpp/core/histogram.hpp: outer_edges (81-98), histogram_bin_edges (122-127), histogram (239-243)"])
p("FFT wrappers invert each other",
  "fft(x) is the discrete Fourier transform of x for every non-empty x, length 1 included; rfft(x) is its first n/2+1 bins for real x; ifft(fft(x)) = x, irfft(rfft(x), n) = x for every n = len(x), and irfft(rfft(x)) = x for even lengths; Parseval's identity holds; empty input is rejected.",
  "all non-empty real and complex arrays (exact arithmetic, given an FFT engine that computes the DFT)", "All lengths (odd, even, 1) and all data.",
  ["scicpp/signal/fft.hpp: fft, rfft, ifft, irfft (190-328)"])
p("Chained Spectrum setters configure the object", "After obj.fs(a).nthreads(b).window(w).noverlap(k) the object has all the settings, as does the value of the expression, and the order in which compatible settings are given does not matter.", "all objects, all values of the settings", "All chains of setters and values.", ["scicpp/signal/spectral.hpp: Spectrum::fs, noverlap, nthreads, window (70-110)"])
p("coherence is between 0 and 1", "coherence(x, y) of two signals of the same length (at least one segment long) succeeds, and at every frequency where both signals have power lies in [0, 1]; it is 1 if there is a single segment or if y is proportional to x.", "all real and complex signals, all windows, overlaps, thread counts and schedules", "An inequality over all signals.", ["scicpp/signal/spectral.hpp: Spectrum::coherence (258-272)"])
p("tfestimate estimates the transfer function", "If y is the response to x of a system with frequency response H at the analysed bins (a gain, a circular delay), tfestimate(x, y) is H wherever x has power.", "all signals, gains, windows", "All signals and systems.", ["scicpp/signal/spectral.hpp: Spectrum::tfestimate (274-282)"])
p("csd: symmetry, consistency with welch, zero padding", "csd(x, x) is welch(x); csd(y, x) is the complex conjugate of csd(x, y); signals of different lengths give the same result as the shorter one extended with zeros.", "all signals and lengths, scalings, windows", "All signals and length combinations.", ["scicpp/signal/spectral.hpp: Spectrum::csd (179-256)"])
p("welch and csd follow Welch's method", "For a signal of at least one segment, welch(x) succeeds and bin m is (scaling factor) * (one-sided factor) * the average over the segments of |DFT of window * (segment - mean)|^2, at the frequency m fs / nperseg; csd averages conj(X) Y; scaling factor 1/(fs sum w^2), 1/(sum w)^2 or 1.", "all signals, windows, overlaps, sampling frequencies, scalings, thread counts and schedules", "All signals and settings.", ["scicpp/signal/spectral.hpp: Spectrum::welch (125-177), csd (179-256), normalize (418-440), get_freqs (318-325)"])
p("products, quotients, powers and roots of quantities have the right physical value",
  "Whenever a*b, a/b, a.inv(), k/a, pow<n>(a), sqrt, cbrt or root<k>(a) compile, the physical (base unit) value of the result is the product, quotient, inverse, power or root of the physical values of the operands; an operation on a unit with an offset, for which this cannot hold, does not compile.",
  "all units (scales, offsets, dimensions), all values", "Type-level computation over all unit combinations.",
  ["scicpp/core/units/quantity.hpp: operator*, operator/, inv (322-340), operators with a number (355-401), root (414-427)", "scicpp/core/units/maths.hpp: sqrt, cbrt, pow (101-140)"])
p("implicit conversions of quantities are lossless",
  "A conversion between two integer quantities is implicit only if it is exact for every value; conversions to floating point are always implicit, from floating point to integer never.",
  "all pairs of units of the same dimension, all values", "Every pair of units is a separate template instantiation.",
  ["scicpp/core/units/quantity.hpp: is_harmonic, is_implicitly_convertible, converting constructor (162-203)"])
p("mathematical functions of quantities act on physical values",
  "fmax, fmin, fabs, hypot, norm, fma agree with the physical values of their arguments; sin, cos, tan of an angle in any unit are those of the angle; exp, log, asin, ... of a dimensionless quantity in any unit (percent) are those of its physical value.",
  "all units and values", "All scales.", ["scicpp/core/units/maths.hpp"])
p("sweep_poly sweeps the requested frequency",
  "sweep_poly(t, poly, phi) is cos(phase(t) + phi) for every t, where phase(0) = 0 and the derivative of the phase is 2 pi times poly: the instantaneous frequency at time t is poly(t); an empty polynomial is rejected.",
  "all polynomials, times and initial phases", "A statement about a derivative at every real time.",
  ["scicpp/signal/waveforms.hpp: sweep_poly (79-91)"])
p("savetxt then loadtxt returns the arrays",
  "Saving an array, or a tuple of arrays of equal size, and loading the file with the same delimiter and the same types returns the arrays in order, each element as its text reads back; int arrays come back exactly, whatever the delimiter and newline character; arrays of different sizes are refused.",
  "all numbers of columns and rows, all values, delimiters, newline characters and comment characters", "All array contents, sizes and separators.",
  ["scicpp/core/io.hpp: savetxt (531-585), TxtSaver (587-611), TxtLoader (411-524)"])
p("complex numbers survive savetxt and loadtxt",
  "A complex number written by savetxt is read back by loadtxt, for every combination of signs, up to the six decimals written; complex<float> and complex<double>, arrays and tuples of arrays alike; the usual forms a-bj and a are understood.",
  "all complex values", "All values and signs.",
  ["scicpp/core/io.hpp: to_number (62-74), detail::format (546-553), savetxt (531-585)"])
p("doubles survive savetxt and loadtxt",
  "A double written by savetxt and read back by loadtxt is the same double.",
  "all finite doubles", "All values.", ["scicpp/core/io.hpp: to_number (58-59), savetxt (531-585)"])
p("std, sem: square roots of the variance",
  "std(x) is the non-negative square root of var(x) (any ddof below the number of samples), sem(x) is std(x)/sqrt(n); std is 0 exactly when all elements are equal and satisfies std(a*x+b) = |a|*std(x).",
  "all non-empty arrays, all ddof < n, all a and b", "All array contents and sizes, in particular across the 64-element blocks of the recursion.",
  ["scicpp/core/stats.hpp: std (512-533), sem (539-567), var (474-503)"])
p("skew and kurtosis are shape statistics",
  "For non-constant data, kurtosis is m4/m2^2 (minus 3 for the Fisher definition) and skew is m3/m2^(3/2) for the central moments m_k; both are unchanged by a change of origin and scale (skew changes sign with a negative scale) and by reordering, symmetric data have skew 0, and 1 + skew^2 <= Pearson kurtosis. For constant data the kurtosis is NaN.",
  "all non-empty arrays", "All array contents and sizes.",
  ["scicpp/core/stats.hpp: moment (573-600), kurtosis (608-633), skew (640-655)"])
p("gmean is the geometric mean and leaves its argument alone",
  "For positive data gmean(x) is positive, its n-th power is the product of the elements, it is at most the arithmetic mean, lies between the smallest and the largest element, and scales with the data; gmean of an empty array is NaN; the filtered version is the gmean of the selected elements; the argument is not changed.",
  "all non-empty arrays of positive numbers, all value categories of the argument", "All array contents, sizes and value categories.",
  ["scicpp/core/stats.hpp: gmean (347-371)", "scicpp/core/maths.hpp: log (84)", "scicpp/core/functional.hpp: map (31-45), vectorize (152-167)"])
p("print/array2string shows every element",
  "With a white-space separator, array2string of an array no longer than the threshold is '[', one word per element in order, ']' and a newline; each word reads back as its element to within half a unit of the last displayed decimal, or is the text chosen for NaN or infinity; complex elements show both parts; integers read back exactly.",
  "all arrays, all precisions, widths and options with white-space separators", "All element values (rounding, carries, trailing zeros), sizes and options.",
  ["scicpp/core/print.hpp: ElementFormater (46-153), print_array_elements (216-244), print (248-297), array2string (310-316)"])
p("print chooses the notation from the magnitudes",
  "Scientific notation is used exactly when it is not suppressed and some non-zero finite element is below 1e-4 in magnitude or more than 1000 times smaller than another; the position of the elements, NaN and infinities included, does not matter.",
  "all arrays of doubles", "All combinations and orders of finite, infinite and NaN elements.",
  ["scicpp/core/print.hpp: use_scientific_notation (177-208)"])
p("print respects the line width",
  "No line of the printed text is longer than linewidth when the text of one element fits on a line, summarised or not; an array that fits on one line is not broken.",
  "all arrays, all line widths", "All array sizes, element widths and break positions.",
  ["scicpp/core/print.hpp: print_array_elements (216-244), print (248-286)"])
p("print summarises long arrays",
  "An array with more elements than the threshold is printed as its first and last edgeitems elements with ... between; printing never fails.",
  "all arrays, thresholds and edgeitems", "All sizes relative to threshold and edgeitems.",
  ["scicpp/core/print.hpp: print (248-286)"])
p("print of a single number",
  "print(x) writes the number with 8 decimals in scientific notation, or the text for NaN or infinity, without undefined behaviour.",
  "all numbers", "All values, and memory safety is not observable by a test.",
  ["scicpp/core/print.hpp: print (288-297), ElementFormater (46-66, 148)"])
p("polyfit is the least squares polynomial",
  "polyfit(x, y, deg) with x and y of the same length returns the deg+1 coefficients, in the order polyval takes, of the polynomial of degree at most deg with the smallest sum of squared errors; data that come from such a polynomial at deg+1 or more different points give that polynomial back; different lengths are rejected.",
  "all data sets and degrees, relative to a correct least squares solver (Eigen)", "Optimality is against all polynomials, for all data.",
  ["scicpp/polynomials/polynomial.hpp: polyfit (533-541), polyvander (497-526)", "scicpp/linalg/solve.hpp: lstsq (14-21)"])
p("polyroots returns the roots",
  "The values returned by polyroots(P) are exactly the complex zeros of P, for real and for complex coefficients, when P has degree at least 1 and a non-zero leading coefficient.",
  "all polynomials, relative to a correct eigenvalue solver (Eigen)", "All polynomials and all candidate roots.",
  ["scicpp/polynomials/polynomial.hpp: polyroots (488-491), polycompanion (464-482)"])
p("interp1d goes through the data",
  "interp1d<kind>(x, y) for strictly increasing x gives a function with f(x[i]) = y[i]; with SLINEAR, and with any kind on two points, it is the straight line between neighbouring points; the value at a number does not depend on the type it is given in; arrays are interpolated element by element; wrong sizes are rejected.",
  "all data sets, kinds and arguments, relative to a correct spline fit (Eigen)", "All arguments between the data points.",
  ["scicpp/core/interpolate.hpp: interp1d (64-84), SplineFunction (27-60)"])
p("random arrays are reproducible",
  "rand and randn give N numbers: the first N draws of the engine seeded with the seed, the same in an array and in a vector, so equal seeds give equal numbers and a shorter array is a prefix of a longer one; rand is in [0,1); normal(mu, sigma, N) is mu + sigma * randn(N) element by element; successive calls give new numbers.",
  "all sizes, seeds, engines and distributions", "All sizes and seeds, and all sequences of calls.",
  ["scicpp/core/random.hpp: random_number_filler (22-31), rand (46-63), randn (71-88), normal (96-110)"])
p("get_field and unpack transpose arrays of tuples",
  "get_field<I>(a) and get_field<T>(a) return, in order, the field I, or the only field of type T, of every tuple of a; unpack(a) returns all of them, and is the inverse of zipping arrays of the same length into an array of tuples; a field that does not exist, or a type that is there twice, does not compile.",
  "all tuple types and arrays", "All tuple types and array contents.",
  ["scicpp/core/tuple.hpp: get_field (26-73), unpack (83-104)"])
p("operator % is the remainder of the truncated division",
  "a % s and s % a give for every element the remainder r with dividend = q * divisor + r for an integer q, |r| < |divisor| and the sign of the dividend; for doubles the result is exact; no undefined behaviour.",
  "all integers and all finite doubles", "All pairs of numbers.",
  ["scicpp/core/numeric.hpp: operator% (505-522), detail::modulus (492-501)"])
p("boxplot draws the statistics of its data",
  "boxplot(data) draws for each data set, at abscissa 1, 2, ..., a box from the first to the third quartile, a line at the median, the whiskers, and as fliers exactly the elements farther than whis * IQR from the box; for arrays and for vectors of data sets, after any sequence of setter calls, and without undefined behaviour.",
  "all data sets and all sequences of setter calls", "All data sets and all call histories.",
  ["scicpp/plots/boxplot.hpp: data_stats (25-43), boxplot (53-58), redraw (168-231)"])
p("boxplot settings are independent and the last call wins",
  "Each setter of a boxplot changes only the setting it is named after, the drawing depends only on the last call of each setter, and lists of another size than the data are rejected.",
  "all sequences of setter calls", "All histories of calls in all orders.",
  ["scicpp/plots/boxplot.hpp: setters (60-128)"])
p("plot draws every curve with its colour and label",
  "plot(x, y0, y1, ...) draws each y against x, in order, with the colour and label last set for it (by default a cycle of eight colours and no label); a y of another size than x is rejected.",
  "all numbers of curves and all sequences of setter calls", "All histories of calls and all numbers of curves.",
  ["scicpp/plots/plot.hpp: plot (28-117)"])
p("psd, csd and cohere plots draw the spectra on the chosen scale",
  "plots::psd draws the result of welch and plots::csd the magnitude of the result of Spectrum::csd against the frequencies, as they are (LINEAR) or as l with p = 10^(l/10) (DECIBEL, -infinity for 0); the csd of a signal with itself is drawn like its psd; cohere draws the coherence; colour and grid are those of the last call.",
  "all signals, configurations, scales and sequences of setter calls", "All spectra, including zeros, and all call histories.",
  ["scicpp/plots/spectrum.hpp: csdplot (21-76), csd (80-96), psd (98-115), cohere (117-122)"])
p("winvis shows the spectrum and width of the windows",
  "winvis(windows...) draws each window against its sample number and the level 20 log10 |W(f)| / |W(0)| of its Fourier transform in dB at the frequencies k/11n, and shows as main lobe width four times the frequency of the lowest level not below -3 dB; the level at frequency 0 is 0 dB and no level of a non-negative window is above it; windows of different sizes and empty windows are rejected.",
  "all lists of windows", "All windows, sizes and frequencies.",
  ["scicpp/plots/winvis.hpp: window_spectrum_db (29-39), mainlobe_width (42-50), winvis (54-110)"])
p("hist draws the histogram",
  "plots::hist(x, bins) draws the counts of the histogram over the bins with the colour, type and width of the last calls, on a logarithmic scale exactly if the last call of log was log(true), without undefined behaviour.",
  "all data, bins and sequences of setter calls", "All data and all call histories.",
  ["scicpp/plots/hist.hpp: histplot (22-125), hist (129-153)"])
p("automatic histogram bins follow the named rules",
  "histogram_bin_edges<method>(x) covers exactly the range of the data with equal bins, as few as the rule allows: sqrt n^2 >= N, Rice n^3 >= 8N, Sturges 2^n >= 2N, Scott and Freedman-Diaconis bins no wider than the rule's width, Doane Sturges corrected by the skewness, auto the larger of Sturges and Freedman-Diaconis; no data give [0, 1], constant data v give [v-1/2, v+1/2]; no undefined behaviour.",
  "all data sets and methods", "All data and sizes; the number of bins is the least with a property.",
  ["scicpp/core/histogram.hpp: bin_width (34-78), outer_edges (81-98), histogram_bin_edges (102-120)"])
p("vectorize lifts a callable to arrays",
  "vectorize(f) applied to an array gives f of every element in order, to two arrays f of every pair (arrays of different sizes are rejected), and to scalars f itself, at every later time, whether f is a named object or a lambda expression.",
  "all callables, arrays and times of call", "All callables, sizes and object lifetimes.",
  ["scicpp/core/functional.hpp: vectorize (152-167)", "scicpp/core/maths.hpp: (57-139)"])
p("complex quantities obey dimensional analysis",
  "Products and quotients of complex quantities with quantities, complex quantities and numbers have the product or quotient of the physical values and of the dimensions; norm is the squared magnitude with the squared unit, and polar(abs(z), arg(z)) is z.",
  "all units and complex values", "All units and values.",
  ["scicpp/core/units/quantity.hpp: (540-763)", "scicpp/core/units/maths.hpp: (335-373)"])
p("constants are accurate and have their dimension",
  "pi<T> and e<T> are the numbers of type T nearest to pi and e; each physical constant is in SI base units of the right dimension, the derived ones follow their defining formulas up to a few rounding errors and agree with the values published by CODATA 2018, for float, double and long double.",
  "all floating-point types", "Irrational reference values, and every rounding of every intermediate result.",
  ["scicpp/core/constants.hpp: pi, e (16-20), physical_constants (36-103)"])
p("std::array overloads agree with std::vector overloads",
  "Every overload taking fixed-size arrays (polyadd, polysub, polymul, polymulx, polydiv, polypow, polyder, polyint, diff, concatenate, full) returns an array of the announced size holding the very elements the std::vector overload returns for the same data, and never reads or writes out of bounds.",
  "all array sizes, element types and values", "All sizes and element types, including rounding of floating-point elements.",
  ["scicpp/polynomials/polynomial.hpp: (87-438)", "scicpp/core/numeric.hpp: diff (156-190)", "scicpp/core/manips.hpp: concatenate (27-72)", "scicpp/core/range.hpp: full (35-45)", "scicpp/signal/convolve.hpp: direct_convolve (55-83)"])
p("quantity variables follow their physical value",
  "After any sequence of +=, -=, *=, /=, ++ and -- on a quantity variable its physical value is the result of the same sequence on the physical value (++ and -- move by one unit), prefix forms give the new and postfix forms the old value, mixing dimensions does not compile; and almost_equal of two quantities decides about the physical values whatever the units.",
  "all units, values and histories of statements", "All histories and units.",
  ["scicpp/core/units/quantity.hpp: (269-303)", "scicpp/core/equal.hpp: almost_equal (75-85)"])
p("array expressions mean the element-wise scalar expression",
  "An expression of any depth built from named arrays and scalars with -, !, +, -, *, /, %, && and || (array-array, array-scalar and scalar-array) has as element k the same scalar expression on the elements k, in whatever order C++ evaluates the operands, and leaves the named arrays as they were; arrays of different sizes are rejected.",
  "all expressions, evaluation orders, sizes, contents and value categories", "All expressions, aliasing patterns and unspecified evaluation orders.",
  ["scicpp/core/numeric.hpp: namespace operators (283-594)", "scicpp/core/functional.hpp: map (31-127)"])
p("comparison functions accept any arrays and keep named arguments",
  "equal, not_equal, less, less_equal, greater and greater_equal accept any two containers of comparable elements, const or not, lvalues or rvalues, give the truth value of the comparison at each position, reject different sizes, and leave every argument that is not an rvalue unchanged.",
  "all container types, value categories, const qualifications, sizes and contents", "All combinations of argument types and all contents.",
  ["scicpp/core/numeric.hpp: Comparison (605-658)", "scicpp/core/functional.hpp: map (66-127)"])
p("nan- and t-statistics are those of the selected elements",
  "nanmean/nanvar/nanstd/nansem are the textbook mean, variance, standard deviation and standard error of the numbers among the elements, tmean/tvar/tstd/tsem those of the elements within the limits (each limit included or not), wherever the excluded elements stand.",
  "all arrays, NaN placements, limits and degrees of freedom", "All placements of excluded elements relative to the blocks of the recursion.",
  ["scicpp/core/stats.hpp: tmean (335-340), nanvar, tvar (498-508), std, nanstd, tstd (514-534), sem, nansem, tsem (540-566)", "scicpp/core/functional.hpp: Trim (188-203)"])
p("the computed variance is never negative",
  "In floating point, with every rounding direction, for every array, filter and ddof, var is a number that is not negative, or not finite; std and sem therefore never take the root of a negative number, and are the rounded root of what they should be. The variance of equal elements is 0 and their mean is that element.",
  "all floating-point arrays, rounding directions, filters and ddof", "Every combination of rounding errors.",
  ["scicpp/core/stats.hpp: detail::pairwise_cov (376-452), var (474-508), std (514-534), sem (540-566)"])
p("accuracy of the arithmetic functions in floating point",
  "In every binary floating-point format with rounding to nearest (without overflow), the error of sum, mean, cumsum, prod, inner/dot, trapz, polyval, convolve and polymul is bounded by the number of roundings on the longest path (64 plus the logarithm of the size for the pairwise functions, k for element k of cumsum, one per coefficient for polyval, the size of the smaller operand for convolve) times the unit roundoff and the sum of the absolute terms, plus an underflow term.",
  "all formats, tie rules, sizes and values", "Every combination of rounding errors, for every size.",
  ["scicpp/core/numeric.hpp: sum (29-49), prod (58-78), cumsum (89-99), trapz (129-143), inner (213-252)", "scicpp/core/stats.hpp: mean (308-331)", "scicpp/polynomials/polynomial.hpp: polyval (36-54), polymul (154-163)", "scicpp/signal/convolve.hpp: direct_convolve_impl (31-53)"])
p("linspace and arange in floating point",
  "In every binary format, linspace gives the announced number of elements, starts exactly at start, never steps back and has every element within four roundings of the exact point (the last one of stop); arange gives nothing in the wrong direction, otherwise the rounded points start + i*step in order, none beyond stop, and about |stop-start|/|step| of them.",
  "all formats, tie rules, end points, steps and sizes", "Every combination of rounding errors, for every size.",
  ["scicpp/core/range.hpp: linspace_filler (101-118), arange (187-205)"])
p("Quantiles, percentiles, iqr and medians of floating-point data",
  "For data of any binary floating-point format and q in [0, 1], quantile (every interpolation mode) returns a value between the elements of rank floor(h) and ceil(h), where h is q (n-1) up to one rounding; the lower, higher and nearest modes return the elements of rank floor(h), ceil(h) and h rounded to nearest, and never decrease with q; q = 0 and q = 1 give the minimum and maximum; the result does not depend on the order of the data. percentile never trips its precondition for p in [0, 100], iqr with its default range is never negative, and median is the middle element or a value between the two middle ones, within two roundings of their mean.",
  "all formats and tie-breaking rules, all finite data sets of at most 2^(precision-1) elements, all q, all nth_element algorithms",
  "the rounded position, the snap to an integer index and the rounded interpolation can each step outside the neighbouring elements for particular sizes and fractions no test picks",
  ["scicpp/core/stats.hpp: median, detail::quantile_inplace, quantile, percentile, iqr", "scicpp/core/maths.hpp: lerp"])
p("Accuracy of the variance and standard deviation",
  "The variance of at most 64 * 2^L floating-point numbers of magnitude at most M is such that its square root, and std itself, differ from the exact standard deviation sigma by at most a relative (1+u)^(69+2L) - 1 plus (L+1) (1+u)^(69+2L) ((1+u)^(65+4L) - 1) M sqrt(n/(n-ddof)), u being the unit roundoff: rounding errors grow with the logarithm of the number of data and cancellation costs a few M u, as for a two-pass formula.",
  "all precisions and tie-breaking rules, all data sets (no underflow or overflow), all ddof, all sizes up to 2^precision",
  "the bound concerns every data set: the worst cancellation between block means occurs for particular data no test picks, and the growth with the size is not visible on small samples",
  ["scicpp/core/stats.hpp: covariance, var, std", "scicpp/core/functional.hpp: pairwise_accumulate"])
p("Floating-point windows stay close to their textbook formulas",
  "In binary floating-point arithmetic of precision p (no underflow), with a sine, cosine and exponential accurate to eps, every sample of the boxcar, bartlett, cosine, bohman, general_cosine, general_hamming, hann, hamming, blackman, nuttall, blackmanharris, flattop, gaussian, parzen and lanczos windows, symmetric or periodic, is within an explicit bound (a fixed number of unit roundoffs plus a multiple of eps, independent of the length) of the textbook formula; in double precision with a library accurate to one unit roundoff, every parameterless window is within 2^-46. Windows with values in [0, 1] leave the interval by at most the bound, but do leave it: the ends of bartlett<double>(6) are -2^-53.",
  "every precision of at least 3 bits, every tie-breaking rule, every library with the stated accuracy, every length M >= 2 with 2(M + 1) <= 2^p, both symmetries, every sample and every parameter",
  "tests compare a few lengths with reference values at a tolerance; the bound must hold for every length, sample and rounding outcome",
  ["scicpp/signal/windows.hpp: bartlett, cosine, bohman, general_cosine, general_hamming, hann, hamming, blackman, nuttall, blackmanharris, flattop, gaussian, parzen, lanczos", "scicpp/core/units/maths.hpp: sinc", "scicpp/core/constants.hpp: pi"])
p("Quantities of a floating-point type convert and compare accurately",
  "With a floating-point representation, converting a quantity to another unit of the same dimension gives the exact converted value up to five roundings (relative to the magnitudes of the scaled value and of the offset difference; relative to the value itself when the offsets agree), never reverses an order, is exact to the unit itself and to an n times smaller unit when n v is representable; a round trip returns the value; comparisons of quantities with the same offset agree with the order of the physical values; == means equal and is transitive; a + b, a - b, a += b are accurate and addition commutes; q / k is q divided by k. (Refuted parts: the round trip is only accurate to eight roundings and a converted quantity may compare different from the original; two different numbers of kilometres can compare equal; == is not transitive across three units; q / k multiplies by a rounded reciprocal, so 49 m / 49. is not 1 m although q /= 49. is.)",
  "all pairs of units with rational scales and the same dimension, all values, every precision and tie-breaking rule",
  "rounding makes the answer depend on every bit of the value and on the integer factors of the two units; a test tries a few values of a few units",
  ["scicpp/core/units/quantity.hpp: quantity_cast, operator==, operator<, operator+, operator-, operator+=, operator-=, operator/", "scicpp/core/units/arithmetic.hpp: eval"])
p("Polynomial arithmetic in floating point is accurate, and exact on small integers",
  "With floating-point coefficients: polyadd and polysub return the correctly rounded coefficient sums and differences; polypow (vector and std::array) returns coefficients within (1+u)^(n(n/2 deg+2))-1 of the exact power, relative to the power of the magnitudes; polyint and polyder of order m have relative error (1+u)^m-1 per coefficient; polyfromroots has leading coefficient exactly 1 and error (1+u)^(2n)-1 relative to the polynomial with roots -|r|. With integer coefficients, polymul, polypow and polyfromroots are exact when the product of the coefficient sums is at most 2^prec. The vector and std::array overloads of polypow need not agree beyond that.",
  "every coefficient list, exponent, order, list of roots, precision and tie-breaking rule (no overflow or underflow, except in the add and exactness clauses which allow gradual underflow)",
  "rounding errors depend on the coefficients and accumulate with degree and exponent; tests compare a few results with tolerances",
  ["scicpp/polynomials/polynomial.hpp: polyadd, polysub, polymul, polypow, polyder, polyint, polyfromroots"])
p("Polynomial objects follow polynomial arithmetic",
  "In every program made of constructions, copies, +=, -=, *=, scalings, mulx and the binary operators on any number of named Polynomial objects, none of them empty, also when an assignment operator has the object itself on its right-hand side (P += P, P -= P, P *= P), nothing undefined happens, only the target of each statement changes, and at the end every object has the coefficients, the degree() and the values that polynomial arithmetic gives; operator== holds exactly for equal polynomials.",
  "every commutative ring of coefficients, every number of objects, every initial state, every finite program",
  "Aliasing and histories: tests run a few short programs, and in-place loops over an aliased operand are right or wrong depending on the order of reads and writes.",
  ["scicpp/polynomials/polynomial.hpp: class Polynomial"])
p("Spectra in floating point: accurate, symmetric and only reordered by threads",
  "With floating-point samples, whatever the FFT returns for the segments and however threads are scheduled: welch never returns a negative bin; csd(x, x) is welch(x) with zero imaginary parts and csd(y, x) is the conjugate of csd(x, y), exactly; every bin of a power spectrum has relative error at most (1+u)^(n+3+s)-1 with n segments (s = 0, 1, 2 roundings of the scaling), and the parts of a cross spectrum have that error relative to the sum of the magnitudes of the products; coherence(x, x) is 1 within (1+u)^(4n+15)-1 (three roundings without threads) and tfestimate(x, x) is real and 1 within (1+u)^(2n+7)-1 (exactly 1 without threads) wherever x has power; the result is the one of adding the segments in some order, and any order can occur with n threads. The result is the same in every run, and the coherence never exceeds 1.",
  "every FFT, signal (real, complex, or one of each for csd), window, overlap, scaling, number of threads and schedule, every precision and tie-breaking rule (no overflow or underflow in the accuracy clauses)",
  "rounding errors depend on the data and on the order in which the threads add their segments, which a test cannot control",
  ["scicpp/signal/spectral.hpp: welch, csd, coherence, tfestimate, normalize, compute_spectrum"])
p("Numbers in text",
  "A cell of a text file or a piece of a string is read as the number it starts with: optional blanks, an optional sign, digits with an optional fraction, and an optional exponent with at least one digit; what follows is ignored, and a text that starts with no number reads as 0. Integers are read the same way without fraction and exponent; complex numbers as two numbers joined by a plus sign, and as (nan, nan) when the text starts with no number. The reading is unambiguous.",
  "every text, with NUL characters and blanks anywhere; every integer width and signedness",
  "the set of texts is infinite and the interesting ones (half exponents, lone points and signs, trailing characters) are easy to miss",
  ["scicpp/core/io.hpp: to_number (56-80)"])
p("Frequency axes in floating point",
  "In every binary format with round to nearest, fftfreq(n, d) gives n frequencies, each within three roundings of the exact harmonic k/(n d) (four for the axis get_freqs of a Spectrum object, computed from 1/fs), the zero frequency exactly 0, opposite harmonics exactly opposite, and strictly increasing values after fftshift; rfftfreq gives the same values for the harmonics 0 .. n/2 (the last one of an even n is the opposite of the one of fftfreq); both are exact when n and d are powers of two; n = 0 and d <= 0 are refused. This holds for every n.",
  "every precision, every symmetric tie rule, every size and sample spacing",
  "tests compare a handful of sizes below 20 in double precision; the saturation of the counter needs more than 2^25 samples in float",
  ["scicpp/signal/fft.hpp: fftfreq, rfftfreq, fftfreq_impl, rfftfreq_impl", "scicpp/signal/spectral.hpp: get_freqs"])
p("Spectra of sinusoids are calibrated",
  "For a Spectrum object with any window whose weights do not add up to 0, any overlap, length and number of threads: a complex exponential of amplitude A whose frequency is that of bin j gives exactly |A|^2 in bin j of welch with SPECTRUM scaling, at the frequency of the tone, and no larger value in another bin if no weight is negative; the cross spectrum of two such tones is conj(A) B; with equal weights every other bin is 0, and a real sinusoid gives its mean square A^2/2, whatever its phase ((A cos phi)^2 at the Nyquist frequency). A constant added to the signal changes nothing, a gain g multiplies every bin by g^2.",
  "all configured objects, amplitudes, phases, harmonics, signal lengths, schedules",
  "tests compare noise records with values computed by scipy; the amplitude, the phase and the place of a line are never checked, let alone for every window and length",
  ["scicpp/signal/spectral.hpp: Spectrum, welch, csd, normalize, get_freqs", "scicpp/signal/fft.hpp: rfft, fft"])
p("Covariance of two data sets in floating point",
  "covariance(x, y) of n <= 64 2^L pairs of floating-point numbers of magnitudes at most (Mx, My) is within gamma(68+2L) (sx + px)(sy + py) + sx py + px sy + px py of the exact covariance, where sx, sy are the exact standard deviations and px = sqrt(L+1) gamma(65+4L) sqrt(n/(n-ddof)) Mx (py alike) the blur caused by rounding the means; covariance(x, y) and covariance(y, x) are the same number for at most 64 pairs, and beyond that may differ in the last bits (both within the bound); cov holds the two variances and that one covariance twice.",
  "every precision and tie rule (no overflow or underflow), all data, sizes and ddof",
  "rounding errors depend on the data; the block structure only shows above 64 pairs, where tests compare a few values within a tolerance",
  ["scicpp/core/stats.hpp: covariance, cov", "scicpp/core/functional.hpp: pairwise_accumulate"])
p("euler_gamma and apery_cst are correctly rounded",
  "euler_gamma<T> is the number of type T nearest to the limit of 1 + 1/2 + ... + 1/n - ln n, and apery_cst<T> the one nearest to the sum of 1/n^3, for float, double and long double.",
  "the three floating-point types",
  "the reference values are limits that no test can compute; a test can only repeat the digits of the source",
  ["scicpp/core/constants.hpp: euler_gamma, apery_cst (22-27)"])
p("Statistics of joined, rescaled and added data",
  "The mean of two joined data sets is the weighted mean of their means, and (n+m-ddof) times their joint variance (covariance) is the sum of the same quantities of the parts plus n m/(n+m) times the squared difference (product of the differences) of the means; covariance is symmetric, bilinear and blind to shifts, and var(x+z) = var x + 2 cov(x,z) + var z; mean, median, quantile and iqr of k x + c are k times those of x plus c (iqr: without c), for k > 0, mean and median for every k.",
  "all non-empty finite data sets of doubles (exact arithmetic), all ddof below the sizes, all k and c, all quantiles and interpolation modes, every nth_element",
  "identities between calls on different data, true for all data only",
  ["scicpp/core/stats.hpp: mean, var, covariance, median, quantile, iqr"])
p("Cross-spectrum of a real and a complex signal",
  "csd of one real and one complex signal is exactly what csd gives when the real samples are passed as complex numbers with zero imaginary part (two-sided, same frequencies, scaling and zero padding), in both argument orders and conjugate to each other; coherence and tfestimate accept such a pair and agree with the all-complex calls.",
  "all objects, scalings, pairs of signals and lengths (embedding); all configured objects and signals at least as long as the window (values), exact arithmetic",
  "an identity between two instantiations of a template over all signals, lengths, windows and overlaps",
  ["scicpp/signal/spectral.hpp: csd (179-256), coherence (258-272), tfestimate (274-282), welch2_impl (393-416), element_type_t"])
p("Noise bandwidth of a window in floating point",
  "s2 of a window of n samples is within n+1 roundings (relatively) of the sum of the squares; enbw is within n+4 roundings, plus the amplification of the error of the pairwise sum by the cancellation of positive and negative samples, of fs times the sum of squares over the squared sum; for the boxcar window at unit rate it is the number next to 1/M; it is never below one bin.",
  "all windows (any values of a binary format of any precision, any length up to 64*2^L), all sampling rates, both tie-breaking rules; exponent range unlimited",
  "an error bound over all windows and lengths; tests compare with a tolerance at a few points",
  ["scicpp/signal/windows.hpp: s1, s2, enbw (595-613)", "scicpp/core/numeric.hpp: sum"])
p("Histograms of floating-point data",
  "Histograms of doubles, with the default search or uniform bins, and densities: with uniform bins every sample is counted in at most one bin, none below the first edge, in the order of the samples, and in the bin whose edges enclose it up to three relative rounding errors of its distance to the first edge; a sample clear of the edges by that much goes to its own bin, one equal to the first or second edge too. A sample equal to any edge goes to the bin right of it. Each density is the count divided by the number of counted samples and the bin width to within five relative rounding errors (three when the counts are floating-point numbers), and the densities integrate to one to that error.",
  "every precision, rounding of ties, list of samples and list of edges (sorted, at least two, the first two different; all different for densities), whatever almost_equal answers",
  "the position of a sample comes from two rounded subtractions and a rounded division; samples next to an edge are exactly where the result depends on the roundings",
  ["scicpp/core/histogram.hpp: histogram, Density, UniformBins"])
p("Geometric means and weighted averages in floating point",
  "gmean of positive doubles is the n-th root of their product up to a relative error governed by the accuracy of log and exp, the roundings of the mean and the average magnitude of the logarithms; average of values with non-negative weights that are not all zero is their weighted average to a relative error of 130 + 2 log2(n/64) roundings of the weighted average of the magnitudes, so it stays between the smallest and largest value up to that error. The geometric mean of a single number and the weighted average of equal numbers are that number.",
  "every precision, rounding of ties, list of data and weights (any length), and every log and exp of the stated accuracy",
  "rounding errors depend on all the data and on the pairwise tree of the sum; a test sees a handful of lists and one library",
  ["scicpp/core/stats.hpp: gmean, average, mean", "scicpp/core/numeric.hpp: inner, sum"])
p("The sawtooth in floating point",
  "sawtooth of non-negative times succeeds for every width in [0, 1], and each value is that of the textbook wave (rising until 2 pi width, falling after) up to a few roundings - on the falling part, roundings relative to its slope 1/(1-width). std::fmod is exact, so the time's reduction modulo 2 pi<T> adds no error however late the time, and the peak is at 2 times the rounded width * pi<T>. Every value lies between -1 and 1.",
  "every precision, rounding of ties, width and list of non-negative times",
  "rounding errors depend on the time and width, and the excess needs a width one rounding away from 1; a test compares a few times at one width to a tolerance",
  ["scicpp/signal/waveforms.hpp: sawtooth"])
#APPEND

with open("properties.jsonl", "w") as f:
    for x in P:
        f.write(json.dumps(x) + "\n")
print(len(P), "properties")
