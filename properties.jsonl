{"id": "C01", "title": "map is element-wise", "statement": "map(op, a) returns an array of the same length whose i-th element is op(a[i]); map(op, a, b) returns op(a[i], b[i]) at every i when the two arrays have equal lengths, and is a precondition violation (assert / undefined behaviour) exactly when they differ. The overload chosen by value category never changes the returned value.", "quantifier": "all element types, operations, arrays of every length, all value-category overloads", "why_tests_cant": "Tests check a few literals for one overload; the claim ranges over every length, every operation and the four binary overloads.", "anchors": ["scicpp/core/functional.hpp: map (31-127)"]}
{"id": "C02", "title": "map leaves a named array unchanged", "statement": "Calling map(op, a) (or a vectorised function built on it) with a named array leaves that array's contents unchanged.", "quantifier": "all operations and named (lvalue) arrays, const or not", "why_tests_cant": "Needs reasoning about overload resolution for every value category and every operation type; tests use const arrays.", "anchors": ["scicpp/core/functional.hpp: map (31-57)", "scicpp/core/functional.hpp: vectorize (154-169)"]}
{"id": "C03", "title": "filter keeps exactly the satisfying elements in order", "statement": "filter(a, p) contains exactly those elements of a satisfying p, with multiplicity, in their original order; filtering twice is the same as filtering once.", "quantifier": "all arrays and predicates", "why_tests_cant": "Multiset and order claims over all arrays and predicates.", "anchors": ["scicpp/core/functional.hpp: filter (208-221)"]}
{"id": "C04", "title": "reduce/filter_reduce is a left fold with an exact count", "statement": "filter_reduce(a, op, init, p) returns (fold-left of op from init over the elements satisfying p, the number of elements satisfying p); reduce is the same with no filter and counts every element.", "quantifier": "all arrays, operations, initial values and predicates", "why_tests_cant": "Universally quantified over operation and predicate.", "anchors": ["scicpp/core/functional.hpp: filter_reduce (227-252)", "scicpp/core/functional.hpp: reduce (258-262)"]}
{"id": "C05", "title": "pairwise recursion computes the sequential fold for associative operations", "statement": "For every associative operation with identity id, the pairwise/blocked reduction used for non-integer types returns the same value and count as the plain sequential fold over the filtered array, for every array length (every split tree) \u2014 so sum, prod and inner do not depend on the block size or on the type dispatch.", "quantifier": "all associative operations with identity, all filters, arrays of every length", "why_tests_cant": "The recursion tree depends on the length; tests cover only few lengths around the block size.", "anchors": ["scicpp/core/functional.hpp: pairwise_accumulate (284-334)", "scicpp/core/functional.hpp: filter_reduce_associative (345-377)"]}
{"id": "C06", "title": "pairwise summation error bound", "statement": "With rounded addition of relative error at most u, sum(a) of n floating-point numbers differs from the exact sum by at most ((1+u)^(64+ceil(log2 n)) - 1) times the sum of absolute values: the error exponent grows logarithmically beyond a 64-element block.", "quantifier": "all finite inputs of every length, every rounded addition obeying the standard model (including IEEE binary64 round-to-nearest without overflow)", "why_tests_cant": "A bound over all inputs and lengths; testing cannot establish a worst case.", "anchors": ["scicpp/core/functional.hpp: pairwise_accumulate, filter_reduce_associative", "scicpp/core/numeric.hpp: sum (29-52)"]}
{"id": "C07", "title": "cumulative operations are running folds", "statement": "The k-th element of cumsum(a)/cumprod(a) (nancumsum/nancumprod) is the sum/product of the first k+1 (non-NaN) elements of a; the result has as many elements as a has (non-NaN) elements; empty gives empty.", "quantifier": "all arrays and operations", "why_tests_cant": "All lengths and prefixes.", "anchors": ["scicpp/core/functional.hpp: cumacc (386-396)", "scicpp/core/numeric.hpp: cumsum, nancumsum, cumprod, nancumprod (89-123)"]}
{"id": "C08", "title": "sum, prod, nansum, nanprod are the mathematical sum and product", "statement": "sum(a) equals a[0]+...+a[n-1] and prod(a) the product (0 and 1 for empty arrays); nansum/nanprod equal sum/prod of the array with NaNs removed, and sum is NaN as soon as one element is NaN. sum is invariant under permutation and additive under concatenation.", "quantifier": "all arrays (exact arithmetic, idealised doubles with NaN and infinities)", "why_tests_cant": "All lengths, all NaN positions and all permutations.", "anchors": ["scicpp/core/numeric.hpp: sum, nansum, prod, nanprod (29-83)"]}
{"id": "C09", "title": "diff is the n-th forward difference", "statement": "diff(a, n) has max(len(a)-n, 0) elements and its i-th element is sum_k (-1)^(n-k) C(n,k) a[i+k]; diff(a, 1) undoes cumsum; the std::array overload agrees with the std::vector overload.", "quantifier": "all arrays, all orders n", "why_tests_cant": "All orders and lengths.", "anchors": ["scicpp/core/numeric.hpp: diff (154-207)"]}
{"id": "C10", "title": "trapz is the trapezoidal rule", "statement": "trapz(f, dx) of n samples equals dx * sum_i (f[i]+f[i+1])/2; it is exact for affine functions, additive over adjacent intervals and defined for every array (empty and one-element arrays integrate to 0).", "quantifier": "all arrays including empty and single-element ones, all steps", "why_tests_cant": "Boundary sizes and all lengths.", "anchors": ["scicpp/core/numeric.hpp: trapz (129-148)"]}
{"id": "C11", "title": "inner/dot/vdot are (sesqui)linear products", "statement": "inner(a, b) = sum a[i]b[i] for equal-length arrays (precondition violation otherwise): symmetric and bilinear; vdot conjugates its first argument, so vdot(a,a) is real and non-negative and vdot(b,a) = conj(vdot(a,b)).", "quantifier": "all pairs of arrays, real and complex", "why_tests_cant": "Algebraic laws over all arrays and lengths including the 64-element block recursion.", "anchors": ["scicpp/core/numeric.hpp: inner, dot, vdot (213-275)"]}
{"id": "C12", "title": "element-wise comparisons agree with scalar comparisons", "statement": "less/less_equal/greater/greater_equal/equal/not_equal and the operators <, <=, >, >= between arrays (or array and scalar) yield at each position the truth value of the corresponding scalar comparison, including when an operand is NaN.", "quantifier": "all arrays, all scalars including NaN", "why_tests_cant": "NaN positions are quantified; unit tests never compare NaN.", "anchors": ["scicpp/core/numeric.hpp: comparison operators and functions (283-658)"]}
{"id": "C13", "title": "mask selects exactly the flagged positions", "statement": "mask(a, m) returns the elements of a at the positions where m is true, in order (equal lengths required); the in-place and copying overloads agree, and masking by a predicate's truth values equals filter.", "quantifier": "all arrays, all masks", "why_tests_cant": "All lengths and masks, both overloads.", "anchors": ["scicpp/core/numeric.hpp: mask (664-705)"]}
{"id": "C14", "title": "argmax/argmin return the first extremal index", "statement": "argmax(a)/argmin(a) of a non-empty array without NaN returns the smallest index holding the maximal/minimal element.", "quantifier": "all non-empty arrays", "why_tests_cant": "All arrays and tie patterns.", "anchors": ["scicpp/core/numeric.hpp: argmax, argmin (713-796)"]}
{"id": "C15", "title": "nanargmax/nanargmin return the index of the extremal non-NaN element", "statement": "nanargmax(a)/nanargmin(a) of an array with at least one non-NaN element returns the smallest index of an element extremal among the non-NaN elements; with no such element the call does not read outside the array.", "quantifier": "all arrays, all NaN placements", "why_tests_cant": "NaN placement before the maximum is quantified; tests use one placement.", "anchors": ["scicpp/core/numeric.hpp: argcmp, nanargmax, nanargmin (713-796)"]}
{"id": "C16", "title": "argwhere/nonzero list exactly the matching indices", "statement": "argwhere(a, p) is the strictly increasing list of all indices whose element satisfies p; nonzero/flatnonzero use p(v) = (v != 0); indexing a at these positions gives filter(a, p).", "quantifier": "all arrays and predicates", "why_tests_cant": "Universal over predicates and lengths.", "anchors": ["scicpp/core/numeric.hpp: argwhere, nonzero (802-829)"]}
{"id": "C17", "title": "linspace spacing and end points", "statement": "linspace(start, stop, num) has num elements, the i-th equals start + i*(stop-start)/(num-1) (first element start, last element stop), monotone when start<=stop; num=1 gives {start}; num=0 gives an empty array.", "quantifier": "all start, stop, num (exact arithmetic)", "why_tests_cant": "All sizes and end points.", "anchors": ["scicpp/core/range.hpp: linspace (101-130)"]}
{"id": "C18", "title": "linspace hits stop exactly in floating point", "statement": "The last element of linspace(start, stop, num), num >= 2, compares equal to stop in double precision.", "quantifier": "all doubles start, stop, all num", "why_tests_cant": "Rounding depends on the exact inputs; only a few are tested with a tolerance.", "anchors": ["scicpp/core/range.hpp: linspace (101-130)"]}
{"id": "C19", "title": "arange enumerates the half-open interval", "statement": "arange(start, stop, step) returns exactly the points start + i*step lying in [start, stop) (or (stop, start] for negative steps) \u2014 as many as there are, none when the direction of step is wrong.", "quantifier": "all start, stop, step != 0", "why_tests_cant": "The count depends on the fractional part of (stop-start)/step.", "anchors": ["scicpp/core/range.hpp: arange (194-209)"]}
{"id": "C20", "title": "full/zeros/ones/logspace", "statement": "full(n, v), zeros(n), ones(n) have n elements all equal to v, 0, 1; logspace(start, stop, num, base)[i] = base^(start + i*(stop-start)/(num-1)).", "quantifier": "all n, v, start, stop, base", "why_tests_cant": "All sizes.", "anchors": ["scicpp/core/range.hpp: full, zeros, ones (35-93)", "scicpp/core/range.hpp: logspace (138-187)"]}
{"id": "C21", "title": "concatenate and flip", "statement": "concatenate(a, b, ...) holds a's elements followed by b's (and so on), every value-category overload gives the same content, and grouping does not matter; flip(a)[i] = a[n-1-i], flip is an involution and flip(concatenate(a,b)) = concatenate(flip(b), flip(a)).", "quantifier": "all arrays of every length, all overloads, any number of arguments", "why_tests_cant": "All lengths and overloads.", "anchors": ["scicpp/core/manips.hpp: concatenate (27-145)", "scicpp/core/manips.hpp: flip (151-167)"]}
{"id": "C22", "title": "subvector is in bounds", "statement": "subvector(v, len, offset) returns v[offset .. offset+min(len, size)) and never reads outside v.", "quantifier": "all vectors, lengths, offsets", "why_tests_cant": "Out-of-bounds combinations are never tested.", "anchors": ["scicpp/core/utils.hpp: subvector (41-55)"]}
{"id": "C23", "title": "amax/amin/ptp", "statement": "amax(a)/amin(a) of a non-empty NaN-free array return an element of a that is >= / <= all others, ptp their difference; empty arrays give NaN.", "quantifier": "all arrays", "why_tests_cant": "All arrays and orders.", "anchors": ["scicpp/core/stats.hpp: amax, amin, ptp (40-74)"]}
{"id": "C24", "title": "median is the middle order statistic", "statement": "median(a) equals the middle element of the sorted data (odd size) or the mean of the two middle ones (even size), NaN for empty; it does not depend on the order of the elements nor on how the selection algorithm permutes them; nanmedian ignores NaNs; tmedian uses only values within limits.", "quantifier": "all arrays, every behaviour of nth_element allowed by the C++ standard", "why_tests_cant": "Every permutation and every conforming nth_element.", "anchors": ["scicpp/core/stats.hpp: median_inplace, median, nanmedian, tmedian (97-140)"]}
{"id": "C25", "title": "quantile interpolates order statistics", "statement": "quantile(a, q) with 0<=q<=1 returns the interpolation-mode dependent combination of the order statistics around q*(n-1): it lies between amin and amax, is non-decreasing in q for a fixed mode, equals amin at q=0 and amax at q=1 and the median at q=1/2 (linear/midpoint); independent of element order.", "quantifier": "all non-empty arrays, all q in [0,1], all interpolation modes", "why_tests_cant": "Continuous parameter q and all arrays.", "anchors": ["scicpp/core/stats.hpp: quantile (150-203), percentile, iqr (244-302)"]}
{"id": "C26", "title": "mean/average", "statement": "mean(a) = sum/len, NaN for empty; nanmean(a) = mean of the non-NaN elements; min <= mean <= max; average(a, w) = sum(w a)/sum(w) and equals mean for constant non-zero weights.", "quantifier": "all arrays (exact arithmetic)", "why_tests_cant": "All arrays and lengths.", "anchors": ["scicpp/core/stats.hpp: average (80-87), mean, nanmean, tmean (308-340)"]}
{"id": "C27", "title": "variance/covariance equal the two-pass textbook formula", "statement": "covariance(a, b, ddof) = sum (a_i - mean a)(b_i - mean b) / (n - ddof) for equal-length NaN-free arrays of every length (whatever the block splitting), var(a) = covariance(a, a) >= 0, shift invariant and quadratic under scaling; infinity when n <= ddof.", "quantifier": "all NaN-free arrays of any length, all ddof", "why_tests_cant": "The blocked pairwise update formula must agree with the two-pass one for every recursion tree.", "anchors": ["scicpp/core/stats.hpp: covariance (376-452), var (475-508)"]}
{"id": "C28", "title": "nanvar/nancov ignore NaNs", "statement": "nanvar(a) equals var of the array with NaNs removed; nancov(a,b) equals the covariance over the positions where both are non-NaN.", "quantifier": "all arrays, all NaN placements", "why_tests_cant": "Depends on NaN placement relative to 64-element blocks.", "anchors": ["scicpp/core/stats.hpp: covariance (376-452), nanvar, nancov"]}
{"id": "C29", "title": "central moments", "statement": "moment<n>(a) = mean((a - mean a)^n) over the elements selected by the filter (nanmoment: non-NaN elements, tmoment: within limits); moment<0> = 1, moment<1> = 0.", "quantifier": "all arrays, filters and orders", "why_tests_cant": "All arrays and filters.", "anchors": ["scicpp/core/stats.hpp: moment (572-600)"]}
{"id": "C30", "title": "cov matrix", "statement": "cov(x, y) is the symmetric 2x2 matrix {var x, cov(x,y); cov(x,y), var y} and satisfies Cauchy-Schwarz (non-negative determinant).", "quantifier": "all equal-length arrays", "why_tests_cant": "Inequality over all data.", "anchors": ["scicpp/core/stats.hpp: cov (608-678)"]}
{"id": "C31", "title": "histogram counts per bin", "statement": "histogram(x, edges) returns for each bin [e_i, e_{i+1}) (last bin closed) the number of elements falling in it; the counts add up to the number of elements within [e_0, e_last]; values outside are ignored; fewer than two edges give an empty histogram; the result does not depend on the order of x.", "quantifier": "all data, all increasing edge vectors", "why_tests_cant": "All data/edge configurations.", "anchors": ["scicpp/core/histogram.hpp: histogram (139-220)"]}
{"id": "C32", "title": "uniform-bin histogram agrees with the general one", "statement": "The fast path for uniform bins returns the same counts as the general bin search on the same edges.", "quantifier": "all data, all uniform edges (exact arithmetic)", "why_tests_cant": "Index computation vs search for every datum, including those exactly on edges.", "anchors": ["scicpp/core/histogram.hpp: histogram (139-220)"]}
{"id": "C33", "title": "density histogram integrates to one", "statement": "With density normalisation sum_i density_i * (e_{i+1}-e_i) = 1 whenever at least one element is in range.", "quantifier": "all data and increasing edges", "why_tests_cant": "All data.", "anchors": ["scicpp/core/histogram.hpp: histogram density (160-220)"]}
{"id": "C34", "title": "almost_equal is reflexive and symmetric", "statement": "almost_equal<tol>(a, b) is symmetric, true when a and b are identical (including infinities), and for arrays true only when sizes match and every pair of elements is almost equal.", "quantifier": "all pairs of doubles including NaN, infinities and subnormals; all arrays", "why_tests_cant": "All bit patterns.", "anchors": ["scicpp/core/equal.hpp: fp_equal_predicate (29-51), almost_equal (55-98)"]}
{"id": "C35", "title": "lerp is exact at the end points and monotone", "statement": "lerp(a, b, 0) = a, lerp(a, b, 1) = b, lerp(a, a, t) = a; for t in [0,1] the result lies between a and b and is monotone in t.", "quantifier": "all a, b, t (exact arithmetic)", "why_tests_cant": "Continuous parameters.", "anchors": ["scicpp/core/maths.hpp: lerp (177-199)"]}
{"id": "C36", "title": "polyval evaluates the polynomial", "statement": "polyval(x, P) = P[0] + P[1] x + ... + P[n-1] x^(n-1) (0 for an empty P), at every point of an array argument.", "quantifier": "all points, all coefficient vectors over any commutative ring", "why_tests_cant": "All degrees and ring elements.", "anchors": ["scicpp/polynomials/polynomial.hpp: polyval (36-54)"]}
{"id": "C37", "title": "polynomial addition, subtraction, multiplication, powers are pointwise", "statement": "For every x, polyval(x, P+Q) = polyval(x,P)+polyval(x,Q); likewise for polysub, polymul, polymulx (times x), polypow (n-th power, n>=0), with vectors of arbitrary different lengths; P - Q = P + (-Q).", "quantifier": "all coefficient vectors, exponents and points over any commutative ring", "why_tests_cant": "All degrees.", "anchors": ["scicpp/polynomials/polynomial.hpp: polyadd (62-99), polysub (107-148), polymul (154-163), polymulx (246-265), polypow (275-320)"]}
{"id": "C38", "title": "polydiv is Euclidean division", "statement": "polydiv(u, v) = (q, r) with u = q v + r and deg r < deg v for every divisor with non-zero leading coefficient.", "quantifier": "all dividends and divisors", "why_tests_cant": "All degrees, including non-monic divisors which tests may miss.", "anchors": ["scicpp/polynomials/polynomial.hpp: polydiv_impl, polydiv (174-240)"]}
{"id": "C39", "title": "polyder and polyint are inverse", "statement": "polyder is the derivative of the polynomial represented (in the order used by polyval) and polyint an antiderivative: polyder(polyint(P)) = P; iterating m times composes.", "quantifier": "all coefficient vectors, all m", "why_tests_cant": "All degrees and orders.", "anchors": ["scicpp/polynomials/polynomial.hpp: polyder (328-391), polyint (399-458)"]}
{"id": "C40", "title": "polytrim removes only negligible leading coefficients", "statement": "polytrim(P, tol) removes trailing coefficients whose magnitude is <= tol and nothing else, so with tol = 0 the polynomial function is unchanged.", "quantifier": "all coefficient vectors and tolerances", "why_tests_cant": "Sign of the leading coefficient is quantified.", "anchors": ["scicpp/polynomials/polynomial.hpp: polytrim (546-556)"]}
{"id": "C41", "title": "polyfromroots has exactly the given roots", "statement": "polyfromroots(r) is monic of degree len(r) and polyval(x, polyfromroots(r)) = prod (x - r_i), so it vanishes exactly at the roots.", "quantifier": "all root lists", "why_tests_cant": "All lists and points.", "anchors": ["scicpp/polynomials/polynomial.hpp: polyfromroots (705-721)"]}
{"id": "C42", "title": "polycompanion and polyvander", "statement": "polyvander(x, deg) has len(x) rows and deg+1 columns with entry (i,j) = x_i^j; every root r of P gives the eigen relation of the companion matrix of P.", "quantifier": "all points, degrees, polynomials", "why_tests_cant": "All sizes including degree 0.", "anchors": ["scicpp/polynomials/polynomial.hpp: polycompanion (464-482), polyvander (497-526)"]}
{"id": "C43", "title": "convolution is the Cauchy product", "statement": "convolve(a, v)[k] = sum_i a[i] v[k-i] with len(a)+len(v)-1 elements for non-empty inputs; it is commutative, associative, bilinear and has the unit impulse as identity.", "quantifier": "all non-empty arrays over any commutative ring", "why_tests_cant": "All lengths and both argument orders (the code swaps the longer first).", "anchors": ["scicpp/signal/convolve.hpp: direct_convolve (34-81), convolve"]}
{"id": "C44", "title": "fftconvolve equals direct convolution", "statement": "fftconvolve(a, v) equals convolve(a, v) (exact arithmetic, given an FFT back-end that computes the DFT and its inverse).", "quantifier": "all non-empty arrays", "why_tests_cant": "Zero padding must prevent wrap-around for every pair of lengths.", "anchors": ["scicpp/signal/convolve.hpp: fftconvolve (89-107)"]}
{"id": "C45", "title": "correlate is the cross-correlation", "statement": "correlate(a, v)[k] = sum_n a[n+k-(len(v)-1)] conj(v[n]).", "quantifier": "all non-empty arrays", "why_tests_cant": "All lengths.", "anchors": ["scicpp/signal/convolve.hpp: correlate (134-149)"]}
{"id": "C46", "title": "fftshift and ifftshift are inverse", "statement": "ifftshift(fftshift(a)) = a = fftshift(ifftshift(a)) for every length, odd or even; both are permutations that move the zero-frequency sample to index n/2; all overloads agree, and the call is defined for every array including the empty one.", "quantifier": "all arrays of every length", "why_tests_cant": "Parity and all lengths incl. empty.", "anchors": ["scicpp/signal/fft.hpp: fftshift, ifftshift (26-63)"]}
{"id": "C47", "title": "fftfreq/rfftfreq layout", "statement": "fftfreq(n, d)[i] = i/(nd) for i < (n+1)/2 and (i-n)/(nd) above; fftshift(fftfreq(n,d)) is strictly increasing for d>0; rfftfreq(n,d)[i] = i/(nd) with n/2+1 entries.", "quantifier": "all n >= 1, d > 0", "why_tests_cant": "All sizes.", "anchors": ["scicpp/signal/fft.hpp: fftfreq, rfftfreq (69-110)"]}
{"id": "C48", "title": "next_fast_len is the smallest 5-smooth number not below n", "statement": "next_fast_len(n) returns a number m >= n whose only prime factors are 2, 3, 5, and no smaller such number exists; the search terminates.", "quantifier": "all n", "why_tests_cant": "Unbounded search over the Hamming-number generator.", "anchors": ["scicpp/signal/fft.hpp: Hamming generator, next_fast_len (116-166)"]}
{"id": "C49", "title": "zero_padding truncates or pads", "statement": "zero_padding(v, m) has m elements: v's first min(m,len) elements then zeros.", "quantifier": "all vectors and sizes", "why_tests_cant": "All lengths.", "anchors": ["scicpp/signal/fft.hpp: zero_padding (168-184)"]}
{"id": "C50", "title": "symmetric windows are symmetric and have the requested length", "statement": "Every window built with the symmetric mode satisfies w[i] = w[M-1-i] for all i and has M elements (bit-for-bit, for any arithmetic).", "quantifier": "all M, all window generators", "why_tests_cant": "All sizes and generators, odd and even.", "anchors": ["scicpp/signal/windows.hpp: symmetric_filler, build_window (32-64)"]}
{"id": "C51", "title": "periodic windows drop the last sample of the next symmetric one", "statement": "window(M, Periodic) = first M samples of window(M+1, Symmetric), for every window family and every parameter.", "quantifier": "all M, all families and parameters", "why_tests_cant": "Special-cased parameters.", "anchors": ["scicpp/signal/windows.hpp: build_window (40-64), tukey, get_window"]}
{"id": "C52", "title": "window values and formulas", "statement": "Each window sample equals its documented formula and lies in [0,1] with maximum 1 for the positive windows (bartlett, hann, hamming, cosine, triangular tapers...).", "quantifier": "all M and all indices", "why_tests_cant": "All sizes.", "anchors": ["scicpp/signal/windows.hpp: bartlett, hann, hamming, cosine, general_cosine"]}
{"id": "C53", "title": "equivalent noise bandwidth is at least one bin", "statement": "enbw(w) >= 1/N-normalised bound: N*s2 >= s1 with s1=(sum w)^2, s2 = sum w^2 for every window, equality for the boxcar.", "quantifier": "all windows", "why_tests_cant": "Cauchy-Schwarz over all data.", "anchors": ["scicpp/signal/windows.hpp: s1, s2, enbw (598-617)"]}
{"id": "C54", "title": "multithreaded spectra are schedule independent", "statement": "The averaged spectrum computed with any number of threads and any interleaving of the worker's critical sections equals the sequential one (addition being associative and commutative), every segment being processed exactly once.", "quantifier": "all schedules, thread counts, segment counts", "why_tests_cant": "Schedules cannot be enumerated by tests.", "anchors": ["scicpp/signal/spectral.hpp: compute_segments_multithread (328-348), compute_spectrum (351-375)"]}
{"id": "C55", "title": "segments cover the signal without overrun", "statement": "welch splits a signal of length n into 1+(n-nperseg)/(nperseg-noverlap) segments all inside the signal for nperseg <= n and noverlap < nperseg, no further full segment fits; invalid settings are rejected before any division by zero or out-of-bounds access.", "quantifier": "all n, nperseg, noverlap that the setters accept", "why_tests_cant": "All integer combinations accepted by the API.", "anchors": ["scicpp/signal/spectral.hpp: welch_impl (378-391), set_parameters"]}
{"id": "C56", "title": "one-sided normalisation preserves power", "statement": "One-sided doubling multiplies every bin except DC (and Nyquist for even length) by two so the total equals that of the two-sided spectrum of a real signal.", "quantifier": "all lengths (odd and even) and all spectra of real signals", "why_tests_cant": "All lengths and parities.", "anchors": ["scicpp/signal/spectral.hpp: normalize (419-440)"]}
{"id": "C57", "title": "spectral calls do not change the configuration", "statement": "Calling periodogram/welch/csd on a Spectrum object does not change the result of later calls with the same arguments.", "quantifier": "all sequences of setter and computation calls", "why_tests_cant": "Histories of calls.", "anchors": ["scicpp/signal/spectral.hpp: Spectrum"]}
{"id": "C58", "title": "unit_impulse and sawtooth", "statement": "unit_impulse(n, i) has a single 1 at index i and zeros elsewhere; sawtooth(t) is 2*pi periodic with values in [-1, 1] for every t, negative t included.", "quantifier": "all n, i, t", "why_tests_cant": "All real t.", "anchors": ["scicpp/signal/waveforms.hpp: unit_impulse (26-46), sawtooth (54-70)"]}
{"id": "C59", "title": "fromstring/tokenising", "statement": "Splitting a line on the delimiter yields the maximal delimiter-free non-empty pieces in order; joining numbers with the delimiter and reading them back returns the same numbers.", "quantifier": "all strings and delimiters", "why_tests_cant": "All strings.", "anchors": ["scicpp/core/io.hpp: iterate_line (122-145), fromstring"]}
{"id": "C60", "title": "loadtxt skips comments, header rows and honours max_rows", "statement": "loadtxt returns the values of exactly those lines that come after skiprows lines, are not comments, up to max_rows of them, column-filtered by usecols.", "quantifier": "all files and settings", "why_tests_cant": "All file contents and option combinations.", "anchors": ["scicpp/core/io.hpp: iterate_file (217-242), loadtxt_to_vector (246-274)"]}
{"id": "C61", "title": "TxtLoader setters", "statement": "Each TxtLoader setter changes only its own option; calls compose in any order and the last call for an option wins.", "quantifier": "all sequences of setter calls", "why_tests_cant": "Histories of setter calls.", "anchors": ["scicpp/core/io.hpp: TxtLoader (407-524)"]}
{"id": "C62", "title": "prime factorisation is correct", "statement": "prime_factors(n) for n >= 1 lists primes with positive multiplicities in increasing order whose product of powers is n, within the allocated table.", "quantifier": "all n in the intmax range (unbounded integers in the model)", "why_tests_cant": "All integers.", "anchors": ["scicpp/core/units/arithmetic.hpp: prime_factors (86-133)"]}
{"id": "C63", "title": "primality and prime enumeration", "statement": "is_prime(n) is true exactly for primes; next_prime(n) is the least prime greater than n; prime_list enumerates primes in order.", "quantifier": "all integers", "why_tests_cant": "All integers.", "anchors": ["scicpp/core/units/arithmetic.hpp: is_prime, next_prime, prime_list (303-344)"]}
{"id": "C64", "title": "integer roots are exact", "statement": "ct_root<k>(x) is the floor of the k-th root; is_exact_root recognises exactly the perfect k-th powers.", "quantifier": "all k>=1, x>=0", "why_tests_cant": "Newton iteration must converge for every input.", "anchors": ["scicpp/core/units/arithmetic.hpp: ct_root, root_newton_raphson (54-79), is_exact_root (166)"]}
{"id": "C65", "title": "root_ratio arithmetic is exact", "statement": "The real number denoted by multiply/divide/power of root ratios is the product/quotient/power of the denoted numbers, and root_ratio_root denotes the root.", "quantifier": "all root ratios", "why_tests_cant": "All rational/exponent combinations.", "anchors": ["scicpp/core/units/arithmetic.hpp: root_ratio, root_ratio_multiply, divide, power, root (145-293)"]}
{"id": "C66", "title": "dimension bookkeeping is a group homomorphism", "statement": "Two quantities have the same dimension type exactly when their exponent vectors agree: multiplication adds exponents, division subtracts, powers scale.", "quantifier": "all exponent vectors", "why_tests_cant": "Unique factorisation over all exponent vectors.", "anchors": ["scicpp/core/units/units.hpp: dimensional_system", "scicpp/core/units/quantity.hpp: quantity_multiply, quantity_divide"]}
{"id": "C67", "title": "quantity_cast converts units exactly and round-trips", "statement": "quantity_cast to another unit of the same dimension preserves the physical value (scale and offset) and casting back returns the original value.", "quantifier": "all values, scales and offsets", "why_tests_cant": "All scale/offset combinations (Celsius to Fahrenheit included).", "anchors": ["scicpp/core/units/quantity.hpp: quantity_cast (138-154)"]}
{"id": "C68", "title": "quantity comparison and arithmetic respect physical values", "statement": "a+b, a-b, comparisons between quantities of the same dimension in different units agree with the physical (base-unit) values; dividing a quantity by a number divides its value.", "quantifier": "all values and scales", "why_tests_cant": "All scale combinations, integer representations included.", "anchors": ["scicpp/core/units/quantity.hpp: comparisons (211-265), arithmetic (269-401)"]}
{"id": "C69", "title": "derived unit definitions are correct", "statement": "Each named unit equals its international definition in SI base units (km/h = 1000/3600 m/s, knot = 1852/3600 m/s, teratonne = 10^15 kg, forces have the dimension of force).", "quantifier": "all named units of units.hpp", "why_tests_cant": "Type-level constants are never exercised at run time.", "anchors": ["scicpp/core/units/units.hpp"]}
{"id": "C70", "title": "almost_equal separates infinities from finite numbers", "statement": "almost_equal(inf, x) is false for every finite x and for the opposite infinity.", "quantifier": "all tolerances and all finite x", "why_tests_cant": "Only special values are sampled by tests; the failing case needs inf - x and tol * inf.", "anchors": ["scicpp/core/equal.hpp: fp_equal_predicate (29-51)"]}
{"id": "C71", "title": "pow<n> is the n-th power", "statement": "pow<n>(x) equals x multiplied n times with itself for n >= 0 and 1/x^|n| for n < 0, element-wise on arrays.", "quantifier": "all integer exponents, all values", "why_tests_cant": "Every exponent is a separate template instantiation; negative ones are not exercised.", "anchors": ["scicpp/core/units/maths.hpp: pow (125-140)", "scicpp/core/maths.hpp: pow<n> (163-166)"]}
{"id": "C72", "title": "histogram(x, nbins) counts every element", "statement": "For non-empty finite data and nbins >= 1, histogram(x, nbins) returns nbins counts adding up to len(x): the automatically computed edges cover the whole data range.", "quantifier": "all finite data, all nbins", "why_tests_cant": "Depends on rounding of the last edge for every data range and bin count.", "anchors": ["scicpp/core/histogram.hpp: outer_edges (81-98), histogram_bin_edges (122-127), histogram (239-243)"]}
{"id": "C73", "title": "FFT wrappers invert each other", "statement": "fft(x) is the discrete Fourier transform of x for every non-empty x, length 1 included; rfft(x) is its first n/2+1 bins for real x; ifft(fft(x)) = x, irfft(rfft(x), n) = x for every n = len(x), and irfft(rfft(x)) = x for even lengths; Parseval's identity holds; empty input is rejected.", "quantifier": "all non-empty real and complex arrays (exact arithmetic, given an FFT engine that computes the DFT)", "why_tests_cant": "All lengths (odd, even, 1) and all data.", "anchors": ["scicpp/signal/fft.hpp: fft, rfft, ifft, irfft (190-328)"]}
{"id": "C74", "title": "Chained Spectrum setters configure the object", "statement": "After obj.fs(a).nthreads(b).window(w).noverlap(k) the object has all the settings, as does the value of the expression, and the order in which compatible settings are given does not matter.", "quantifier": "all objects, all values of the settings", "why_tests_cant": "All chains of setters and values.", "anchors": ["scicpp/signal/spectral.hpp: Spectrum::fs, noverlap, nthreads, window (70-110)"]}
{"id": "C75", "title": "coherence is between 0 and 1", "statement": "coherence(x, y) of two signals of the same length (at least one segment long) succeeds, and at every frequency where both signals have power lies in [0, 1]; it is 1 if there is a single segment or if y is proportional to x.", "quantifier": "all real and complex signals, all windows, overlaps, thread counts and schedules", "why_tests_cant": "An inequality over all signals.", "anchors": ["scicpp/signal/spectral.hpp: Spectrum::coherence (258-272)"]}
{"id": "C76", "title": "tfestimate estimates the transfer function", "statement": "If y is the response to x of a system with frequency response H at the analysed bins (a gain, a circular delay), tfestimate(x, y) is H wherever x has power.", "quantifier": "all signals, gains, windows", "why_tests_cant": "All signals and systems.", "anchors": ["scicpp/signal/spectral.hpp: Spectrum::tfestimate (274-282)"]}
{"id": "C77", "title": "csd: symmetry, consistency with welch, zero padding", "statement": "csd(x, x) is welch(x); csd(y, x) is the complex conjugate of csd(x, y); signals of different lengths give the same result as the shorter one extended with zeros.", "quantifier": "all signals and lengths, scalings, windows", "why_tests_cant": "All signals and length combinations.", "anchors": ["scicpp/signal/spectral.hpp: Spectrum::csd (179-256)"]}
{"id": "C78", "title": "welch and csd follow Welch's method", "statement": "For a signal of at least one segment, welch(x) succeeds and bin m is (scaling factor) * (one-sided factor) * the average over the segments of |DFT of window * (segment - mean)|^2, at the frequency m fs / nperseg; csd averages conj(X) Y; scaling factor 1/(fs sum w^2), 1/(sum w)^2 or 1.", "quantifier": "all signals, windows, overlaps, sampling frequencies, scalings, thread counts and schedules", "why_tests_cant": "All signals and settings.", "anchors": ["scicpp/signal/spectral.hpp: Spectrum::welch (125-177), csd (179-256), normalize (418-440), get_freqs (318-325)"]}
{"id": "C79", "title": "products, quotients, powers and roots of quantities have the right physical value", "statement": "Whenever a*b, a/b, a.inv(), k/a, pow<n>(a), sqrt, cbrt or root<k>(a) compile, the physical (base unit) value of the result is the product, quotient, inverse, power or root of the physical values of the operands; an operation on a unit with an offset, for which this cannot hold, does not compile.", "quantifier": "all units (scales, offsets, dimensions), all values", "why_tests_cant": "Type-level computation over all unit combinations.", "anchors": ["scicpp/core/units/quantity.hpp: operator*, operator/, inv (322-340), operators with a number (355-401), root (414-427)", "scicpp/core/units/maths.hpp: sqrt, cbrt, pow (101-140)"]}
{"id": "C80", "title": "implicit conversions of quantities are lossless", "statement": "A conversion between two integer quantities is implicit only if it is exact for every value; conversions to floating point are always implicit, from floating point to integer never.", "quantifier": "all pairs of units of the same dimension, all values", "why_tests_cant": "Every pair of units is a separate template instantiation.", "anchors": ["scicpp/core/units/quantity.hpp: is_harmonic, is_implicitly_convertible, converting constructor (162-203)"]}
{"id": "C81", "title": "mathematical functions of quantities act on physical values", "statement": "fmax, fmin, fabs, hypot, norm, fma agree with the physical values of their arguments; sin, cos, tan of an angle in any unit are those of the angle; exp, log, asin, ... of a dimensionless quantity in any unit (percent) are those of its physical value.", "quantifier": "all units and values", "why_tests_cant": "All scales.", "anchors": ["scicpp/core/units/maths.hpp"]}
{"id": "C82", "title": "sweep_poly sweeps the requested frequency", "statement": "sweep_poly(t, poly, phi) is cos(phase(t) + phi) for every t, where phase(0) = 0 and the derivative of the phase is 2 pi times poly: the instantaneous frequency at time t is poly(t); an empty polynomial is rejected.", "quantifier": "all polynomials, times and initial phases", "why_tests_cant": "A statement about a derivative at every real time.", "anchors": ["scicpp/signal/waveforms.hpp: sweep_poly (79-91)"]}
{"id": "C83", "title": "savetxt then loadtxt returns the arrays", "statement": "Saving an array, or a tuple of arrays of equal size, and loading the file with the same delimiter and the same types returns the arrays in order, each element as its text reads back; int arrays come back exactly, whatever the delimiter and newline character; arrays of different sizes are refused.", "quantifier": "all numbers of columns and rows, all values, delimiters, newline characters and comment characters", "why_tests_cant": "All array contents, sizes and separators.", "anchors": ["scicpp/core/io.hpp: savetxt (531-585), TxtSaver (587-611), TxtLoader (411-524)"]}
{"id": "C84", "title": "complex numbers survive savetxt and loadtxt", "statement": "A complex number written by savetxt is read back by loadtxt, for every combination of signs, up to the six decimals written; complex<float> and complex<double>, arrays and tuples of arrays alike; the usual forms a-bj and a are understood.", "quantifier": "all complex values", "why_tests_cant": "All values and signs.", "anchors": ["scicpp/core/io.hpp: to_number (62-74), detail::format (546-553), savetxt (531-585)"]}
{"id": "C85", "title": "doubles survive savetxt and loadtxt", "statement": "A double written by savetxt and read back by loadtxt is the same double.", "quantifier": "all finite doubles", "why_tests_cant": "All values.", "anchors": ["scicpp/core/io.hpp: to_number (58-59), savetxt (531-585)"]}
{"id": "C86", "title": "std, sem: square roots of the variance", "statement": "std(x) is the non-negative square root of var(x) (any ddof below the number of samples), sem(x) is std(x)/sqrt(n); std is 0 exactly when all elements are equal and satisfies std(a*x+b) = |a|*std(x).", "quantifier": "all non-empty arrays, all ddof < n, all a and b", "why_tests_cant": "All array contents and sizes, in particular across the 64-element blocks of the recursion.", "anchors": ["scicpp/core/stats.hpp: std (512-533), sem (539-567), var (474-503)"]}
{"id": "C87", "title": "skew and kurtosis are shape statistics", "statement": "For non-constant data, kurtosis is m4/m2^2 (minus 3 for the Fisher definition) and skew is m3/m2^(3/2) for the central moments m_k; both are unchanged by a change of origin and scale (skew changes sign with a negative scale) and by reordering, symmetric data have skew 0, and 1 + skew^2 <= Pearson kurtosis. For constant data the kurtosis is NaN.", "quantifier": "all non-empty arrays", "why_tests_cant": "All array contents and sizes.", "anchors": ["scicpp/core/stats.hpp: moment (573-600), kurtosis (608-633), skew (640-655)"]}
{"id": "C88", "title": "gmean is the geometric mean and leaves its argument alone", "statement": "For positive data gmean(x) is positive, its n-th power is the product of the elements, it is at most the arithmetic mean, lies between the smallest and the largest element, and scales with the data; gmean of an empty array is NaN; the filtered version is the gmean of the selected elements; the argument is not changed.", "quantifier": "all non-empty arrays of positive numbers, all value categories of the argument", "why_tests_cant": "All array contents, sizes and value categories.", "anchors": ["scicpp/core/stats.hpp: gmean (347-371)", "scicpp/core/maths.hpp: log (84)", "scicpp/core/functional.hpp: map (31-45), vectorize (152-167)"]}
{"id": "C89", "title": "print/array2string shows every element", "statement": "With a white-space separator, array2string of an array no longer than the threshold is '[', one word per element in order, ']' and a newline; each word reads back as its element to within half a unit of the last displayed decimal, or is the text chosen for NaN or infinity; complex elements show both parts; integers read back exactly.", "quantifier": "all arrays, all precisions, widths and options with white-space separators", "why_tests_cant": "All element values (rounding, carries, trailing zeros), sizes and options.", "anchors": ["scicpp/core/print.hpp: ElementFormater (46-153), print_array_elements (216-244), print (248-297), array2string (310-316)"]}
{"id": "C90", "title": "print chooses the notation from the magnitudes", "statement": "Scientific notation is used exactly when it is not suppressed and some non-zero finite element is below 1e-4 in magnitude or more than 1000 times smaller than another; the position of the elements, NaN and infinities included, does not matter.", "quantifier": "all arrays of doubles", "why_tests_cant": "All combinations and orders of finite, infinite and NaN elements.", "anchors": ["scicpp/core/print.hpp: use_scientific_notation (177-208)"]}
{"id": "C91", "title": "print respects the line width", "statement": "No line of the printed text is longer than linewidth when the text of one element fits on a line, summarised or not; an array that fits on one line is not broken.", "quantifier": "all arrays, all line widths", "why_tests_cant": "All array sizes, element widths and break positions.", "anchors": ["scicpp/core/print.hpp: print_array_elements (216-244), print (248-286)"]}
{"id": "C92", "title": "print summarises long arrays", "statement": "An array with more elements than the threshold is printed as its first and last edgeitems elements with ... between; printing never fails.", "quantifier": "all arrays, thresholds and edgeitems", "why_tests_cant": "All sizes relative to threshold and edgeitems.", "anchors": ["scicpp/core/print.hpp: print (248-286)"]}
{"id": "C93", "title": "print of a single number", "statement": "print(x) writes the number with 8 decimals in scientific notation, or the text for NaN or infinity, without undefined behaviour.", "quantifier": "all numbers", "why_tests_cant": "All values, and memory safety is not observable by a test.", "anchors": ["scicpp/core/print.hpp: print (288-297), ElementFormater (46-66, 148)"]}
{"id": "C94", "title": "polyfit is the least squares polynomial", "statement": "polyfit(x, y, deg) with x and y of the same length returns the deg+1 coefficients, in the order polyval takes, of the polynomial of degree at most deg with the smallest sum of squared errors; data that come from such a polynomial at deg+1 or more different points give that polynomial back; different lengths are rejected.", "quantifier": "all data sets and degrees, relative to a correct least squares solver (Eigen)", "why_tests_cant": "Optimality is against all polynomials, for all data.", "anchors": ["scicpp/polynomials/polynomial.hpp: polyfit (533-541), polyvander (497-526)", "scicpp/linalg/solve.hpp: lstsq (14-21)"]}
{"id": "C95", "title": "polyroots returns the roots", "statement": "The values returned by polyroots(P) are exactly the complex zeros of P, for real and for complex coefficients, when P has degree at least 1 and a non-zero leading coefficient.", "quantifier": "all polynomials, relative to a correct eigenvalue solver (Eigen)", "why_tests_cant": "All polynomials and all candidate roots.", "anchors": ["scicpp/polynomials/polynomial.hpp: polyroots (488-491), polycompanion (464-482)"]}
{"id": "C96", "title": "interp1d goes through the data", "statement": "interp1d<kind>(x, y) for strictly increasing x gives a function with f(x[i]) = y[i]; with SLINEAR, and with any kind on two points, it is the straight line between neighbouring points; the value at a number does not depend on the type it is given in; arrays are interpolated element by element; wrong sizes are rejected.", "quantifier": "all data sets, kinds and arguments, relative to a correct spline fit (Eigen)", "why_tests_cant": "All arguments between the data points.", "anchors": ["scicpp/core/interpolate.hpp: interp1d (64-84), SplineFunction (27-60)"]}
{"id": "C97", "title": "random arrays are reproducible", "statement": "rand and randn give N numbers: the first N draws of the engine seeded with the seed, the same in an array and in a vector, so equal seeds give equal numbers and a shorter array is a prefix of a longer one; rand is in [0,1); normal(mu, sigma, N) is mu + sigma * randn(N) element by element; successive calls give new numbers.", "quantifier": "all sizes, seeds, engines and distributions", "why_tests_cant": "All sizes and seeds, and all sequences of calls.", "anchors": ["scicpp/core/random.hpp: random_number_filler (22-31), rand (46-63), randn (71-88), normal (96-110)"]}
{"id": "C98", "title": "get_field and unpack transpose arrays of tuples", "statement": "get_field<I>(a) and get_field<T>(a) return, in order, the field I, or the only field of type T, of every tuple of a; unpack(a) returns all of them, and is the inverse of zipping arrays of the same length into an array of tuples; a field that does not exist, or a type that is there twice, does not compile.", "quantifier": "all tuple types and arrays", "why_tests_cant": "All tuple types and array contents.", "anchors": ["scicpp/core/tuple.hpp: get_field (26-73), unpack (83-104)"]}
{"id": "C99", "title": "operator % is the remainder of the truncated division", "statement": "a % s and s % a give for every element the remainder r with dividend = q * divisor + r for an integer q, |r| < |divisor| and the sign of the dividend; for doubles the result is exact; no undefined behaviour.", "quantifier": "all integers and all finite doubles", "why_tests_cant": "All pairs of numbers.", "anchors": ["scicpp/core/numeric.hpp: operator% (505-522), detail::modulus (492-501)"]}
{"id": "C100", "title": "boxplot draws the statistics of its data", "statement": "boxplot(data) draws for each data set, at abscissa 1, 2, ..., a box from the first to the third quartile, a line at the median, the whiskers, and as fliers exactly the elements farther than whis * IQR from the box; for arrays and for vectors of data sets, after any sequence of setter calls, and without undefined behaviour.", "quantifier": "all data sets and all sequences of setter calls", "why_tests_cant": "All data sets and all call histories.", "anchors": ["scicpp/plots/boxplot.hpp: data_stats (25-43), boxplot (53-58), redraw (168-231)"]}
{"id": "C101", "title": "boxplot settings are independent and the last call wins", "statement": "Each setter of a boxplot changes only the setting it is named after, the drawing depends only on the last call of each setter, and lists of another size than the data are rejected.", "quantifier": "all sequences of setter calls", "why_tests_cant": "All histories of calls in all orders.", "anchors": ["scicpp/plots/boxplot.hpp: setters (60-128)"]}
{"id": "C102", "title": "plot draws every curve with its colour and label", "statement": "plot(x, y0, y1, ...) draws each y against x, in order, with the colour and label last set for it (by default a cycle of eight colours and no label); a y of another size than x is rejected.", "quantifier": "all numbers of curves and all sequences of setter calls", "why_tests_cant": "All histories of calls and all numbers of curves.", "anchors": ["scicpp/plots/plot.hpp: plot (28-117)"]}
{"id": "C103", "title": "psd, csd and cohere plots draw the spectra on the chosen scale", "statement": "plots::psd draws the result of welch and plots::csd the magnitude of the result of Spectrum::csd against the frequencies, as they are (LINEAR) or as l with p = 10^(l/10) (DECIBEL, -infinity for 0); the csd of a signal with itself is drawn like its psd; cohere draws the coherence; colour and grid are those of the last call.", "quantifier": "all signals, configurations, scales and sequences of setter calls", "why_tests_cant": "All spectra, including zeros, and all call histories.", "anchors": ["scicpp/plots/spectrum.hpp: csdplot (21-76), csd (80-96), psd (98-115), cohere (117-122)"]}
{"id": "C104", "title": "winvis shows the spectrum and width of the windows", "statement": "winvis(windows...) draws each window against its sample number and the level 20 log10 |W(f)| / |W(0)| of its Fourier transform in dB at the frequencies k/11n, and shows as main lobe width four times the frequency of the lowest level not below -3 dB; the level at frequency 0 is 0 dB and no level of a non-negative window is above it; windows of different sizes and empty windows are rejected.", "quantifier": "all lists of windows", "why_tests_cant": "All windows, sizes and frequencies.", "anchors": ["scicpp/plots/winvis.hpp: window_spectrum_db (29-39), mainlobe_width (42-50), winvis (54-110)"]}
{"id": "C105", "title": "hist draws the histogram", "statement": "plots::hist(x, bins) draws the counts of the histogram over the bins with the colour, type and width of the last calls, on a logarithmic scale exactly if the last call of log was log(true), without undefined behaviour.", "quantifier": "all data, bins and sequences of setter calls", "why_tests_cant": "All data and all call histories.", "anchors": ["scicpp/plots/hist.hpp: histplot (22-125), hist (129-153)"]}
{"id": "C106", "title": "automatic histogram bins follow the named rules", "statement": "histogram_bin_edges<method>(x) covers exactly the range of the data with equal bins, as few as the rule allows: sqrt n^2 >= N, Rice n^3 >= 8N, Sturges 2^n >= 2N, Scott and Freedman-Diaconis bins no wider than the rule's width, Doane Sturges corrected by the skewness, auto the larger of Sturges and Freedman-Diaconis; no data give [0, 1], constant data v give [v-1/2, v+1/2]; no undefined behaviour.", "quantifier": "all data sets and methods", "why_tests_cant": "All data and sizes; the number of bins is the least with a property.", "anchors": ["scicpp/core/histogram.hpp: bin_width (34-78), outer_edges (81-98), histogram_bin_edges (102-120)"]}
{"id": "C107", "title": "vectorize lifts a callable to arrays", "statement": "vectorize(f) applied to an array gives f of every element in order, to two arrays f of every pair (arrays of different sizes are rejected), and to scalars f itself, at every later time, whether f is a named object or a lambda expression.", "quantifier": "all callables, arrays and times of call", "why_tests_cant": "All callables, sizes and object lifetimes.", "anchors": ["scicpp/core/functional.hpp: vectorize (152-167)", "scicpp/core/maths.hpp: (57-139)"]}
{"id": "C108", "title": "complex quantities obey dimensional analysis", "statement": "Products and quotients of complex quantities with quantities, complex quantities and numbers have the product or quotient of the physical values and of the dimensions; norm is the squared magnitude with the squared unit, and polar(abs(z), arg(z)) is z.", "quantifier": "all units and complex values", "why_tests_cant": "All units and values.", "anchors": ["scicpp/core/units/quantity.hpp: (540-763)", "scicpp/core/units/maths.hpp: (335-373)"]}
{"id": "C109", "title": "constants are accurate and have their dimension", "statement": "pi<T> and e<T> are the numbers of type T nearest to pi and e; each physical constant is in SI base units of the right dimension, the derived ones follow their defining formulas up to a few rounding errors and agree with the values published by CODATA 2018, for float, double and long double.", "quantifier": "all floating-point types", "why_tests_cant": "Irrational reference values, and every rounding of every intermediate result.", "anchors": ["scicpp/core/constants.hpp: pi, e (16-20), physical_constants (36-103)"]}
{"id": "C110", "title": "std::array overloads agree with std::vector overloads", "statement": "Every overload taking fixed-size arrays (polyadd, polysub, polymul, polymulx, polydiv, polypow, polyder, polyint, diff, concatenate, full) returns an array of the announced size holding the very elements the std::vector overload returns for the same data, and never reads or writes out of bounds.", "quantifier": "all array sizes, element types and values", "why_tests_cant": "All sizes and element types, including rounding of floating-point elements.", "anchors": ["scicpp/polynomials/polynomial.hpp: (87-438)", "scicpp/core/numeric.hpp: diff (156-190)", "scicpp/core/manips.hpp: concatenate (27-72)", "scicpp/core/range.hpp: full (35-45)", "scicpp/signal/convolve.hpp: direct_convolve (55-83)"]}
{"id": "C111", "title": "quantity variables follow their physical value", "statement": "After any sequence of +=, -=, *=, /=, ++ and -- on a quantity variable its physical value is the result of the same sequence on the physical value (++ and -- move by one unit), prefix forms give the new and postfix forms the old value, mixing dimensions does not compile; and almost_equal of two quantities decides about the physical values whatever the units.", "quantifier": "all units, values and histories of statements", "why_tests_cant": "All histories and units.", "anchors": ["scicpp/core/units/quantity.hpp: (269-303)", "scicpp/core/equal.hpp: almost_equal (75-85)"]}
{"id": "C112", "title": "array expressions mean the element-wise scalar expression", "statement": "An expression of any depth built from named arrays and scalars with -, !, +, -, *, /, %, && and || (array-array, array-scalar and scalar-array) has as element k the same scalar expression on the elements k, in whatever order C++ evaluates the operands, and leaves the named arrays as they were; arrays of different sizes are rejected.", "quantifier": "all expressions, evaluation orders, sizes, contents and value categories", "why_tests_cant": "All expressions, aliasing patterns and unspecified evaluation orders.", "anchors": ["scicpp/core/numeric.hpp: namespace operators (283-594)", "scicpp/core/functional.hpp: map (31-127)"]}
{"id": "C113", "title": "comparison functions accept any arrays and keep named arguments", "statement": "equal, not_equal, less, less_equal, greater and greater_equal accept any two containers of comparable elements, const or not, lvalues or rvalues, give the truth value of the comparison at each position, reject different sizes, and leave every argument that is not an rvalue unchanged.", "quantifier": "all container types, value categories, const qualifications, sizes and contents", "why_tests_cant": "All combinations of argument types and all contents.", "anchors": ["scicpp/core/numeric.hpp: Comparison (605-658)", "scicpp/core/functional.hpp: map (66-127)"]}
{"id": "C114", "title": "nan- and t-statistics are those of the selected elements", "statement": "nanmean/nanvar/nanstd/nansem are the textbook mean, variance, standard deviation and standard error of the numbers among the elements, tmean/tvar/tstd/tsem those of the elements within the limits (each limit included or not), wherever the excluded elements stand.", "quantifier": "all arrays, NaN placements, limits and degrees of freedom", "why_tests_cant": "All placements of excluded elements relative to the blocks of the recursion.", "anchors": ["scicpp/core/stats.hpp: tmean (335-340), nanvar, tvar (498-508), std, nanstd, tstd (514-534), sem, nansem, tsem (540-566)", "scicpp/core/functional.hpp: Trim (188-203)"]}
{"id": "C115", "title": "the computed variance is never negative", "statement": "In floating point, with every rounding direction, for every array, filter and ddof, var is a number that is not negative, or not finite; std and sem therefore never take the root of a negative number, and are the rounded root of what they should be. The variance of equal elements is 0 and their mean is that element.", "quantifier": "all floating-point arrays, rounding directions, filters and ddof", "why_tests_cant": "Every combination of rounding errors.", "anchors": ["scicpp/core/stats.hpp: detail::pairwise_cov (376-452), var (474-508), std (514-534), sem (540-566)"]}
{"id": "C116", "title": "accuracy of the arithmetic functions in floating point", "statement": "In every binary floating-point format with rounding to nearest (without overflow), the error of sum, mean, cumsum, prod, inner/dot, trapz, polyval, convolve and polymul is bounded by the number of roundings on the longest path (64 plus the logarithm of the size for the pairwise functions, k for element k of cumsum, one per coefficient for polyval, the size of the smaller operand for convolve) times the unit roundoff and the sum of the absolute terms, plus an underflow term.", "quantifier": "all formats, tie rules, sizes and values", "why_tests_cant": "Every combination of rounding errors, for every size.", "anchors": ["scicpp/core/numeric.hpp: sum (29-49), prod (58-78), cumsum (89-99), trapz (129-143), inner (213-252)", "scicpp/core/stats.hpp: mean (308-331)", "scicpp/polynomials/polynomial.hpp: polyval (36-54), polymul (154-163)", "scicpp/signal/convolve.hpp: direct_convolve_impl (31-53)"]}
{"id": "C117", "title": "linspace and arange in floating point", "statement": "In every binary format, linspace gives the announced number of elements, starts exactly at start, never steps back and has every element within four roundings of the exact point (the last one of stop); arange gives nothing in the wrong direction, otherwise the rounded points start + i*step in order, none beyond stop, and about |stop-start|/|step| of them.", "quantifier": "all formats, tie rules, end points, steps and sizes", "why_tests_cant": "Every combination of rounding errors, for every size.", "anchors": ["scicpp/core/range.hpp: linspace_filler (101-118), arange (187-205)"]}
{"id": "C118", "title": "Quantiles, percentiles, iqr and medians of floating-point data", "statement": "For data of any binary floating-point format and q in [0, 1], quantile (every interpolation mode) returns a value between the elements of rank floor(h) and ceil(h), where h is q (n-1) up to one rounding; the lower, higher and nearest modes return the elements of rank floor(h), ceil(h) and h rounded to nearest, and never decrease with q; q = 0 and q = 1 give the minimum and maximum; the result does not depend on the order of the data. percentile never trips its precondition for p in [0, 100], iqr with its default range is never negative, and median is the middle element or a value between the two middle ones, within two roundings of their mean.", "quantifier": "all formats and tie-breaking rules, all finite data sets of at most 2^(precision-1) elements, all q, all nth_element algorithms", "why_tests_cant": "the rounded position, the snap to an integer index and the rounded interpolation can each step outside the neighbouring elements for particular sizes and fractions no test picks", "anchors": ["scicpp/core/stats.hpp: median, detail::quantile_inplace, quantile, percentile, iqr", "scicpp/core/maths.hpp: lerp"]}
{"id": "C119", "title": "Accuracy of the variance and standard deviation", "statement": "The variance of at most 64 * 2^L floating-point numbers of magnitude at most M is such that its square root, and std itself, differ from the exact standard deviation sigma by at most a relative (1+u)^(69+2L) - 1 plus (L+1) (1+u)^(69+2L) ((1+u)^(65+4L) - 1) M sqrt(n/(n-ddof)), u being the unit roundoff: rounding errors grow with the logarithm of the number of data and cancellation costs a few M u, as for a two-pass formula.", "quantifier": "all precisions and tie-breaking rules, all data sets (no underflow or overflow), all ddof, all sizes up to 2^precision", "why_tests_cant": "the bound concerns every data set: the worst cancellation between block means occurs for particular data no test picks, and the growth with the size is not visible on small samples", "anchors": ["scicpp/core/stats.hpp: covariance, var, std", "scicpp/core/functional.hpp: pairwise_accumulate"]}
{"id": "C120", "title": "Floating-point windows stay close to their textbook formulas", "statement": "In binary floating-point arithmetic of precision p (no underflow), with a sine, cosine and exponential accurate to eps, every sample of the boxcar, bartlett, cosine, bohman, general_cosine, general_hamming, hann, hamming, blackman, nuttall, blackmanharris, flattop, gaussian, parzen and lanczos windows, symmetric or periodic, is within an explicit bound (a fixed number of unit roundoffs plus a multiple of eps, independent of the length) of the textbook formula; in double precision with a library accurate to one unit roundoff, every parameterless window is within 2^-46. Windows with values in [0, 1] leave the interval by at most the bound, but do leave it: the ends of bartlett<double>(6) are -2^-53.", "quantifier": "every precision of at least 3 bits, every tie-breaking rule, every library with the stated accuracy, every length M >= 2 with 2(M + 1) <= 2^p, both symmetries, every sample and every parameter", "why_tests_cant": "tests compare a few lengths with reference values at a tolerance; the bound must hold for every length, sample and rounding outcome", "anchors": ["scicpp/signal/windows.hpp: bartlett, cosine, bohman, general_cosine, general_hamming, hann, hamming, blackman, nuttall, blackmanharris, flattop, gaussian, parzen, lanczos", "scicpp/core/units/maths.hpp: sinc", "scicpp/core/constants.hpp: pi"]}
{"id": "C121", "title": "Quantities of a floating-point type convert and compare accurately", "statement": "With a floating-point representation, converting a quantity to another unit of the same dimension gives the exact converted value up to five roundings (relative to the magnitudes of the scaled value and of the offset difference; relative to the value itself when the offsets agree), never reverses an order, is exact to the unit itself and to an n times smaller unit when n v is representable; a round trip returns the value; comparisons of quantities with the same offset agree with the order of the physical values; == means equal and is transitive; a + b, a - b, a += b are accurate and addition commutes; q / k is q divided by k. (Refuted parts: the round trip is only accurate to eight roundings and a converted quantity may compare different from the original; two different numbers of kilometres can compare equal; == is not transitive across three units; q / k multiplies by a rounded reciprocal, so 49 m / 49. is not 1 m although q /= 49. is.)", "quantifier": "all pairs of units with rational scales and the same dimension, all values, every precision and tie-breaking rule", "why_tests_cant": "rounding makes the answer depend on every bit of the value and on the integer factors of the two units; a test tries a few values of a few units", "anchors": ["scicpp/core/units/quantity.hpp: quantity_cast, operator==, operator<, operator+, operator-, operator+=, operator-=, operator/", "scicpp/core/units/arithmetic.hpp: eval"]}
{"id": "C122", "title": "Polynomial arithmetic in floating point is accurate, and exact on small integers", "statement": "With floating-point coefficients: polyadd and polysub return the correctly rounded coefficient sums and differences; polypow (vector and std::array) returns coefficients within (1+u)^(n(n/2 deg+2))-1 of the exact power, relative to the power of the magnitudes; polyint and polyder of order m have relative error (1+u)^m-1 per coefficient; polyfromroots has leading coefficient exactly 1 and error (1+u)^(2n)-1 relative to the polynomial with roots -|r|. With integer coefficients, polymul, polypow and polyfromroots are exact when the product of the coefficient sums is at most 2^prec. The vector and std::array overloads of polypow need not agree beyond that.", "quantifier": "every coefficient list, exponent, order, list of roots, precision and tie-breaking rule (no overflow or underflow, except in the add and exactness clauses which allow gradual underflow)", "why_tests_cant": "rounding errors depend on the coefficients and accumulate with degree and exponent; tests compare a few results with tolerances", "anchors": ["scicpp/polynomials/polynomial.hpp: polyadd, polysub, polymul, polypow, polyder, polyint, polyfromroots"]}
{"id": "C123", "title": "Polynomial objects follow polynomial arithmetic", "statement": "In every program made of constructions, copies, +=, -=, *=, scalings, mulx and the binary operators on any number of named Polynomial objects, none of them empty, also when an assignment operator has the object itself on its right-hand side (P += P, P -= P, P *= P), nothing undefined happens, only the target of each statement changes, and at the end every object has the coefficients, the degree() and the values that polynomial arithmetic gives; operator== holds exactly for equal polynomials.", "quantifier": "every commutative ring of coefficients, every number of objects, every initial state, every finite program", "why_tests_cant": "Aliasing and histories: tests run a few short programs, and in-place loops over an aliased operand are right or wrong depending on the order of reads and writes.", "anchors": ["scicpp/polynomials/polynomial.hpp: class Polynomial"]}
{"id": "C124", "title": "Spectra in floating point: accurate, symmetric and only reordered by threads", "statement": "With floating-point samples, whatever the FFT returns for the segments and however threads are scheduled: welch never returns a negative bin; csd(x, x) is welch(x) with zero imaginary parts and csd(y, x) is the conjugate of csd(x, y), exactly; every bin of a power spectrum has relative error at most (1+u)^(n+3+s)-1 with n segments (s = 0, 1, 2 roundings of the scaling), and the parts of a cross spectrum have that error relative to the sum of the magnitudes of the products; coherence(x, x) is 1 within (1+u)^(4n+15)-1 (three roundings without threads) and tfestimate(x, x) is real and 1 within (1+u)^(2n+7)-1 (exactly 1 without threads) wherever x has power; the result is the one of adding the segments in some order, and any order can occur with n threads. The result is the same in every run, and the coherence never exceeds 1.", "quantifier": "every FFT, signal (real, complex, or one of each for csd), window, overlap, scaling, number of threads and schedule, every precision and tie-breaking rule (no overflow or underflow in the accuracy clauses)", "why_tests_cant": "rounding errors depend on the data and on the order in which the threads add their segments, which a test cannot control", "anchors": ["scicpp/signal/spectral.hpp: welch, csd, coherence, tfestimate, normalize, compute_spectrum"]}
{"id": "C125", "title": "Numbers in text", "statement": "A cell of a text file or a piece of a string is read as the number it starts with: optional blanks, an optional sign, digits with an optional fraction, and an optional exponent with at least one digit; what follows is ignored, and a text that starts with no number reads as 0. Integers are read the same way without fraction and exponent; complex numbers as two numbers joined by a plus sign, and as (nan, nan) when the text starts with no number. The reading is unambiguous.", "quantifier": "every text, with NUL characters and blanks anywhere; every integer width and signedness", "why_tests_cant": "the set of texts is infinite and the interesting ones (half exponents, lone points and signs, trailing characters) are easy to miss", "anchors": ["scicpp/core/io.hpp: to_number (56-80)"]}
{"id": "C126", "title": "Frequency axes in floating point", "statement": "In every binary format with round to nearest, fftfreq(n, d) gives n frequencies, each within three roundings of the exact harmonic k/(n d) (four for the axis get_freqs of a Spectrum object, computed from 1/fs), the zero frequency exactly 0, opposite harmonics exactly opposite, and strictly increasing values after fftshift; rfftfreq gives the same values for the harmonics 0 .. n/2 (the last one of an even n is the opposite of the one of fftfreq); both are exact when n and d are powers of two; n = 0 and d <= 0 are refused. This holds for every n.", "quantifier": "every precision, every symmetric tie rule, every size and sample spacing", "why_tests_cant": "tests compare a handful of sizes below 20 in double precision; the saturation of the counter needs more than 2^25 samples in float", "anchors": ["scicpp/signal/fft.hpp: fftfreq, rfftfreq, fftfreq_impl, rfftfreq_impl", "scicpp/signal/spectral.hpp: get_freqs"]}
{"id": "C127", "title": "Spectra of sinusoids are calibrated", "statement": "For a Spectrum object with any window whose weights do not add up to 0, any overlap, length and number of threads: a complex exponential of amplitude A whose frequency is that of bin j gives exactly |A|^2 in bin j of welch with SPECTRUM scaling, at the frequency of the tone, and no larger value in another bin if no weight is negative; the cross spectrum of two such tones is conj(A) B; with equal weights every other bin is 0, and a real sinusoid gives its mean square A^2/2, whatever its phase ((A cos phi)^2 at the Nyquist frequency). A constant added to the signal changes nothing, a gain g multiplies every bin by g^2.", "quantifier": "all configured objects, amplitudes, phases, harmonics, signal lengths, schedules", "why_tests_cant": "tests compare noise records with values computed by scipy; the amplitude, the phase and the place of a line are never checked, let alone for every window and length", "anchors": ["scicpp/signal/spectral.hpp: Spectrum, welch, csd, normalize, get_freqs", "scicpp/signal/fft.hpp: rfft, fft"]}
{"id": "C128", "title": "Covariance of two data sets in floating point", "statement": "covariance(x, y) of n <= 64 2^L pairs of floating-point numbers of magnitudes at most (Mx, My) is within gamma(68+2L) (sx + px)(sy + py) + sx py + px sy + px py of the exact covariance, where sx, sy are the exact standard deviations and px = sqrt(L+1) gamma(65+4L) sqrt(n/(n-ddof)) Mx (py alike) the blur caused by rounding the means; covariance(x, y) and covariance(y, x) are the same number for at most 64 pairs, and beyond that may differ in the last bits (both within the bound); cov holds the two variances and that one covariance twice.", "quantifier": "every precision and tie rule (no overflow or underflow), all data, sizes and ddof", "why_tests_cant": "rounding errors depend on the data; the block structure only shows above 64 pairs, where tests compare a few values within a tolerance", "anchors": ["scicpp/core/stats.hpp: covariance, cov", "scicpp/core/functional.hpp: pairwise_accumulate"]}
{"id": "C129", "title": "euler_gamma and apery_cst are correctly rounded", "statement": "euler_gamma<T> is the number of type T nearest to the limit of 1 + 1/2 + ... + 1/n - ln n, and apery_cst<T> the one nearest to the sum of 1/n^3, for float, double and long double.", "quantifier": "the three floating-point types", "why_tests_cant": "the reference values are limits that no test can compute; a test can only repeat the digits of the source", "anchors": ["scicpp/core/constants.hpp: euler_gamma, apery_cst (22-27)"]}
{"id": "C130", "title": "Statistics of joined, rescaled and added data", "statement": "The mean of two joined data sets is the weighted mean of their means, and (n+m-ddof) times their joint variance (covariance) is the sum of the same quantities of the parts plus n m/(n+m) times the squared difference (product of the differences) of the means; covariance is symmetric, bilinear and blind to shifts, and var(x+z) = var x + 2 cov(x,z) + var z; mean, median, quantile and iqr of k x + c are k times those of x plus c (iqr: without c), for k > 0, mean and median for every k.", "quantifier": "all non-empty finite data sets of doubles (exact arithmetic), all ddof below the sizes, all k and c, all quantiles and interpolation modes, every nth_element", "why_tests_cant": "identities between calls on different data, true for all data only", "anchors": ["scicpp/core/stats.hpp: mean, var, covariance, median, quantile, iqr"]}
{"id": "C131", "title": "Cross-spectrum of a real and a complex signal", "statement": "csd of one real and one complex signal is exactly what csd gives when the real samples are passed as complex numbers with zero imaginary part (two-sided, same frequencies, scaling and zero padding), in both argument orders and conjugate to each other; coherence and tfestimate accept such a pair and agree with the all-complex calls.", "quantifier": "all objects, scalings, pairs of signals and lengths (embedding); all configured objects and signals at least as long as the window (values), exact arithmetic", "why_tests_cant": "an identity between two instantiations of a template over all signals, lengths, windows and overlaps", "anchors": ["scicpp/signal/spectral.hpp: csd (179-256), coherence (258-272), tfestimate (274-282), welch2_impl (393-416), element_type_t"]}
{"id": "C132", "title": "Noise bandwidth of a window in floating point", "statement": "s2 of a window of n samples is within n+1 roundings (relatively) of the sum of the squares; enbw is within n+4 roundings, plus the amplification of the error of the pairwise sum by the cancellation of positive and negative samples, of fs times the sum of squares over the squared sum; for the boxcar window at unit rate it is the number next to 1/M; it is never below one bin.", "quantifier": "all windows (any values of a binary format of any precision, any length up to 64*2^L), all sampling rates, both tie-breaking rules; exponent range unlimited", "why_tests_cant": "an error bound over all windows and lengths; tests compare with a tolerance at a few points", "anchors": ["scicpp/signal/windows.hpp: s1, s2, enbw (595-613)", "scicpp/core/numeric.hpp: sum"]}
{"id": "C133", "title": "Histograms of floating-point data", "statement": "Histograms of doubles, with the default search or uniform bins, and densities: with uniform bins every sample is counted in at most one bin, none below the first edge, in the order of the samples, and in the bin whose edges enclose it up to three relative rounding errors of its distance to the first edge; a sample clear of the edges by that much goes to its own bin, one equal to the first or second edge too. A sample equal to any edge goes to the bin right of it. Each density is the count divided by the number of counted samples and the bin width to within five relative rounding errors (three when the counts are floating-point numbers), and the densities integrate to one to that error.", "quantifier": "every precision, rounding of ties, list of samples and list of edges (sorted, at least two, the first two different; all different for densities), whatever almost_equal answers", "why_tests_cant": "the position of a sample comes from two rounded subtractions and a rounded division; samples next to an edge are exactly where the result depends on the roundings", "anchors": ["scicpp/core/histogram.hpp: histogram, Density, UniformBins"]}
{"id": "C134", "title": "Geometric means and weighted averages in floating point", "statement": "gmean of positive doubles is the n-th root of their product up to a relative error governed by the accuracy of log and exp, the roundings of the mean and the average magnitude of the logarithms; average of values with non-negative weights that are not all zero is their weighted average to a relative error of 130 + 2 log2(n/64) roundings of the weighted average of the magnitudes, so it stays between the smallest and largest value up to that error. The geometric mean of a single number and the weighted average of equal numbers are that number.", "quantifier": "every precision, rounding of ties, list of data and weights (any length), and every log and exp of the stated accuracy", "why_tests_cant": "rounding errors depend on all the data and on the pairwise tree of the sum; a test sees a handful of lists and one library", "anchors": ["scicpp/core/stats.hpp: gmean, average, mean", "scicpp/core/numeric.hpp: inner, sum"]}
{"id": "C135", "title": "The sawtooth in floating point", "statement": "sawtooth of non-negative times succeeds for every width in [0, 1], and each value is that of the textbook wave (rising until 2 pi width, falling after) up to a few roundings - on the falling part, roundings relative to its slope 1/(1-width). std::fmod is exact, so the time's reduction modulo 2 pi<T> adds no error however late the time, and the peak is at 2 times the rounded width * pi<T>. Every value lies between -1 and 1.", "quantifier": "every precision, rounding of ties, width and list of non-negative times", "why_tests_cant": "rounding errors depend on the time and width, and the excess needs a width one rounding away from 1; a test compares a few times at one width to a tolerance", "anchors": ["scicpp/signal/waveforms.hpp: sawtooth"]}
