{"id": "C01", "title": "lcg64/lcg64_shift jump is s draws", "statement": "After R.jump(s) (equally R.discard(s)) an lcg64 or lcg64_shift engine is in exactly the state it would have after s calls of R(), so every later output agrees.", "quantifier": "all 64-bit parameters a and b, all 64-bit states, all s in [0, 2^64)", "why_tests_cant": "s ranges over 2^64 values and the reference is s single draws; tests only reach a few small s.", "anchors": ["trng/lcg64.hpp: lcg64::jump, lcg64::jump2, lcg64::discard, lcg64::step", "trng/lcg64_shift.hpp: same members"]}
{"id": "C02", "title": "lcg64/lcg64_shift jump2 is 2^s draws", "statement": "After R.jump2(s) with s <= 63 the engine is in the state it would have after 2^s draws; for s >= 64 the call shifts a 64-bit word by at least its width, i.e. is undefined behaviour.", "quantifier": "all parameters, states, and s (unsigned int)", "why_tests_cant": "2^63 draws cannot be executed as a reference.", "anchors": ["trng/lcg64.hpp: lcg64::jump2, lcg64::f, lcg64::pow", "trng/lcg64_shift.hpp"]}
{"id": "C03", "title": "lcg64/lcg64_shift leapfrog", "statement": "After R.split(s,n) with 1 <= s, n < s, the k-th draw of R equals the (k*s+n)-th draw (counting from 0) of the engine before the split. s < 1 or n >= s throws std::invalid_argument and leaves R unchanged.", "quantifier": "all odd multipliers a (all predefined parameter sets are odd), all b, all states, all s,n (unsigned int), all k; for even a the statement is refuted", "why_tests_cant": "Needs the equality for infinitely many k and 2^64 multipliers; the failing even-a case is not in any test.", "anchors": ["trng/lcg64.hpp: lcg64::split, lcg64::backward", "trng/lcg64_shift.hpp"]}
{"id": "C04", "title": "lcg64 has full period", "statement": "For every predefined parameter set of lcg64 the state sequence has period exactly 2^64: starting anywhere, the first 2^64 draws contain each 64-bit value exactly once.", "quantifier": "all starting states, all predefined parameter sets (more generally a = 1 mod 4, b odd)", "why_tests_cant": "2^64 draws cannot be enumerated.", "anchors": ["trng/lcg64.cc: parameter constants", "trng/lcg64.hpp: step"]}
{"id": "C05", "title": "shift output functions are permutations", "statement": "The output scrambling of lcg64_shift, lcg64_count_shift and count128_lcg_shift maps the 64-bit word it is applied to one-to-one onto 64-bit words, so scrambling neither loses values nor changes their frequencies.", "quantifier": "all 64-bit words", "why_tests_cant": "Injectivity over 2^64 inputs.", "anchors": ["trng/lcg64_shift.hpp: operator()", "trng/lcg64_count_shift.hpp: operator()", "trng/count128_lcg_shift.hpp: operator()"]}
{"id": "C06", "title": "lcg64_count_shift jump", "statement": "After R.jump(s) an lcg64_count_shift engine is in the state it would have after s draws.", "quantifier": "all parameters with 0 <= increment < 2^61-1, states with count < 2^61-1, all s < 2^61-1; refuted for larger s", "why_tests_cant": "Depends on a double-and-add modular product on 64-bit words for all s; wrong only for astronomically large s.", "anchors": ["trng/lcg64_count_shift.hpp: jump, jump2, mult_modulo, step"]}
{"id": "C07", "title": "lcg64_count_shift leapfrog", "statement": "After R.split(s,n), 1 <= s, n < s, the k-th draw equals the (k*s+n)-th draw of the engine before the split.", "quantifier": "all odd a, all b, in-range increment and count, all s,n (unsigned int), all k", "why_tests_cant": "Infinitely many k and all parameters.", "anchors": ["trng/lcg64_count_shift.hpp: split, backward"]}
{"id": "C08", "title": "count128_lcg_shift jump, jump2 and leapfrog", "statement": "jump(s) equals s draws for every s; jump2(s) equals 2^s draws for every s < 128; after split(s,n) (1 <= s, n < s) the k-th draw equals the (k*s+n)-th draw before.", "quantifier": "all 128-bit increments, states, all a, b, s, n, k", "why_tests_cant": "128-bit state space and unbounded k.", "anchors": ["trng/count128_lcg_shift.hpp: jump, jump2, split, backward, step, operator()"]}
{"id": "C09", "title": "Engines that compare equal produce equal streams", "statement": "If R1 == R2 then every subsequent draw of R1 and R2 agrees.", "quantifier": "all pairs of engines of one class in all reachable states; proved for the lcg64 family, minstd, mrg*, yarn*, lagfib*, xoshiro256plus; refuted for count128_lcg_shift (the parameter comparison ignores the increment) and for mt19937 and mt19937_64 (the comparison ignores the position inside the block)", "why_tests_cant": "Quantifies over all pairs of states and all future outputs.", "anchors": ["trng/count128_lcg_shift.cc: operator==", "trng/mt19937.cc, trng/mt19937_64.cc: operator== on status_type", "trng/*.cc: operator=="]}
{"id": "C10", "title": "minstd draws the minimal-standard sequence", "statement": "From any state r in [1, 2^31-2], R() returns 16807*r mod (2^31-1), computed without 64-bit overflow, and the new state is again in [1, 2^31-2].", "quantifier": "all states", "why_tests_cant": "All 2^31-2 states; also needs an argument about the masked reduction.", "anchors": ["trng/minstd.hpp: minstd::step, operator()"]}
{"id": "C11", "title": "minstd has period 2^31-2", "statement": "From any state in [1, 2^31-2] the first 2^31-2 draws are pairwise distinct (so each value in [1,2^31-2] is drawn exactly once) and then the sequence repeats.", "quantifier": "all states", "why_tests_cant": "Exhausting all starting states times the period is infeasible.", "anchors": ["trng/minstd.hpp: step"]}
{"id": "C12", "title": "minstd discard is n draws", "statement": "R.discard(n) leaves minstd in the state reached by n draws.", "quantifier": "all states and all n < 2147483645; refuted in general: n is reduced modulo max-min = 2147483645, which is not the period", "why_tests_cant": "The failing n are about 2^31; tests use small n.", "anchors": ["trng/minstd.hpp: minstd::discard"]}
{"id": "C13", "title": "mrg engines step the stated recurrence without overflow", "statement": "For mrg2, mrg3, mrg3s, mrg4, mrg5 and mrg5s, in-range parameters and states, one draw returns (a1*r[0]+...+ak*r[k-1]) mod m, shifts it into the state, all intermediate values fit in uint64_t, and the result lies in [min(), max()].", "quantifier": "all coefficients in [0,m) and all states in [0,m)^k", "why_tests_cant": "State/parameter space m^(2k).", "anchors": ["trng/mrg2.hpp, mrg3.hpp, mrg3s.hpp, mrg4.hpp, mrg5.hpp, mrg5s.hpp: step, operator()", "trng/int_math.hpp: modulo"]}
{"id": "C14", "title": "mrg jump is s draws", "statement": "R.jump(s) puts an mrg engine in the state reached by s draws.", "quantifier": "all in-range parameters and states, all s in [0,2^64)", "why_tests_cant": "2^64 jump lengths.", "anchors": ["trng/mrg*.hpp: jump, jump2, discard", "trng/int_math.hpp: matrix_mult, matrix_vec_mult"]}
{"id": "C15", "title": "mrg jump2 is 2^s draws", "statement": "R.jump2(s) puts an mrg engine in the state reached by 2^s draws.", "quantifier": "all in-range parameters and states, all s (unsigned int)", "why_tests_cant": "2^s draws cannot be executed.", "anchors": ["trng/mrg*.hpp: jump2"]}
{"id": "C16", "title": "mrg leapfrog", "statement": "After R.split(s,n) (1 <= s, n < s) the k-th draw equals the (k*s+n)-th draw of the engine before the split; invalid s, n throw and leave R unchanged.", "quantifier": "all in-range parameters with nonzero last coefficient, all states, all s,n, all k, for mrg2, mrg3, mrg3s, mrg4; for mrg5 and mrg5s with the predefined parameter sets and all states (also for streams split again, while the product of the factors is below 2^64); for other coefficients of mrg5 and mrg5s under the extra condition that the last coefficient after the split is nonzero, and refuted without it", "why_tests_cant": "All parameters, states, s, n and infinitely many k; correctness hinges on a linear-algebra argument (the decimated stream satisfies a recurrence of the same order).", "anchors": ["trng/mrg*.hpp: split, backward", "trng/int_math.hpp: gauss"]}
{"id": "C17", "title": "Leapfrog streams tile the original stream", "statement": "Splitting s copies of one engine with split(s,0), ..., split(s,s-1) and reading them round-robin reproduces the draws of the original engine in order; distinct streams never share a position and every position is covered.", "quantifier": "all engines with split, all s >= 1, all positions", "why_tests_cant": "Unbounded positions and all s.", "anchors": ["trng/lcg64.hpp, trng/mrg*.hpp, trng/yarn*.hpp, trng/count128_lcg_shift.hpp: split"]}
{"id": "C18", "title": "yarn output is exponentiation of the mrg state", "statement": "A yarn engine's draw is 0 if the underlying mrg draw r is 0, else g^r mod m with g the engine's generator; it lies in [0, m-1].", "quantifier": "all in-range states and parameters, yarn2, yarn3, yarn3s, yarn4, yarn5, yarn5s", "why_tests_cant": "The table-driven power must be right for all 2^31 exponents.", "anchors": ["trng/yarn*.hpp: operator()", "trng/int_math.hpp: power"]}
{"id": "C19", "title": "yarn output map is a permutation of [0,m-1]", "statement": "For each yarn engine the map from the underlying mrg draw to the yarn draw is a bijection of [0,m-1] (m is prime and the generator is a primitive root), so yarn draws have the same frequencies as mrg draws.", "quantifier": "all r in [0,m-1], all three moduli", "why_tests_cant": "2^31 values and a primitive-root argument.", "anchors": ["trng/yarn*.hpp: gen, modulus", "trng/int_math.hpp: power"]}
{"id": "C20", "title": "yarn jump, jump2 and leapfrog", "statement": "jump(s), jump2(s) and split(s,n) of yarn engines act on the draws exactly as for mrg engines: s draws, 2^s draws, every s-th draw starting at n.", "quantifier": "all in-range parameters and states, all s,n,k (leapfrog conditions as for mrg)", "why_tests_cant": "As for mrg engines.", "anchors": ["trng/yarn*.hpp: jump, jump2, split, backward"]}
{"id": "C21", "title": "modulo_inverse returns the inverse", "statement": "For prime m < 2^31 and 0 < a < m, int_math::modulo_inverse(a,m) returns x in [0,m) with a*x = 1 mod m, with no 32-bit overflow; a <= 0 or m <= 1 throws invalid_argument, and gcd(a,m) > 1 throws runtime_error.", "quantifier": "all a, m (int32_t)", "why_tests_cant": "2^62 argument pairs.", "anchors": ["trng/int_math.hpp: modulo_inverse"]}
{"id": "C22", "title": "gauss solves linear systems modulo a prime", "statement": "If int_math::gauss(A,b,m) returns, the vector left in b satisfies A*x = b mod m with entries in [0,m). If A is invertible it does return. It never reports 'no solution' on a solvable system: refuted.", "quantifier": "all n, all primes m < 2^31, all n x n matrices and right-hand sides with entries in [0,m)", "why_tests_cant": "All matrices of all sizes.", "anchors": ["trng/int_math.hpp: gauss"]}
{"id": "C23", "title": "modulo reduces correctly", "statement": "int_math::modulo<m,r>(x) = x mod m for every modulus used in the library and every x up to r*(m-1)^2 (r = 1..4) respectively the ranges the engines use.", "quantifier": "all x in the documented range", "why_tests_cant": "x ranges over ~2^64 values and the code uses branch-free partial reductions.", "anchors": ["trng/int_math.hpp: modulo_helper, modulo"]}
{"id": "C24", "title": "power tables", "statement": "int_math::power<m,b>()(n) = b^n mod m for every n in [0, 2^31).", "quantifier": "all n in [0,2^31), all moduli/generators used", "why_tests_cant": "2^31 values.", "anchors": ["trng/int_math.hpp: power"]}
{"id": "C25", "title": "lagged Fibonacci engines follow their recurrence", "statement": "lagfib2xor<A,B>/lagfib2plus<A,B> draw x[i] = x[i-A] op x[i-B], lagfib4xor/lagfib4plus<A,B,C,D> draw x[i] = x[i-A] op x[i-B] op x[i-C] op x[i-D] (op = xor or addition mod 2^w), where the initial window is the seeded state, for the whole infinite stream.", "quantifier": "all lags 0 < A < B (< C < D), largest lag not a power of two, all seeds/states, all positions", "why_tests_cant": "Infinite streams and ring-buffer wrap-around for every lag.", "anchors": ["trng/lagfib2xor.hpp, lagfib2plus.hpp, lagfib4xor.hpp, lagfib4plus.hpp: step, operator(), status_type"]}
{"id": "C26", "title": "lagged Fibonacci discard is n draws", "statement": "R.discard(n) puts a lagged Fibonacci engine in the state (as compared by ==) reached by n draws.", "quantifier": "all lags (largest lag not a power of two), word sizes, states and n in [0,2^64), n != 1; refuted for n = 1", "why_tests_cant": "All n and all states; for large n the code uses a matrix power instead of stepping.", "anchors": ["trng/lagfib*.hpp: discard", "trng/linear_algebra.hpp: power, vector, matrix"]}
{"id": "C27", "title": "lagged Fibonacci engines never index outside their buffer", "statement": "Drawing never accesses the state array out of bounds.", "quantifier": "all predefined lagfib typedefs and all lags whose largest lag is not a power of two; refuted for power-of-two lags", "why_tests_cant": "Template instances are infinitely many; out-of-bounds reads often go unnoticed at run time.", "anchors": ["trng/lagfib*.hpp: step", "trng/int_math.hpp: mask, ceil2"]}
{"id": "C28", "title": "Reseeding a lagged Fibonacci engine", "statement": "After R.seed(s) the draws of R equal those of a freshly constructed engine seeded with s. (Equality by == is refuted: slots of the buffer beyond the largest lag keep their old contents.)", "quantifier": "all previous states, all seeds", "why_tests_cant": "All states.", "anchors": ["trng/lagfib*.hpp: seed, operator=="]}
{"id": "C29", "title": "xoshiro256plus jump, jump2", "statement": "R.jump(s) equals s draws, R.jump2(s) equals 2^s draws.", "quantifier": "all 256-bit states, all s", "why_tests_cant": "2^256 states; relies on GF(2)-linearity of the step.", "anchors": ["trng/xoshiro256plus.hpp: step, jump", "trng/xoshiro256plus.cc: jump2"]}
{"id": "C30", "title": "xoshiro256plus never reaches the all-zero state", "statement": "Seeding never produces the all-zero state and drawing never leads to it; the state transition is a bijection of 256-bit states.", "quantifier": "all seeds, all nonzero states", "why_tests_cant": "2^256 states.", "anchors": ["trng/xoshiro256plus.hpp: step, seed"]}
{"id": "C31", "title": "Mersenne twisters generate the MT recurrence", "statement": "mt19937 and mt19937_64 draws are the tempered terms of x[k+N] = x[k+M] xor twist(upper(x[k]) | lower(x[k+1])), where x[0..N-1] is the seeded state: the lazily regenerated in-place block gives the same terms as the recurrence, forever; all array accesses are in bounds.", "quantifier": "all states with 0 < mti <= N, all positions", "why_tests_cant": "Infinite stream, 2^19968 states; the in-place three-loop regeneration mixes old and new words.", "anchors": ["trng/mt19937.hpp, trng/mt19937_64.hpp: operator(), discard"]}
{"id": "C32", "title": "Mersenne twister tempering is a permutation", "statement": "The tempering transform of mt19937 is one-to-one on 32-bit words and that of mt19937_64 is one-to-one on 64-bit words.", "quantifier": "all words", "why_tests_cant": "Injectivity on 2^64 words.", "anchors": ["trng/mt19937.hpp, trng/mt19937_64.hpp: operator()"]}
{"id": "C33", "title": "portable uint128 arithmetic", "statement": "The portable 128-bit integer's +, -, *, ++, --, unary -, ~, &, |, ^, <<, >> (0 <= shift < 128), comparisons and conversions agree with arithmetic modulo 2^128; hi() and lo() return the upper and lower half (hi() is refuted).", "quantifier": "all pairs of 128-bit values", "why_tests_cant": "2^256 operand pairs.", "anchors": ["trng/uint128.hpp: portable_impl::uint128"]}
{"id": "C34", "title": "portable uint128 division", "statement": "For b != 0, a / b and a % b of the portable 128-bit integer are the quotient and remainder; division by zero is not silently answered (precondition).", "quantifier": "all a, all b != 0", "why_tests_cant": "2^256 operand pairs; bitwise restoring division loop.", "anchors": ["trng/uint128.hpp: operator/=, operator%="]}
{"id": "C35", "title": "uint128 text round trip", "statement": "Writing a 128-bit value in decimal, octal or hexadecimal and reading it back in the same base from a stream yields the same value; reading digits whose value is >= 2^128 sets failbit and leaves the target unchanged.", "quantifier": "all 128-bit values and all digit strings, three bases; refuted in hexadecimal at end of stream for one-digit values", "why_tests_cant": "2^128 values; overflow detection boundary.", "anchors": ["trng/uint128.hpp: impl::operator<<, impl::operator>>"]}
{"id": "C36", "title": "Engine text round trip", "statement": "Writing an engine to a stream and reading it back into any engine of the same class restores parameters and status exactly, so both continue with the same draws; text following the engine stays in the stream.", "quantifier": "all engine classes, all parameters and states, all following text", "why_tests_cant": "All states and all surrounding text.", "anchors": ["trng/*.hpp: operator<<, operator>>", "trng/utility.hpp: delim, ignore_spaces, io_range"]}
{"id": "C37", "title": "Failed engine input leaves the engine unchanged", "statement": "If reading an engine from a stream fails (stream not good afterwards), the engine keeps its parameters and status.", "quantifier": "all input texts, all engines", "why_tests_cant": "All possible malformed inputs.", "anchors": ["trng/*.hpp: operator>>"]}
{"id": "C38", "title": "Matrix product and power", "statement": "linear_algebra matrix product (blocked), matrix-vector product and power(M,n) equal the mathematical product and n-fold product, over any of the scalar types used.", "quantifier": "all dimensions, all matrices, all n", "why_tests_cant": "All dimensions and exponents.", "anchors": ["trng/linear_algebra.hpp: operator*, power"]}
{"id": "C39", "title": "Canonical uniform variates stay in their interval", "statement": "uniformco is in [0,1), uniformoo in (0,1), uniformoc in (0,1] and uniformcc in [0,1], in IEEE double and float arithmetic, for every draw of every engine.", "quantifier": "all engine outputs, all engine ranges in the library, double and float", "why_tests_cant": "2^64 outputs; depends on rounding at the extreme outputs.", "anchors": ["trng/uniformxx.hpp: u01xx_traits"]}
{"id": "C40", "title": "uniform_int_dist stays in range", "statement": "uniform_int_dist(a,b) returns a value in [a, b-1] = [min(), max()] whenever b-a is representable; otherwise construction is undefined behaviour (signed overflow).", "quantifier": "all a < b with b-a <= INT_MAX, all engine outputs", "why_tests_cant": "All parameter pairs and outputs; floating-point rounding could reach b.", "anchors": ["trng/uniform_int_dist.hpp: operator()"]}
{"id": "C41", "title": "Engine call with a bound", "statement": "For x > 0, R(x) returns a value in [0, x-1]; for x = 0 it returns 0; for x < 0 it returns a value in (x, 0], namely minus the value R(-x) would have returned; for the least long the value is in (LONG_MIN, 0]. The call is never undefined.", "quantifier": "all x of type long, all engine outputs", "why_tests_cant": "2^63 bounds times 2^64 outputs, conversion rounding for x > 2^53.", "anchors": ["trng/*.hpp: operator()(long)"]}
{"id": "C42", "title": "utility::discrete inverts a cumulative table", "statement": "For a nondecreasing table c of length n >= 1 and x <= c[n-1], utility::discrete returns 0 if x < c[0], otherwise the least index i >= min(1,n-1) with x <= c[i].", "quantifier": "all tables and x", "why_tests_cant": "All tables of all lengths.", "anchors": ["trng/utility.hpp: discrete"]}
{"id": "C43", "title": "discrete_dist draws the right outcome", "statement": "In exact arithmetic discrete_dist with nonnegative weights w, given a uniform value v in [0,1), returns the k with w[0]+..+w[k-1] <= v*W < w[0]+..+w[k]; hence outcome k has probability w[k]/W, zero-weight outcomes never occur, and the result is in [min(),max()]. In double arithmetic the range claim is refuted. pdf is 0 outside the outcomes and cdf is 0 before and 1 after them.", "quantifier": "all weight vectors of positive total, all v", "why_tests_cant": "All vector lengths and weights; the floating-point failure needs a crafted rounding pattern.", "anchors": ["trng/discrete_dist.hpp: param_type, operator()"]}
{"id": "C44", "title": "discrete_dist weight update", "statement": "After param(x,p) the distribution equals one constructed from the weight list with entry x replaced by p.", "quantifier": "all weight lists, all x in range whose tree node has a sibling, any addition (in particular floating point); for the last outcome of an odd-length list (length >= 3) the update reads outside the vector (refuted)", "why_tests_cant": "All lengths; the out-of-bounds read is usually silent.", "anchors": ["trng/discrete_dist.hpp: param(int,double)"]}
{"id": "C45", "title": "fast_discrete_dist is usable", "statement": "A fast_discrete_dist constructed from n >= 1 positive weights returns values in [min(),max()] and has max() = n-1.", "quantifier": "all weight vectors; refuted for every one: the constructor's parameter hides the member of the same name, so sizes are taken from the moved-from vector", "why_tests_cant": "No test instantiates it.", "anchors": ["trng/fast_discrete_dist.hpp: param_type(std::vector<double>), operator()"]}
{"id": "C46", "title": "hypergeometric_dist probabilities", "statement": "pdf(x) of hypergeometric_dist(n,m,d) is C(m,x)*C(n-m,d-x)/C(n,d).", "quantifier": "all n,m,d; proved (in exact arithmetic) when d = m; refuted in general: the code uses m-x instead of d-x", "why_tests_cant": "The only test uses d = m.", "anchors": ["trng/hypergeometric_dist.hpp: calc_probabilities"]}
{"id": "C47", "title": "icdf inverts cdf", "statement": "For the closed-form continuous distributions (uniform, uniform01, exponential, two-sided exponential, Pareto, power-law, logistic, tent, Cauchy, Weibull, Rayleigh, extreme-value), over the reals, cdf(icdf(u)) = u for u in (0,1).", "quantifier": "all valid parameters, all u in (0,1)", "why_tests_cant": "Uncountably many arguments.", "anchors": ["trng/*_dist.hpp: cdf, icdf"]}
{"id": "C48", "title": "pdf is the derivative of cdf", "statement": "For the same distributions, over the reals, pdf is the derivative of cdf in the interior of the support.", "quantifier": "all valid parameters, all interior x", "why_tests_cant": "A limit statement over all reals.", "anchors": ["trng/*_dist.hpp: pdf, cdf"]}
{"id": "C49", "title": "cdf is a distribution function", "statement": "cdf takes values in [0,1] and is nondecreasing.", "quantifier": "all valid parameters and x, same distributions; refuted for powerlaw_dist (negative for 0 < x < theta)", "why_tests_cant": "All reals.", "anchors": ["trng/*_dist.hpp: cdf", "trng/powerlaw_dist.hpp: cdf"]}
{"id": "C50", "title": "draws follow cdf", "statement": "For the same distributions, over the reals, the set of uniform variates mapped by operator() to a value <= x has measure cdf(x): it is {u : u <= cdf(x)} or its mirror image {u : u >= 1-cdf(x)}.", "quantifier": "all valid parameters, all x in the support", "why_tests_cant": "All reals; a statistical test can only reject gross deviations.", "anchors": ["trng/*_dist.hpp: operator()"]}
{"id": "C51", "title": "correlated_normal_dist uses a correct Cholesky factor", "statement": "If the factorisation meets only positive pivots, the matrix H it stores is lower triangular and H*H^T equals the given symmetric covariance matrix; so the d consecutive draws are H times the vector of d independent normals.", "quantifier": "all dimensions, all symmetric real matrices with positive pivots", "why_tests_cant": "All dimensions and matrices.", "anchors": ["trng/correlated_normal_dist.hpp: Cholesky_factorization, H_times, operator()"]}
{"id": "C52", "title": "correlated_normal_dist survives a parameter change", "statement": "After param(P) a correlated_normal_dist never reads outside its matrix.", "quantifier": "all sequences of draws and parameter changes; refuted: pending components are kept when the dimension shrinks", "why_tests_cant": "Needs a state history.", "anchors": ["trng/correlated_normal_dist.hpp: param, operator()"]}
{"id": "C53", "title": "uniform_dist stays below its upper bound", "statement": "uniform_dist(a,b) returns values in [a,b).", "quantifier": "all doubles a < b, all outputs; in exact arithmetic it holds; in double arithmetic the upper bound is refuted", "why_tests_cant": "Needs a rounding corner case.", "anchors": ["trng/uniform_dist.hpp: operator()"]}
{"id": "C54", "title": "distribution text round trip", "statement": "Writing a distribution and reading the text back restores its parameters: true for integer parameters and for doubles with at most 16 decimals or of absolute value at least 1/2. Refuted for other doubles (values below 10^-16/2 come back as 0, the double after 0.1 comes back as 0.1, distinct parameters have the same text), for bernoulli_dist (6 decimals), for infinite parameters (truncated_normal_dist without bounds), and for every twosided_exponential_dist (written as \"[exponential (\", expected as \"[twosided exponential (\").", "quantifier": "all parameter values of all 29 distribution classes, any text before (blanks) and after", "why_tests_cant": "All doubles.", "anchors": ["trng/*_dist.hpp: operator<<, operator>>", "trng/twosided_exponential_dist.hpp: operator<<", "trng/bernoulli_dist.hpp: operator<<"]}
{"id": "C55", "title": "inversion samplers return the quantile", "statement": "poisson_dist, zero_truncated_poisson_dist and negative_binomial_dist, in exact arithmetic with exact pdf/cdf, return the least x with cdf(x) >= u (u not equal to a table entry at 0), and zero_truncated_poisson never returns 0.", "quantifier": "all cdf/pdf pairs with cdf(x+1) = cdf(x)+pdf(x+1), all u below the supremum of cdf", "why_tests_cant": "All u and parameters; table/tail hand-over boundary.", "anchors": ["trng/poisson_dist.hpp, zero_truncated_poisson_dist.hpp, negative_binomial_dist.hpp: operator()"]}
{"id": "C56", "title": "bernoulli_dist", "statement": "bernoulli_dist returns head exactly when the uniform variate is < p, and pdf/cdf/min/max are consistent: cdf(x) is the sum of pdf over values <= x, min() <= draw <= max().", "quantifier": "all p in [0,1], all head != tail, all variates", "why_tests_cant": "All parameters.", "anchors": ["trng/bernoulli_dist.hpp: operator(), pdf, cdf, min, max"]}
{"id": "C57", "title": "uniform_int_dist pdf and cdf", "statement": "In exact arithmetic cdf(x) is the sum of pdf(y) over y <= x, cdf is 0 below min() and 1 from max() on.", "quantifier": "all a < b, all x", "why_tests_cant": "All parameter pairs.", "anchors": ["trng/uniform_int_dist.hpp: pdf, cdf"]}
{"id": "C58", "title": "integer helpers", "statement": "log2_floor(x) is the largest k with 2^k <= x, log2_ceil(x) the least k with 2^k >= x, ceil2(x) the least power of two >= x, mask(x) the least 2^k-1 >= x.", "quantifier": "all x >= 1 in 64 bits for which the result fits", "why_tests_cant": "2^64 inputs.", "anchors": ["trng/int_math.hpp: log2_floor, log2_ceil, ceil2, mask, pow2"]}
{"id": "C59", "title": "seeding yields legal states", "statement": "seed(s) puts minstd in [1,2^31-2], mrg/yarn engines in [0,m)^k with not all components zero, and lcg64_count_shift's counter below its modulus; the resulting draws are within [min(),max()] forever.", "quantifier": "all unsigned long seeds", "why_tests_cant": "2^64 seeds, infinite streams.", "anchors": ["trng/*.cc: seed"]}
{"id": "C60", "title": "jumps compose", "statement": "jump(s) followed by jump(t) equals jump(s+t) whenever s+t < 2^64, and jump(s) commutes with drawing; jump2(k) equals jump(2^k) for k < 64.", "quantifier": "all engines with jump, all s,t", "why_tests_cant": "2^128 pairs.", "anchors": ["trng/*.hpp: jump, jump2"]}
{"id": "C61", "title": "count128_lcg_shift does not depend on the 128-bit implementation", "statement": "count128_lcg_shift draws the same values whether 128-bit integers are the compiler's or the portable class.", "quantifier": "all parameters and states; refuted: with the portable class (hi() returns the low half) every draw of every engine is one and the same constant", "why_tests_cant": "the portable class is compiled only on platforms without __int128, where the tests are usually not run", "anchors": ["trng/uint128.hpp: portable_impl::uint128::hi", "trng/count128_lcg_shift.hpp: operator()"]}
{"id": "C62", "title": "count128_lcg_shift state period", "statement": "With an odd increment the state of count128_lcg_shift returns to its start after n > 0 draws exactly when 2^128 divides n.", "quantifier": "all odd increments (all predefined ones are odd), all states, all n", "why_tests_cant": "2^128 draws cannot be made", "anchors": ["trng/count128_lcg_shift.hpp: step", "trng/count128_lcg_shift.cc: parameter constants"]}
{"id": "C63", "title": "lcg64_count_shift state period", "statement": "The state of lcg64_count_shift returns to its start after n draws exactly when 2^64*(2^61-1) divides n.", "quantifier": "all predefined parameter sets, all states with reduced counter, all n; more generally a = 1 mod 4, b odd, increment coprime to 2^61-1", "why_tests_cant": "2^125 draws cannot be made", "anchors": ["trng/lcg64_count_shift.hpp: step", "trng/lcg64_count_shift.cc: parameter constants"]}
{"id": "C64", "title": "Engines read from a stream are usable", "statement": "After a successful read every field of the engine is a value of its C++ type, and a lagged Fibonacci engine read from any text draws without undefined behaviour. For mt19937 (negative index), minstd (zero), mrg2 and yarn2 (negative state) a text is accepted whose next draw is undefined or outside [min(),max()]: the claim that any accepted engine can be drawn from is refuted.", "quantifier": "all input texts", "why_tests_cant": "Requires all texts the parser accepts, including states no program writes.", "anchors": ["trng/*.hpp: operator>>", "trng/mt19937.hpp: operator()", "trng/yarn2.hpp: operator()"]}
{"id": "C65", "title": "binomial_dist probabilities", "statement": "pdf(x) of binomial_dist(p,n) is C(n,x) p^x (1-p)^(n-x), cdf is its sum and a draw is the least x with cdf(x) >= u. Refuted for p = 0 in double arithmetic (every draw returns n) and for default constructed parameters (empty table).", "quantifier": "0 < p < 1, all n, all u in [0,1] except u = pdf(0), exact arithmetic", "why_tests_cant": "All n and p; the tests never use p = 0.", "anchors": ["trng/binomial_dist.hpp: calc_probabilities, operator(), pdf, cdf"]}
{"id": "C66", "title": "geometric_dist draws", "statement": "geometric_dist(p) returns x exactly when q^(x+1) < u <= q^x, q = 1-p, provided x is representable; cdf is the sum of pdf. Refuted: the conversion to int overflows for small p, and cdf(max()) overflows.", "quantifier": "all 0 < p < 1, 0 < u < 1, exact arithmetic", "why_tests_cant": "All u and p; the overflows need extreme parameters.", "anchors": ["trng/geometric_dist.hpp: operator(), pdf, cdf"]}
{"id": "C67", "title": "icdf at and outside the ends of [0,1]", "statement": "icdf(0) is min() and icdf(1) is max(); outside [0,1] icdf is NaN.", "quantifier": "all parameters of the closed-form continuous distributions; refuted for pareto, powerlaw, cauchy, extreme_value (both ends NaN) and weibull (icdf(1) NaN)", "why_tests_cant": "All parameters; the lines returning the end points exist but are unreachable.", "anchors": ["trng/*_dist.hpp: icdf", "trng/pareto_dist.hpp: icdf", "trng/weibull_dist.hpp: icdf"]}
{"id": "C68", "title": "Phi is the standard normal distribution function", "statement": "math::Phi(x), through its three branches, is the integral of exp(-t^2/2)/sqrt(2 pi) from minus infinity to x: it is differentiable with that density everywhere, symmetric, strictly increasing, inside (0,1), and an inverse on (0,1) exists; inv_Phi(0) = -inf, inv_Phi(1) = inf, NaN outside [0,1].", "quantifier": "all real x, exact arithmetic", "why_tests_cant": "An improper integral over the whole line, for all real x; sampling cannot show the limit, or that the branches agree at and around both switch points.", "anchors": ["trng/special_functions.hpp: Phi, inv_Phi"]}
{"id": "C69", "title": "normal_dist", "statement": "cdf is a distribution function with derivative pdf, icdf is its quantile function (icdf(0) = -inf, icdf(1) = inf), and operator() with a uniform variate is at most x with probability cdf(x).", "quantifier": "all mu, all sigma > 0, all x, every exact inverse of Phi", "why_tests_cant": "All real parameters and arguments; the probability of a draw is a statement about the whole interval of uniform variates.", "anchors": ["trng/normal_dist.hpp: pdf, cdf, icdf, operator()"]}
{"id": "C70", "title": "lognormal_dist", "statement": "cdf is a distribution function with derivative pdf away from 0, icdf is its quantile function (icdf(0) = 0, icdf(1) = inf), and operator() with a uniform variate is positive and at most x with probability cdf(x).", "quantifier": "all mu, all sigma > 0, all x, every exact inverse of Phi", "why_tests_cant": "As C69.", "anchors": ["trng/lognormal_dist.hpp: pdf, cdf, icdf, operator()"]}
{"id": "C71", "title": "truncated_normal_dist", "statement": "icdf is the quantile function of cdf and pdf the derivative of cdf; on [a,b] cdf rises from 0 to 1; every draw lies in [a,b] and is at most x with probability cdf(x). Outside [a,b] cdf and pdf are not those of the distribution (refuted: cdf is negative below a, exceeds 1 above b, pdf is positive).", "quantifier": "all mu, sigma > 0, a < b including infinite bounds, all x", "why_tests_cant": "All real parameters and arguments; tests of cdf and pdf stay inside [a,b].", "anchors": ["trng/truncated_normal_dist.hpp: param_type::update_Phi, pdf, cdf, icdf, operator()"]}
{"id": "C72", "title": "maxwell_dist", "statement": "pdf is the derivative of cdf; on x >= 0 cdf rises strictly from 0 to 1. Below 0, the minimum of the distribution, cdf is negative and pdf positive (refuted).", "quantifier": "all theta > 0, all x", "why_tests_cant": "All real parameters and arguments; the tests do not evaluate below the minimum.", "anchors": ["trng/maxwell_dist.hpp: pdf, cdf"]}
{"id": "C73", "title": "Text of distributions with a variable number of parameters", "statement": "discrete_dist, fast_discrete_dist and correlated_normal_dist restore their parameters from their text. Refuted: any text that does not begin with the expected name and bracket makes operator>> use an uninitialised variable, and correlated_normal_dist accepts the dimension 65536 without any matrix element because d*d wraps.", "quantifier": "all lists of doubles with at most 16 decimals or of absolute value at least 1/2; all input texts for the refutation", "why_tests_cant": "All lengths, and all texts; an uninitialised read is not observable in a test.", "anchors": ["trng/discrete_dist.hpp: operator<<, operator>>", "trng/fast_discrete_dist.hpp: operator>>", "trng/correlated_normal_dist.hpp: operator>>"]}
{"id": "C74", "title": "Writing a distribution leaves the stream's formatting as it was", "statement": "The flags of the stream are restored. Refuted for the precision: every class that writes a real parameter, except bernoulli_dist, leaves it at 16, so the text of a later bernoulli_dist depends on what was written before.", "quantifier": "all classes, parameters and stream states", "why_tests_cant": "All stream states.", "anchors": ["trng/*_dist.hpp: operator<<"]}
{"id": "C75", "title": "Gamma and beta functions", "statement": "Gamma, Beta, ln_binomial, Pochhammer, GammaP and Beta_I have the values of the integrals and products they stand for: Gamma(n+1) = n!, Gamma(1/2) = sqrt(pi), Beta agrees with its integral in both branches of the code and is symmetric, exp(ln_binomial(n,m)) is the binomial coefficient, Pochhammer(x,n) = x(x+1)...(x+n-1).", "quantifier": "exact real arithmetic; all positive parameters, all arguments", "why_tests_cant": "The identities involve improper integrals and hold for a continuum of arguments.", "anchors": ["trng/special_functions.hpp: Gamma, ln_Gamma, Beta, ln_binomial, Pochhammer, GammaP, Beta_I"]}
{"id": "C76", "title": "gamma_dist", "statement": "cdf is a distribution function, pdf is its derivative for x <> 0, icdf is its quantile function on (0,1), and a draw is at most x with probability cdf(x). pdf(0) is infinite for kappa < 1 and 0 for kappa > 1. Refuted: pdf(0) is NaN for kappa = 1, and icdf(0), icdf(1) are NaN.", "quantifier": "exact real arithmetic; all positive parameters, all arguments", "why_tests_cant": "Continuum of parameters and arguments; probabilities are integrals.", "anchors": ["trng/gamma_dist.hpp: operator(), pdf, cdf, icdf"]}
{"id": "C77", "title": "chi_square_dist", "statement": "cdf is a distribution function, pdf is its derivative for x <> 0, icdf is its quantile function on (0,1), and a draw is at most x with probability cdf(x). pdf(0) is infinite for nu = 1, 1/2 for nu = 2 and 0 for nu > 2. Refuted: icdf(0), icdf(1) are NaN.", "quantifier": "exact real arithmetic; all positive parameters, all arguments", "why_tests_cant": "Continuum of arguments; probabilities are integrals.", "anchors": ["trng/chi_square_dist.hpp: operator(), pdf, cdf, icdf"]}
{"id": "C78", "title": "beta_dist", "statement": "cdf is a distribution function, pdf is its derivative off 0 and 1, icdf is its quantile function on [eps, 1-eps], a draw lies in [0,1] and is at most x with probability cdf(x) up to eps = 2^-52, and the setters leave the same parameters as the constructor. pdf(0) is 0 for alpha > 1, beta for alpha = 1 and NaN for alpha < 1, and the same at 1 with the roles exchanged. Refuted: icdf(u) = 0 for u < eps, and operator== ignores beta.", "quantifier": "exact real arithmetic; all positive parameters, all arguments", "why_tests_cant": "Continuum of parameters and arguments; probabilities are integrals.", "anchors": ["trng/beta_dist.hpp: param_type, operator(), pdf, cdf, icdf, operator==", "trng/special_functions.hpp: inv_Beta_I"]}
{"id": "C79", "title": "student_t_dist", "statement": "cdf is a distribution function symmetric about 0, pdf is its derivative, icdf is its quantile function on [eps, 1-eps], and a draw is at most x with probability cdf(x) up to eps = 2^-52. Refuted: draws are infinite for uniform values within eps of 0 or 1, icdf(0) and icdf(1) are NaN, and pdf overflows for the largest int.", "quantifier": "exact real arithmetic; all positive parameters, all arguments", "why_tests_cant": "Continuum of arguments; the density identity needs the duplication formula of the gamma function.", "anchors": ["trng/student_t_dist.hpp: operator(), pdf, cdf, icdf"]}
{"id": "C80", "title": "snedecor_f_dist", "statement": "cdf on x >= 0 is a distribution function, pdf is its derivative for x > 0, icdf is its quantile function on [eps, 1-eps], and a draw is at most x with probability cdf(x) up to eps = 2^-52. pdf(0) is infinite for n = 1 and 0 for n > 2. Refuted: cdf and pdf are NaN for x < 0, pdf(0) is NaN for n = 2, draws are infinite for uniform values within eps of 1, and icdf(0), icdf(1) are NaN.", "quantifier": "exact real arithmetic; all positive parameters, all arguments", "why_tests_cant": "Continuum of arguments; probabilities are integrals.", "anchors": ["trng/snedecor_f_dist.hpp: operator(), pdf, cdf, icdf"]}
{"id": "C81", "title": "Incomplete gamma function by series", "statement": "For tolerance <= x < a+1 outside the range of the asymptotic expansion, GammaP returns a value r with r <= P(a,x) <= r(1+2^-46), GammaQ returns 1-r, and the unregularised forms satisfy the same bound against the integral; below the tolerance they return 0, and for a >= 1 the integral is then at most 2x; outside the domain NaN. Refuted: for small a the returned 0 stands for more than half of the integral, and inc_gamma(170,170) stops after 53 terms with relative error above 1e-7.", "quantifier": "exact real arithmetic; all a > 0 and all x in the stated range", "why_tests_cant": "Continuum of arguments; the reference value is an integral.", "anchors": ["trng/special_functions.hpp: detail::GammaP_ser, detail::GammaP, detail::GammaQ"]}
{"id": "C82", "title": "Incomplete beta function by algorithm AS 63", "statement": "Every value r returned by Beta_I(x,p,q,norm) satisfies |I - r| <= 2^-50 (1+q+p/q) r for x <= p/(p+q) and |I - r| <= 2^-50 (1+p+q/p)(1-r) otherwise, where I is the ratio of the integrals; for p+q <= 2^30 and p,q >= 2^-20 (p+q) the loop ends with a value and without undefined behaviour; student_t and snedecor_f cdf inherit the bound. Refuted: cdf(+-inf) converts NaN to int, student_t_dist(2^31-1).cdf(-1) converts a number above INT_MAX, and snedecor_f_dist(2^30,1).cdf(1-2^-30) decrements an int below INT_MIN.", "quantifier": "exact real arithmetic; all p, q > 0, 0 <= x <= 1, any number of iterations", "why_tests_cant": "Continuum of arguments; overflow needs 2^31 iterations.", "anchors": ["trng/special_functions.hpp: detail::Beta_I", "trng/student_t_dist.hpp: cdf", "trng/snedecor_f_dist.hpp: cdf"]}
{"id": "C83", "title": "Inverse of the incomplete gamma function by Halley's method", "statement": "inv_GammaP returns a positive number for every a > 0 and 0 < p < 1, whatever GammaP returns; a point is a rest point of the iteration exactly when GammaP is p there, and is then returned; a result accepted by the tolerance test solves P(a,r) = p up to the error of GammaP plus 2^-76 a (a+1+r)^2, and so do the quantiles of gamma_dist and chi_square_dist. Refuted: for shape 1/128 the iteration limit is reached and icdf(1/2) is a point where the distribution function exceeds 0.69.", "quantifier": "exact real arithmetic; all a > 0, 0 < p < 1, all evaluations of GammaP with a known error", "why_tests_cant": "Continuum of arguments; the reference value is an integral.", "anchors": ["trng/special_functions.hpp: detail::inv_GammaP", "trng/gamma_dist.hpp: icdf", "trng/chi_square_dist.hpp: icdf"]}
{"id": "C84", "title": "Inverse of the incomplete beta function: range and tolerance", "statement": "For 2^-52 <= x <= 1-2^-52 inv_Beta_I ends with a result strictly between 0 and 1, whatever Beta_I returns; a result accepted by the tolerance test solves the equation up to the error of Beta_I plus 2^-51 times the result; the slope of the step is the derivative of the distribution function; an exact solution is accepted at once. Refuted in double arithmetic: for alpha = 1/1024, beta = 1023/1024, x = 1/4 the initial guess underflows to 0 and the inner loop never ends.", "quantifier": "exact real arithmetic; all p, q > 0; the refutation in binary64 for all positive doubles x and norm", "why_tests_cant": "Termination is about all numbers of iterations; the reference value is an integral.", "anchors": ["trng/special_functions.hpp: detail::inv_Beta_I", "trng/beta_dist.hpp: icdf, operator()"]}
{"id": "C85", "title": "Convergence of the quantile iteration for beta, Student t and F distributions", "statement": "With an exact Beta_I the 53 iterations of inv_Beta_I suffice: student_t_dist(nu).icdf(u) for nu >= 2 and beta_dist(a,a).icdf(u) for a >= 1 return a value whose distribution function differs from u by less than 2^-51, for all 2^-52 <= u <= 1-2^-52; the same for beta_dist(a,b), a,b >= 1, and snedecor_f_dist(n,m), n,m >= 2, for quantiles on the side of the initial guess away from the mode. The inner loop is never entered.", "quantifier": "exact real arithmetic; all parameters and arguments in the stated ranges", "why_tests_cant": "Continuum of parameters and arguments.", "anchors": ["trng/special_functions.hpp: detail::inv_Beta_I", "trng/student_t_dist.hpp: icdf", "trng/snedecor_f_dist.hpp: icdf", "trng/beta_dist.hpp: icdf"]}
{"id": "C86", "title": "Quantile iteration of maxwell_dist", "statement": "maxwell_dist(theta).icdf(x) is NaN outside [0,1], 0 at 0 and infinity at 1; for 2^-53 <= x <= 1-2^-53 the loop of digits+2 Newton steps ends by its tolerance test and returns a positive value whose distribution function differs from x by at most 2^-96; the result is increasing over arguments 2^-53 apart and proportional to theta. For x < 2^-171 the iterations do not suffice: the distribution function at the result exceeds 2^-170 (refuted).", "quantifier": "exact real arithmetic; all theta > 0, all x in the stated ranges", "why_tests_cant": "Continuum of arguments and parameters; convergence of an iteration from every argument.", "anchors": ["trng/maxwell_dist.hpp: icdf"]}
{"id": "C87", "title": "Draws of a seeded engine in closed form", "statement": "After seed(s), draw n (from 0) of lcg64 is a^(n+1) s + b (1 + a + ... + a^n) mod 2^64; lcg64_shift draws the same numbers with bits folded by 17 down, 31 up, 8 down; lcg64_count_shift folds that number plus (s + (n+1) inc) mod (2^61-1); count128_lcg_shift folds (23 down, 41 up, 18 down) a times the exclusive or of the halves of (s 2^64 + s + (n+1) inc) mod 2^128 plus b; minstd draws 16807^(n+1) times s (1 if s is a multiple of 2^31-1) mod 2^31-1; an mrg engine draws the terms of its linear recurrence that follow the window 1, ..., 1, s mod m (s read as a signed number); a yarn engine the powers of its generator to these; xoshiro256plus the sums of its first and last word after each of the published steps, given bit by bit.", "quantifier": "all parameters, all 64-bit seeds, all draws n", "why_tests_cant": "Draws arbitrarily far in the stream for every seed and parameter set.", "anchors": ["trng/lcg64.hpp, trng/lcg64.cc: seed, step, operator()", "trng/lcg64_shift.hpp", "trng/lcg64_count_shift.hpp, .cc", "trng/count128_lcg_shift.hpp, .cc", "trng/minstd.hpp, .cc", "trng/mrg2.cc ... mrg5s.cc: seed", "trng/yarn2.hpp ... yarn5s.hpp: operator()", "trng/xoshiro256plus.hpp: step, operator()"]}
{"id": "C88", "title": "Seeding from a generator", "statement": "seed(g) of lcg64, lcg64_shift, lcg64_count_shift, count128_lcg_shift and xoshiro256plus concatenates the first 2, 2, 4, 4, 8 values of g (32 bits each, modulo the word size; the counter additionally modulo 2^61-1), keeps the parameters and leaves g after exactly these values; with a 32-bit source different values give different lcg64 and count128_lcg_shift engines; mt19937 and mt19937_64 are seeded with the first value and with the first two values (32 bits each) as the standard engines are with a seed; minstd takes the first value that is not a multiple of 2^31-1 and does not return if there is none. A source that yields only multiples of the modulus leaves an mrg or yarn engine in the zero state that draws 0 for ever (refuted: seed(g) always gives a working engine); from any other state, with a non-zero last coefficient, every k consecutive draws contain a value other than zero.", "quantifier": "all sources, all states of the source, all parameters", "why_tests_cant": "Sources are arbitrary user code; endless loops and streams that are zero for ever cannot be observed.", "anchors": ["trng/lcg64.hpp: seed(gen&)", "trng/lcg64_count_shift.hpp: seed(gen&)", "trng/count128_lcg_shift.hpp: seed(gen&)", "trng/minstd.hpp: seed(gen&)", "trng/xoshiro256plus.hpp: seed(gen&)", "trng/mrg2.hpp ... mrg5s.hpp: seed(gen&)"]}
{"id": "C89", "title": "Engine names and texts of other classes", "statement": "The name of a lagged Fibonacci engine is lagfib, the number of lags, xor or plus, the word size and the lags in decimal, joined by underscores; engine classes with the same name are the same class (with the same template arguments); an engine that is given the text of an engine of another class, also one whose name extends its own, sets failbit and keeps its state.", "quantifier": "all pairs of engine classes including all template arguments of the lagged Fibonacci engines, all states, any white space before and any text after", "why_tests_cant": "Infinitely many template instances and states.", "anchors": ["trng/lagfib2xor.hpp: init_name", "trng/lcg64.hpp: operator>>", "trng/utility.hpp: delim_str"]}
{"id": "C90", "title": "Periods of the mrg and yarn engines", "statement": "With the predefined parameters of mrg2, mrg3, mrg5, mrg4::LEcuyer1, mrg3s::trng1 and mrg5s::trng1, from every state other than zero, two states of the sequence are equal exactly if their positions differ by a multiple of the documented period m^n-1, and the sequence of draws is invariant exactly under shifts by its multiples. With mrg3s::trng0 and mrg5s::trng0, the defaults of their classes, the period is (m^n-1)/2 from every state other than zero; with mrg4::LEcuyer2 every state recurs after m^2-1 draws (refuted: the documented period m^n-1 for every class). The yarn engines have the period of the mrg engine of the same order and coefficients.", "quantifier": "all states of all mrg and yarn classes with predefined parameters, all positions", "why_tests_cant": "Periods of up to 2^155 draws.", "anchors": ["trng/mrg2.cc ... mrg5s.cc: predefined parameters", "trng/mrg2.hpp ... mrg5s.hpp: step, operator()", "trng/yarn2.hpp ... yarn5s.hpp: operator()", "doc/trng.pdf: periods of mrgn and yarnn"]}
{"id": "C91", "title": "Equidistribution over a period", "statement": "With the parameters of full period, the n successive draws of an mrgn engine starting at a position of a period take every combination of n values in [0,m) other than n zeros at exactly one position; the same holds for the yarn engines.", "quantifier": "all states other than zero, all combinations of n values, all mrg and yarn classes with parameters of full period", "why_tests_cant": "Periods of up to 2^155 draws.", "anchors": ["trng/mrg2.hpp ... mrg5s.hpp: operator()", "trng/yarn2.hpp ... yarn5s.hpp: operator()"]}
{"id": "C92", "title": "xoshiro256plus: period and equidistribution", "statement": "From every state except the all-zero one the states of xoshiro256plus repeat exactly after multiples of 2^256-1 draws, the draws have no shorter period, every other non-zero state is reached exactly once per period, and in one period every 64-bit value is drawn together with every combination of three state words exactly once (so 2^192 times; zero 2^192-1 times).", "quantifier": "all non-zero states, all pairs of positions, all values", "why_tests_cant": "The cycle has 2^256-1 states; no test can walk it.", "anchors": ["trng/xoshiro256plus.hpp: step, operator()"]}
{"id": "C93", "title": "Periods of the lagged Fibonacci engines with lags up to 607", "statement": "r250, lagfib2xor_521, lagfib2xor_607, lagfib4xor_521 and lagfib4xor_607 (32 and 64 bit): if one of the last B words of the state is not zero, B the largest lag, the sequence of draws repeats exactly after multiples of 2^B-1 draws. lagfib2plus and lagfib4plus with the same lags and w-bit words: if one of the last B words is odd, it repeats exactly after multiples of 2^(w-1)(2^B-1) draws.", "quantifier": "all predefined classes with largest lag 250, 521, 607; all states with a word that is not zero (xor) or odd (plus); all shifts n", "why_tests_cant": "the periods are 2^250 and longer; no run can come back to its start", "anchors": ["trng/lagfib2xor.hpp", "trng/lagfib4xor.hpp", "trng/lagfib2plus.hpp", "trng/lagfib4plus.hpp"]}
{"id": "C94", "title": "Periods and equidistribution of the draws of the counter engines", "statement": "count128_lcg_shift with the native 128-bit type, odd increment and odd multiplier: the sequence of draws is unchanged exactly by shifts that are multiples of 2^128, and in one period every 64-bit value is drawn exactly once with every high word of the counter (2^64 times in all). lcg64_count_shift with a mod 4 = 1, odd b and an increment prime to 2^61-1: the sequence of draws is unchanged exactly by multiples of 2^64(2^61-1), and every 64-bit value is drawn exactly once with every value of the counter. All predefined parameter sets meet these conditions.", "quantifier": "all parameters meeting the conditions, all states, all shifts, all values and counter values", "why_tests_cant": "the periods are 2^125 and 2^128 draws; state periods alone (C62, C63) do not exclude a shorter period of the scrambled draws", "anchors": ["trng/count128_lcg_shift.hpp: step, operator()", "trng/lcg64_count_shift.hpp: step, operator()", "trng/count128_lcg_shift.cc: predefined parameters", "trng/lcg64_count_shift.cc: predefined parameters"]}
{"id": "C95", "title": "Continued fraction of the upper incomplete gamma function", "statement": "Over the reals, for 0 < a, a+1 <= x <= 2^1000, where GammaP and GammaQ use GammaQ_cf (a <= 15 or x >= 2.35 a), the returned Q(a,x) has a relative error of at most 2^-37 against the ratio of the integrals, at most 2^-44 if a >= 1; the same holds for the functions that are not regularised for a <= 64. With the series branch, GammaP(a,x) is within 2^-37 of P(a,x) for all a <= 15 and x from 2^-50 (2^-44 for a >= 1), and poisson_dist::cdf(x) is within 2^-44 of the sum of the probabilities of 0,...,x for x <= 14, or mu <= 0.3 x, or mu >= 2.35 (x+1). The limit of 53 iterations is reached for small a: at a = 1/1024, x = 1025/1024 the value is too small by more than 2^-40.", "quantifier": "all real a and x in the ranges, all x and mu of poisson_dist in the ranges", "why_tests_cant": "the error depends on two real arguments; sampled comparisons do not bound it and the worst case is at the corner a -> 0, x = a+1", "anchors": ["trng/special_functions.hpp: GammaQ_cf, GammaP, GammaQ", "trng/poisson_dist.hpp: cdf"]}
{"id": "C96", "title": "Asymptotic expansion of the incomplete gamma functions", "statement": "Over the reals, where GammaP and GammaQ use the uniform asymptotic expansion (a > 15, 0.3 a < x < 2.35 a), the two returned values add up to 1 and differ from the ratios of the integrals by at most 2^-47, and by at most 2^-56 unless a lies in (16.17,16.18), (26.52,26.54) or (39.39,39.41). Outside these windows and for |x-a| >= a/32 the smaller of the two values has a relative error of at most 2^-43. Together with the series and the continued fraction, GammaP(a,x) is within 2^-37 of P(a,x) for every a > 0 and 2^-50 <= x <= 2^1000 (2^-44 for a >= 1), and poisson_dist::cdf(x) is within 2^-44 of the sum of the probabilities of 0,...,x for every x >= 0 and every mu. Inside the first window there is an a at which a coefficient is zero; the loop takes this for convergence, and the value of GammaP is too small by more than 2^-49.", "quantifier": "all real a > 15 and x in the range, all shapes a > 0 together with the other branches, all x and mu of poisson_dist", "why_tests_cant": "26 coefficients with 36 digits approximate a function of two real arguments; samples do not bound the error, and the windows in which the loop stops early are of measure zero", "anchors": ["trng/special_functions.hpp: mln1p, GammaPQ_asympt_coefficients, GammaPQ_asympt_R, GammaP_asympt, GammaQ_asympt, GammaP, GammaQ", "trng/poisson_dist.hpp: cdf"]}
{"id": "C97", "title": "Accuracy of inv_Phi, inv_erf and inv_erfc", "statement": "Over the reals, with exact Phi, erf and erfc, inv_Phi(x) (Acklam's rational approximations followed by one Halley step, two for long double) is a finite number for every x from 2^-1074 to 1-2^-1074, and differs from the x-quantile z of the standard normal distribution by at most 2^-54 |z| (2^-140 |z| with the second step); before the steps the approximation is within 10^-4. The same relative errors hold for inv_erf(x), |x| <= 1-2^-1073, against the solution of erf(z)=x, and for inv_erfc(x), 2^-1073 <= x <= 2-2^-1073, against the solution of erfc(z)=x. At the ends of the domains the results are the infinities, outside NaN, and in the middle exactly 0. Consequently icdf of normal_dist and truncated_normal_dist errs by at most 2^-54 times the distance of the quantile from mu, and the logarithm of lognormal_dist::icdf by 2^-54 |ln q - mu|.", "quantifier": "all real x in these ranges (every double strictly between 0 and 1), all mu, sigma > 0 and truncation limits", "why_tests_cant": "the three rational approximations with 21 coefficients have to be compared with an inverse function on continuous ranges down to 2^-1074; samples cannot bound the error between them", "anchors": ["trng/special_functions.hpp: inv_Phi_traits, inv_Phi_approx, inv_Phi, inv_erf, inv_erfc", "trng/normal_dist.hpp: icdf", "trng/lognormal_dist.hpp: icdf", "trng/truncated_normal_dist.hpp: icdf"]}
{"id": "C98", "title": "negative_binomial_dist computes and draws its distribution", "statement": "For success probability p in (0,1) and any real r > 0, negative_binomial_dist::pdf(x) is r(r+1)...(r+x-1)/x! p^r (1-p)^x for every int 0 <= x < INT_MAX and 0 for negative x; cdf(x) (evaluated as an incomplete beta function) is the sum of these probabilities up to x, also for p = 1. The probabilities are nonnegative and sum up to 1; for integer r they are the textbook binomial form. If r+54 <= 2^30 p, the constructor finishes its table and operator() returns, for every uniform variate other than p^r, the least x with u <= cdf(x), without int overflow. With the algorithm AS 63 behind Beta_I, cdf is within a relative error 2^-50 (1+(x+1)+r/(x+1)) (or its mirrored form). For p = 1 pdf(0) is NaN, for p = 0 the constructor never ends, and at x = INT_MAX pdf and cdf overflow.", "quantifier": "all real p, r in the ranges, all int x, all variates u", "why_tests_cant": "the identity between the incomplete beta integral and the sums, for non-integer r, holds for a continuum of parameters and unboundedly many x; termination of table and tail loop for all parameters cannot be sampled", "anchors": ["trng/negative_binomial_dist.hpp: pdf, cdf, calc_probabilities, operator()", "trng/special_functions.hpp: Beta_I"]}
{"id": "C99", "title": "Canonical uniform variates have the right distribution", "statement": "For an engine with max()-min() = D, 1 <= D < 2^64, and r = engine output - min(): uniformcc is r/D within 2^-49, uniformco is r/(D+1) within 2^-48 + 1/(D(D+1)), uniformoc is 1 - r/(D+1) within the same bound and uniformoo (D >= 2) is (r+1)/(D+2) within 2^-48 + 2/D^2 in double (float: 2^-20, 2^-19); all are monotone in r. For every t in [0,1] the outputs whose uniformco, uniformcc or uniformoo variate is at most t are an initial segment of the outputs, of a fraction t within 2^-48 + 2/(D+1) (4/(D+1) for uniformoo). Hence over a period of any engine that takes every output exactly once, in particular lcg64 with each predefined parameter set and minstd, the number of calls with uniformco <= t is t times the period, within 2^-47 and 2^-29 of the period. An engine with two values (D = 1) does not: uniformco is constantly 0, and uniformoo returns 0 and 1.", "quantifier": "all D, all outputs, all thresholds t, double and float; all states of the engines", "why_tests_cant": "A threshold test over a period takes 2^64 calls; the worst rounding error over D and r cannot be found by sampling", "anchors": ["trng/uniformxx.hpp:81-195", "trng/lcg64.hpp", "trng/minstd.hpp"]}
{"id": "C100", "title": "Draws of the continuous distributions in double follow their distributions", "statement": "exponential, twosided_exponential, rayleigh, weibull, pareto, powerlaw, cauchy, logistic, extreme_value and tent_dist in double, with every operation of operator() rounded to nearest and log, pow, sin, cos of the C++ library within two units in the last place: for every engine range of the library and every output, the draw is finite and lies in [min(), max()], and the distribution function at the draw equals the uniform variate used (or one minus it) within c/2^52. c is 20 for exponential, 12 for twosided_exponential, 42 for rayleigh, 344+20 beta for weibull, 4+20 gamma for pareto, 4+10 gamma for powerlaw, 12+|eta|/theta for cauchy, 140+|eta|/theta for logistic and extreme_value, 5+|m|/d for tent. Hence for every t the fraction of the D+1 outputs whose draw is at most t differs from the distribution function at t by at most (c+16)/2^52 + 3/(D+1); this is also the fraction of the calls over every period of an engine that takes each output once, e.g. 2^-46 for exponential_dist on lcg64.", "quantifier": "all parameters with scales in [2^-300, 2^300], locations up to 2^300 and shapes in [1/8, 2^20]; all engine outputs; all thresholds t; all mathematical libraries of that accuracy", "why_tests_cant": "The worst case over 2^64 outputs and all parameters cannot be sampled, and a test with one library says nothing about another", "anchors": ["trng/exponential_dist.hpp:122-124", "trng/twosided_exponential_dist.hpp:123-169", "trng/rayleigh_dist.hpp:122-168", "trng/weibull_dist.hpp:127-129", "trng/pareto_dist.hpp:128-130", "trng/powerlaw_dist.hpp:128-130", "trng/cauchy_dist.hpp:116-136", "trng/logistic_dist.hpp:116-134", "trng/extreme_value_dist.hpp:126-128", "trng/tent_dist.hpp:115-134", "trng/uniformxx.hpp:81-195"]}
{"id": "C101", "title": "Discrete draws in double have the right probabilities", "statement": "For D+1 equally likely engine outputs, with every operation rounded to nearest: uniform_int_dist(a,b) returns each k in [a,b) with probability 1/(b-a), and the engines' operator()(long n) each k in [0,n) with probability 1/n, within 2^-46 + 4/(D+1). uniform_dist(a,b) has distribution function (t-a)/(b-a) within (9/2^52) max(|a|,|b|)/(b-a) + 2^-48 + 2/(D+1). bernoulli_dist returns head with probability p within 2^-48 + 2/(D+1). Every draw through utility::discrete on a finite ascending table c ending in 1 gives an index at most k with probability c[k], within 2^-48 + 3/(D+1) for uniformoo (binomial_dist, hypergeometric_dist) and 2^-48 + 2/(D+1) for uniformco (the table of poisson_dist and its relatives). geometric_dist(p) never overflows int and returns k with probability p(1-p)^k within 2^-45/p + 6/(D+1), for every library whose log is within two units in the last place. discrete_dist returns k with probability w[k]/W within 2^-42 + 4/(D+1), and an index in range except with probability 2^-43 + 2/(D+1). The same fractions hold over every period of an engine that takes each output once.", "quantifier": "all integer ranges of width below 2^31; all n < 2^63; all intervals with |a|,|b| <= 2^300 and b-a >= 2^-300; all p; for geometric_dist all p in [2^-25, 1); all weight vectors of fewer than 2^31 finite nonnegative weights with sum in [2^-900, 2^1000]; all D < 2^64 (D of the library's engines for uniformoo and geometric_dist)", "why_tests_cant": "A bias of size 2^-46 cannot be seen in any feasible sample, and weight vectors are unbounded in number and length", "anchors": ["trng/uniform_int_dist.hpp:94-96", "trng/uniform_dist.hpp:133-135", "trng/bernoulli_dist.hpp:159-161", "trng/discrete_dist.hpp:60-139", "trng/geometric_dist.hpp:66-94", "trng/utility.hpp:199-225", "trng/uniformxx.hpp:81-195", "trng/lcg64.hpp:260-262"]}
{"id": "C102", "title": "cdf and icdf in double", "statement": "For uniform_dist, exponential_dist, twosided_exponential_dist, rayleigh_dist, weibull_dist, pareto_dist, powerlaw_dist, cauchy_dist, logistic_dist, extreme_value_dist and tent_dist, with every operation rounded to double: cdf(x) is finite, lies in [0,1] and is within c/2^52 of the exact distribution function, for every finite x however large (for powerlaw_dist for x <= 0 and x >= theta; between 0 and theta its cdf is negative). icdf(p) is finite and the exact distribution function there is within c'/2^52 of p, so that cdf(icdf(p)) is within (c+c')/2^52 of p. c and c' are small constants, with terms in the shape parameter (weibull, pareto, powerlaw) or in |location|/scale. Outside [0,1] icdf is NaN.", "quantifier": "all finite x; all p in (0,1), for twosided, rayleigh, weibull, cauchy, logistic and extreme_value from 2^-52 on; all scales in [2^-300, 2^300], locations up to 2^300 in absolute value, shapes in [1/8, 2^20]; all mathematical libraries whose log, pow, exp, expm1, log1p, atan, sin and cos are within two units in the last place", "why_tests_cant": "Overflow and cancellation of a few units in the last place happen at single points of a space of 2^64 arguments times the parameters, and the exact values are not computable in the test", "anchors": ["trng/uniform_dist.hpp:53-60,167-184", "trng/exponential_dist.hpp:148-161", "trng/twosided_exponential_dist.hpp:151-170", "trng/rayleigh_dist.hpp:153-170", "trng/weibull_dist.hpp:172-188", "trng/pareto_dist.hpp:161-179", "trng/powerlaw_dist.hpp:162-181", "trng/cauchy_dist.hpp:168-188", "trng/logistic_dist.hpp:166-184", "trng/extreme_value_dist.hpp:160-179", "trng/tent_dist.hpp:167-187"]}
{"id": "C103", "title": "Compiled for CUDA", "statement": "Compiled with TRNG_CUDA, the yarn engines draw the same numbers as on the host although they compute the power by repeated squaring instead of by table, and no intermediate product overflows. int_math::modulo_inverse returns the inverse whenever there is one, and int_math::gauss the host's solution whenever the host finds one; where the host throws, they return another number or vector. split(s, n) gives the host's engine for legal arguments; for two or more streams it accepts any n and gives the stream that starts at draw n, for one stream it ignores n.", "quantifier": "all legal states and parameters of the yarn, mrg, lcg64, lcg64_shift, lcg64_count_shift and count128_lcg_shift engines; all s and n of unsigned int; all int32_t arguments of modulo_inverse; all systems over all prime moduli below 2^31", "why_tests_cant": "The two builds cannot be compared in one test run, and a carry or overflow would show in a few of 2^31 states only", "anchors": ["trng/cuda.hpp:36-46", "trng/yarn2.hpp:167-183", "trng/yarn3.hpp:172-189", "trng/yarn3s.hpp:171-188", "trng/yarn4.hpp:175-192", "trng/yarn5.hpp:180-197", "trng/yarn5s.hpp:181-198", "trng/int_math.hpp:116-211", "trng/lcg64.hpp:319-330", "trng/mrg2.hpp:177-206", "trng/mrg3.hpp:182-223", "trng/mrg4.hpp:187-242", "trng/mrg5.hpp:192-263", "trng/lcg64_count_shift.hpp:366-381", "trng/count128_lcg_shift.hpp:264-276"]}
{"id": "C104", "title": "Parallel programs play fair", "statement": "The example programs give the same result for any number of processes. The parallel versions of pi.cc, by block splitting (OpenMP, MPI, TBB) and by leapfrog (OpenMP, MPI), count exactly the points that pi.cc counts, for every number of threads and for every way in which TBB cuts and hands out the range; the CUDA version with block splitting counts the points of the serial loop in float, the CUDA version with leapfrog does so if the number of threads divides the number of samples. The percolation program with independent realizations computes on each process the realizations rank, rank + size, ... of the serial run with the same lattices; the fine-grained one computes in each section the sites of the serial lattice.", "quantifier": "all legal engine states, all numbers of samples, processes, realizations and lattice sizes for which the index arithmetic fits its integer type, all process ranks and grid coordinates, all TBB schedules", "why_tests_cant": "Results of a run depend on the number of threads and on the scheduler; a test sees a few of them, and a wrong stream gives an estimate of pi that looks as good", "anchors": ["examples/pi.cc:38-49", "examples/pi_block_openmp.cc:38-58", "examples/pi_block_mpi.cc:38-60", "examples/pi_block_tbb.cc:40-70", "examples/pi_block_cuda.cu:39-70", "examples/pi_leap_openmp.cc:38-62", "examples/pi_leap_mpi.cc:38-64", "examples/pi_leap_cuda.cu:39-82", "examples/site_percolation_embarrassing.cc:38-66", "examples/site_percolation_fine-grained.cc:38-86"]}
{"id": "C105", "title": "pdf in double", "statement": "pdf of the exponential, two-sided exponential, Rayleigh, Weibull, Pareto, power-law, Cauchy, logistic, extreme value, tent and uniform distributions, evaluated in double, returns a finite number that is not negative and differs from the density by a few 2^-52 in units of the largest density (1 / scale; for Weibull the error is relative). For the Rayleigh, Weibull and extreme value distributions this holds up to a bound on the argument, beyond which pdf returns NaN although the density tends to 0.", "quantifier": "all finite arguments, all scales between 2^-300 and 2^300, all locations up to 2^300, all exponents between 1/8 and 2^19, all mathematical libraries whose functions have a relative error of at most 2^-51 and that underflow and overflow in the usual places", "why_tests_cant": "The rounding errors depend on the argument and the parameters, and the overflows that give NaN need arguments no test draws", "anchors": ["trng/exponential_dist.hpp:145", "trng/twosided_exponential_dist.hpp:146-148", "trng/rayleigh_dist.hpp:145-150", "trng/weibull_dist.hpp:154-169", "trng/pareto_dist.hpp:155-159", "trng/powerlaw_dist.hpp:155-159", "trng/cauchy_dist.hpp:161-165", "trng/logistic_dist.hpp:159-163", "trng/extreme_value_dist.hpp:153-157", "trng/tent_dist.hpp:159-164", "trng/uniform_dist.hpp:160-164"]}
{"id": "C106", "title": "pdf and cdf of the normal, lognormal and Maxwell distributions in double", "statement": "Evaluated in double, cdf of the normal distribution returns a number in [0,1] within 11 * 2^-52 of the distribution function, for -30 <= z = (x - mu) / sigma <= -1 it is also within (32 z^2 + 4) 2^-52 relative to the distribution function, cdf of the lognormal distribution within (8 + 8 |ln x| / sigma) 2^-52, and cdf of the Maxwell distribution a finite number within 130 * 2^-52. pdf returns a finite number that is not negative and differs from the density by a few 2^-52 in units of the largest density (for the lognormal distribution in units of (1 + |ln x| / sigma) / (x sigma)). pdf of the Maxwell distribution returns NaN as soon as x^2 overflows, and pdf of the lognormal distribution returns NaN for arguments near the smallest doubles, although the density tends to 0 there.", "quantifier": "all finite arguments (nonnegative ones for the Maxwell cdf, up to 2^500 for the Maxwell pdf, 2^-640 <= x sigma <= 2^640 for the lognormal pdf), all locations up to 2^300, all scales between 2^-300 and 2^300, all mathematical libraries whose exp and log have a relative error and whose erf and erfc an absolute error of at most 2^-51; for the lower tail in addition a relative error of erfc of at most 2^-51 on [0,22]", "why_tests_cant": "The rounding errors depend on the argument and the parameters, and the arguments that give NaN are not drawn by tests", "anchors": ["trng/normal_dist.hpp:156-167", "trng/lognormal_dist.hpp:155-170", "trng/maxwell_dist.hpp:143-155", "trng/special_functions.hpp:761-768"]}
{"id": "C107", "title": "The cluster step of the Ising model program", "statement": "wolffstep of Ising_model.cc always ends, never leaves the arrays, and never overflows int. It flips exactly the sites of one cluster: a set of equal spins connected through the periodic lattice with the first site that was drawn. Each accepted draw of the Bernoulli distribution adds one site, each bond from the cluster to an equal spin outside was refused by a draw of its own, and at most four draws are made per site. If all draws accept, the whole connected region of equal spins is flipped; if none does, only the first site. energy() sums all bonds of the periodic lattice, the flip of a set of sites changes the sum by twice the sum over the bonds that leave the set, and a lattice filled with one spin has the lowest energy, -2 per site. set() changes the one site it names, fill() all of them, for coordinates inside and outside the lattice.", "quantifier": "all lattice sizes L with L * L + L < 2^31, all configurations of spins 1 and -1, all first sites on the lattice, all sequences of draws of any engine", "why_tests_cant": "The path of the step depends on the configuration and on the draws; a test runs a few of them on small lattices, and wrong neighbours at the edge still give a plausible energy", "anchors": ["examples/Ising_model.cc:75-146", "examples/Ising_model.cc:149-155", "examples/Ising_model.cc:188-234"]}
{"id": "C108", "title": "Accuracy of pdf and cdf of geometric_dist in double", "statement": "For 0 < p < 1 and every int x below INT_MAX, cdf of geometric_dist evaluated in IEEE double with an accurate pow is finite and within (min(2(x+1), 1/p) + 6) / 2^52 of the sum of the probabilities up to x; pdf is not negative and within (min(2x, 1/p) + 6) p / 2^52 of the exact probability for every int x and p of at least 2^-1000. Negative x gives exactly 0. The error 1/p is real: for p up to 2^-55 the parameter q is 1 and cdf is never positive, whatever x; and cdf(max()) overflows int.", "quantifier": "all doubles p in (0,1), all int x, all implementations of pow that meet the assumed accuracy", "why_tests_cant": "The error depends on p and x together, and grows with 1/p only when x is comparable to 1/p; tests take a few moderate p", "anchors": ["trng/geometric_dist.hpp:57-76", "trng/geometric_dist.hpp:113-122"]}
{"id": "C109", "title": "Accuracy of pdf and cdf of truncated_normal_dist in double", "statement": "For finite or infinite bounds a and b that enclose a probability p of at least 2^-40, cdf of truncated_normal_dist evaluated in IEEE double is finite and within 49 / (2^52 p) of the exact distribution function at every double between a and b; pdf is finite, not negative and within 30 / (2^52 sigma p^2) of the exact density. The loss by 1/p is real: with a between 13 and 30 sigma above mu, Phi is exactly 1 at both bounds and cdf is NaN at every such x, although the exact p is positive.", "quantifier": "all doubles mu and sigma of moderate size, all bounds, all finite x, all implementations of exp, erf and erfc that meet the assumed accuracy", "why_tests_cant": "The error depends on the probability between the bounds; tests use bounds around the mean, where it is large", "anchors": ["trng/truncated_normal_dist.hpp:56-71", "trng/truncated_normal_dist.hpp:200-214", "trng/special_functions.hpp:761-768"]}
{"id": "C110", "title": "Accuracy of pdf and cdf of discrete_dist, uniform_int_dist and bernoulli_dist in double", "statement": "Evaluated in IEEE double, pdf(k) of discrete_dist is finite and within 34 / 2^52 of w[k]/W relatively, cdf(k) is finite, within (k + 35) / 2^52 of (w[0]+..+w[k])/W relatively and nondecreasing over the outcomes (both up to 2^-1075). It can exceed 1 at max(), above the value 1 it has at max() + 1, because the sum from the left is divided by the sum of the tree. pdf and cdf of uniform_int_dist(a,b) are within 2^-53 relatively; cdf is 0 at a-1, exactly 1 at b-1 and strictly increasing between. pdf and cdf of bernoulli_dist are within (1-p) 2^-53, and cdf is nondecreasing from 0 to exactly 1.", "quantifier": "all weight vectors of fewer than 2^31 finite nonnegative weights with sum in [2^-900, 2^1000]; all integer ranges whose width fits int; all p in [0,1] and all head <> tail", "why_tests_cant": "Weight vectors are unbounded in number and length; a value above 1 by one unit in the last place needs a crafted rounding pattern", "anchors": ["trng/discrete_dist.hpp:60-98", "trng/discrete_dist.hpp:160-172", "trng/uniform_int_dist.hpp:121-134", "trng/bernoulli_dist.hpp:196-220"]}
{"id": "C111", "title": "inv_Phi, and icdf and draws of normal_dist, in double", "statement": "Evaluated in IEEE double, math::inv_Phi(x) is finite, at most 12 in absolute value, and Phi (the exact normal distribution function) at the number returned is within 45 / 2^52 of x. inv_Phi(0) is -infinity, inv_Phi(1) is +infinity, and outside of [0, 1] it is not a number. normal_dist::icdf(x) is finite and the distribution function with the parameters of the object at it is within (51 + |mu|/sigma) / 2^52 of x. Over the D + 1 equally likely outputs of any engine of the library the draws of normal_dist are at Kolmogorov distance at most (67 + |mu|/sigma) / 2^52 + 3 / (D + 1) from the normal distribution.", "quantifier": "all doubles x in [2^-52, 1 - 2^-53] (every value of uniformoo is one), all sigma in [2^-300, 2^300], all |mu| <= 2^300, the ranges of all engines of the library, and every mathematical library whose functions are accurate as in C106: ln, ln1p and exp to 2^-51 relatively, erf and erfc to 2^-51, and erfc also to 2^-51 relatively on [0, 22]", "why_tests_cant": "About 2^62 arguments; the rational approximations change at 0.02425 and at 0.97575, and an error of one coefficient in a late digit is hidden by the Halley step except in part of a region", "anchors": ["trng/special_functions.hpp:781-911", "trng/special_functions.hpp:984-1000", "trng/normal_dist.hpp:127-131", "trng/normal_dist.hpp:168-170"]}
{"id": "C112", "title": "icdf and draws of lognormal_dist and truncated_normal_dist in double", "statement": "Evaluated in IEEE double, the draws of lognormal_dist are finite and positive, the exact distribution function at each is within (51 + (|mu|+1)/sigma) / 2^52 of the uniform number used, and over the equally likely outputs of an engine they are at Kolmogorov distance at most (67 + (|mu|+1)/sigma) / 2^52 + 3 / (D + 1) from the lognormal distribution; icdf is 0 at 0, infinite at 1 and not a number outside of [0, 1]. truncated_normal_dist::icdf(x) is finite and the exact truncated distribution function at it is within (65 + |mu|/sigma) / (2^52 p) of x, p being the probability of the interval. A draw of truncated_normal_dist without upper bound can be infinite: with a lower bound at a quantile of at least 14/15 the largest output of every 64-bit engine gives infinity, because x (Phi_b - Phi_a) + Phi_a rounds to 1. With both bounds 13 to 30 sigma above mu every draw is infinite, so above a finite upper bound, because Phi_a and Phi_b are both 1.", "quantifier": "lognormal: all |mu| <= 100, all sigma in [2^-300, 20], the ranges of all engines of the library. truncated normal: all |mu| <= 2^300, all sigma in [2^-300, 2^300], all bounds (infinite ones included) enclosing a probability of at least 1/256, all x in [2^-40, 1 - 2^-40]. Every mathematical library accurate as in C111", "why_tests_cant": "The infinite draw needs one of a few thousand out of 2^64 engine outputs, so no random test meets it; accuracy for all parameters and arguments cannot be enumerated", "anchors": ["trng/lognormal_dist.hpp:126-130", "trng/lognormal_dist.hpp:171-185", "trng/truncated_normal_dist.hpp:61-71", "trng/truncated_normal_dist.hpp:166-169", "trng/truncated_normal_dist.hpp:215-221"]}
