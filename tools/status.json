{
 "C01": [
  "proved",
  "lcg64 and lcg64_shift"
 ],
 "C02": [
  "proved",
  "lcg64 and lcg64_shift"
 ],
 "C03": [
  "proved",
  "odd multipliers; even multiplier refuted by witness"
 ],
 "C04": [
  "proved",
  ""
 ],
 "C05": [
  "proved",
  "count128: shifts alone, and the whole map for odd a"
 ],
 "C06": [
  "proved",
  "s < 2^61-1; larger s refuted by witness s = 4*(2^61-1)"
 ],
 "C07": [
  "proved",
  ""
 ],
 "C08": [
  "proved",
  "s < 128 for jump2; jump2(128) refuted"
 ],
 "C09": [
  "proved",
  "lcg64 family, minstd, mrg, yarn, lagfib, xoshiro proved; refuted for count128 (C09_count128_*_refuted) and the Mersenne twisters (C09_mt_equal_refuted), with the restricted positive statements beside them"
 ],
 "C10": [
  "proved",
  ""
 ],
 "C100": [
  "proved",
  "draws in IEEE double; the error bounds of log, pow, sin and cos and moderate parameters are hypotheses"
 ],
 "C101": [
  "proved",
  "double arithmetic bit-exact; log of the geometric draw is any library within two units in the last place; the table statement holds for every finite ascending table ending in 1"
 ],
 "C102": [
  "proved",
  "Eleven distributions; the C++ mathematical library is any set of functions within the stated error bounds; powerlaw_dist::cdf below theta is refuted in C102_powerlaw_refuted."
 ],
 "C103": [
  "proved",
  "The while loop is shown to compute gen^r mod modulus with int64_t products below 2^62; modulo_inverse, gauss, backward and split return what the host versions return; the behaviour where the host throws is stated too."
 ],
 "C104": [
  "proved",
  "Block splitting and leapfrog of the pi examples and both percolation examples; the index arithmetic must fit int or long (hypotheses), pi_leap_cuda.cu is wrong if the number of threads does not divide the number of samples (refuted)."
 ],
 "C105": [
  "proved",
  "absolute error in units of the largest density; Weibull relative error in the range stated; the tails that give NaN are theorems"
 ],
 "C106": [
  "proved",
  "FloatNormProofs, FloatNormPdf, FloatNormLog, FloatNormMax; NaN for extreme arguments: C106_maxwell_refuted, C106_lognormal_refuted"
 ],
 "C107": [
  "proved",
  "all lattice sizes for which L*L fits int; draws of the engine arbitrary"
 ],
 "C108": [
  "proved",
  "cdf within (min(2(x+1),1/p)+6)/2^52 of the sum of the probabilities, pdf likewise times p; for p up to 2^-55 cdf is never positive (C108_small_p, C108_small_p_refuted) and cdf(max()) overflows int (C108_max_refuted); accuracy of pow assumed as in C100 and C102"
 ],
 "C109": [
  "proved",
  "bounds may be infinite; enclosed probability p at least 2^-40; cdf within 49/(2^52 p), pdf within 30/(2^52 sigma p^2); accuracy of exp, erf and erfc assumed as in C106; with bounds 13 to 30 sigma above mu cdf is NaN (C109_upper_tail, C109_upper_tail_refuted, which assume relative accuracy of erfc)"
 ],
 "C11": [
  "proved",
  ""
 ],
 "C110": [
  "proved",
  "cdf of discrete_dist above 1 at max(): C110_discrete_above_one_refuted"
 ],
 "C111": [
  "proved",
  "arguments in [2^-52, 1 - 2^-53], which covers uniformoo; the ends 0 and 1 and arguments outside separately; accuracy of ln, ln1p, exp, erf and erfc assumed as in C106, with erfc relatively accurate in the tail; float and long double not covered"
 ],
 "C112": [
  "proved",
  "draws of lognormal_dist; icdf of truncated_normal_dist for x in [2^-40, 1 - 2^-40] and enclosed probability at least 1/256; the last uniform number can give an infinite draw (C112_truncated_infinite, C112_truncated_infinite_refuted), and far above mu every draw is infinite (C112_truncated_far, C112_truncated_bound_refuted); library accuracy assumed as in C111"
 ],
 "C12": [
  "proved",
  "n < 2147483645; n = 2147483645 refuted for every legal state"
 ],
 "C13": [
  "proved",
  ""
 ],
 "C14": [
  "proved",
  "every s < 2^64, every legal state and coefficients"
 ],
 "C15": [
  "proved",
  "every s < 2^32"
 ],
 "C16": [
  "proved",
  "mrg2, mrg3, mrg3s, mrg4: all legal coefficients and states. All six classes with the predefined parameter sets: every state, also split again. mrg5/mrg5s with other coefficients: proved when the subsequence has no shorter recurrence or the last new coefficient is nonzero; unrestricted claim refuted (C16_mrg5_leapfrog_refuted)"
 ],
 "C17": [
  "proved",
  "lcg64, lcg64_shift, lcg64_count_shift, count128, mrg and yarn engines (order 5: predefined parameters, or under the full-order condition)"
 ],
 "C18": [
  "proved",
  "non-CUDA branch of operator()"
 ],
 "C19": [
  "proved",
  ""
 ],
 "C20": [
  "proved",
  "leapfrog unconditional for yarn2, yarn3, yarn3s, yarn4 and for all classes with the predefined parameter sets; other parameters of yarn5/yarn5s under the full-order condition, refuted otherwise"
 ],
 "C21": [
  "proved",
  ""
 ],
 "C22": [
  "proved",
  "gauss: a returned vector solves the system (sound), and for an invertible matrix it always returns; completeness on solvable singular systems is refuted (C22_gauss_complete_refuted): it throws on some solvable singular systems."
 ],
 "C23": [
  "proved",
  "every modulus below 2^31 and every helper class (r = 1..7); beyond the range refuted"
 ],
 "C24": [
  "proved",
  ""
 ],
 "C25": [
  "proved",
  "All four class templates, largest lag below 2^31 and not a power of two; all predefined engines satisfy the hypotheses."
 ],
 "C26": [
  "proved",
  "n <> 1, distinct lags, largest lag at most 2^19 (the branch threshold log2_ceil(n)*B^3 must not wrap). discard(1) is refuted for every engine with a non-zero (xor) or odd (plus) value in its window."
 ],
 "C27": [
  "proved",
  "Largest lag not a power of two; refuted for every power of two."
 ],
 "C28": [
  "proved",
  "Streams agree after reseeding; equality by == refuted."
 ],
 "C29": [
  "proved",
  "All states, all s."
 ],
 "C30": [
  "proved",
  "All seeds and seed sources; the step is a bijection."
 ],
 "C31": [
  "proved",
  ""
 ],
 "C32": [
  "proved",
  ""
 ],
 "C33": [
  "proved",
  "All operators for all operands; shifts for |s| < 128 (C33_shift_128_refuted: undefined from 128 on); hi() refuted (C33_hi_refuted, C33_hi_wrong)."
 ],
 "C34": [
  "proved",
  "All a, b with b <> 0; a zero divisor is answered with 2^128-1 and a by the portable class (C34_zero_divisor)."
 ],
 "C35": [
  "proved",
  "Write, read, read with 0x prefix, overflow, round trip in all three bases with padding; refuted: one hex digit at end of stream, 1x2 accepted in hex, internal padding with showbase."
 ],
 "C36": [
  "proved",
  "All 24 engine classes (lagfib: every instance up to 64 bits), any leading blanks and following text; valid states are representable."
 ],
 "C37": [
  "proved",
  "Any stream state; plus the exact grammar accepted (C37_accepts)."
 ],
 "C38": [
  "proved",
  "Matrix product, matrix-vector product and power over any commutative ring interpretation, with instances for unsigned words and GF2."
 ],
 "C39": [
  "proved",
  "uniformco/oc/cc for every range below 2^64, uniformoo for every engine of the library; uniformoo refuted for arbitrary user-defined ranges."
 ],
 "C40": [
  "proved",
  "Overflow of b-a is undefined behaviour (C40_overflow); full int range refuted."
 ],
 "C41": [
  "proved",
  ""
 ],
 "C42": [
  "proved",
  "All nondecreasing non-empty tables of finite doubles (comparisons only, no rounding) and of reals; result is always an index of the table for any values at all. The stronger reading 'least index i >= 0' fails at x = c[0] (refuted)."
 ],
 "C43": [
  "proved",
  "Exact arithmetic: constructor, draw, pdf and cdf for every nonnegative weight list of positive total with fewer than 2^31 entries. For any arithmetic (doubles included) the result is in range when the number of outcomes is a power of two. In double arithmetic the range claim is refuted with a value that uniformco really returns (result N; or a read outside the vector)."
 ],
 "C44": [
  "proved",
  "Any arithmetic (no property of addition is used), at most 2^30 outcomes, every outcome whose tree node has a sibling. For the last outcome of every odd-length list (length >= 3) the update is shown to read outside the vector."
 ],
 "C45": [
  "proved",
  "Refuted for every weight vector: max() is -1 and every draw reads outside an empty vector. Assumes that a moved-from std::vector is empty; the body of the constructor's if (s > 0) is not modelled because the sum over the moved-from vector is 0."
 ],
 "C46": [
  "proved",
  "Exact arithmetic, d = m: pdf, cdf and draw. Refuted in general (n=10, m=3, d=2)."
 ],
 "C47": [
  "proved",
  "exact real arithmetic; also Galois form: y <= x iff u <= cdf x"
 ],
 "C48": [
  "proved",
  "except at the kinks of the densities; powerlaw below its support refuted; weibull pdf(0) NaN refuted"
 ],
 "C49": [
  "proved",
  "powerlaw on its support only; refuted below"
 ],
 "C50": [
  "proved",
  "as an integral over the uniform variate; powerlaw on its support"
 ],
 "C51": [
  "proved",
  "factorization of symmetric matrices, success with positive pivots iff positive definite, draws are H times z; exact reals"
 ],
 "C52": [
  "proved",
  "safe without parameter change and after reset; refuted after param() with pending variates and for default parameters"
 ],
 "C53": [
  "proved",
  "exact arithmetic proved; double arithmetic: upper bound refuted"
 ],
 "C54": [
  "proved",
  "Round trip proved for the parameters that survive; refuted for the others and for twosided_exponential_dist, bernoulli_dist and infinite parameters."
 ],
 "C55": [
  "proved",
  "Exact arithmetic. poisson and zero_truncated_poisson with their own pdf/cdf (exact special functions) for 0 < mu <= 2^28; negative_binomial for any cumulative pdf/cdf pair. u = cdf(0) refuted."
 ],
 "C56": [
  "proved",
  "Draw rule and range for all finite doubles; pdf/cdf/min/max in exact arithmetic for all p in [0,1], head <> tail. With head = tail the pdf sums to p (refuted)."
 ],
 "C57": [
  "proved",
  "Exact arithmetic, all int a < b whose difference fits an int."
 ],
 "C58": [
  "proved",
  "unsigned types of 2..64 bits; signed: mask only below 2^(w-2), refuted above"
 ],
 "C59": [
  "proved",
  "minstd, lcg64_count_shift, mrg, yarn; yarn5s::seed(gen) refuted"
 ],
 "C60": [
  "proved",
  "lcg64*, count128, mrg, yarn, xoshiro256plus."
 ],
 "C61": [
  "proved",
  "refuted: portable engine is constant"
 ],
 "C62": [
  "proved",
  ""
 ],
 "C63": [
  "proved",
  ""
 ],
 "C64": [
  "proved",
  "Positive for fields and lagfib; refuted for mt19937, minstd, mrg2, yarn2."
 ],
 "C65": [
  "proved",
  "Exact arithmetic; p = 0 in double and default parameters refuted."
 ],
 "C66": [
  "proved",
  "Exact arithmetic; small p and cdf(max()) refuted."
 ],
 "C67": [
  "proved",
  "seven distributions; refuted for five others"
 ],
 "C68": [
  "proved",
  "Phi over exact reals (improper integral, derivative, symmetry, range, inverse exists, ends of inv_Phi); numerical evaluation of erf and inv_Phi not modelled."
 ],
 "C69": [
  "proved",
  "Exact real arithmetic; for every exact inverse of Phi on (0,1)."
 ],
 "C70": [
  "proved",
  "Exact real arithmetic; for every exact inverse of Phi on (0,1)."
 ],
 "C71": [
  "proved",
  "Exact real arithmetic, finite and infinite bounds; values of cdf and pdf outside [a,b] refuted."
 ],
 "C72": [
  "proved",
  "pdf and cdf over exact reals; values below 0 refuted; icdf (Newton iteration) not modelled."
 ],
 "C73": [
  "proved",
  "Round trip proved; uninitialised reads and the wrapping dimension refuted."
 ],
 "C74": [
  "proved",
  "Flags proved, precision refuted."
 ],
 "C75": [
  "proved",
  "exact real arithmetic"
 ],
 "C76": [
  "proved",
  "exact real arithmetic; inv_GammaP and inv_Beta_I taken as exact inverses (their existence is proved), GammaP and Beta_I as exact integrals"
 ],
 "C77": [
  "proved",
  "exact real arithmetic; inv_GammaP and inv_Beta_I taken as exact inverses (their existence is proved), GammaP and Beta_I as exact integrals"
 ],
 "C78": [
  "proved",
  "exact real arithmetic; inv_GammaP and inv_Beta_I taken as exact inverses (their existence is proved), GammaP and Beta_I as exact integrals"
 ],
 "C79": [
  "proved",
  "exact real arithmetic; inv_GammaP and inv_Beta_I taken as exact inverses (their existence is proved), GammaP and Beta_I as exact integrals"
 ],
 "C80": [
  "proved",
  "exact real arithmetic; inv_GammaP and inv_Beta_I taken as exact inverses (their existence is proved), GammaP and Beta_I as exact integrals"
 ],
 "C81": [
  "proved",
  "series branch only; continued fraction and asymptotic expansion are parameters; rounding not modelled"
 ],
 "C82": [
  "proved",
  "rounding not modelled"
 ],
 "C83": [
  "proved",
  "Exact arithmetic; convergence itself is not claimed. The error of GammaP enters as a parameter."
 ],
 "C84": [
  "proved",
  "Range, termination and tolerance in exact arithmetic; the non-termination witness in binary64 with the underflow threshold of pow."
 ],
 "C85": [
  "proved",
  "Exact arithmetic with an exact Beta_I. For unequal parameters only quantiles on one side of the initial guess; stated in the property."
 ],
 "C86": [
  "proved",
  "Exact arithmetic; the value of cdf and pdf inside the loop is exact."
 ],
 "C87": [
  "proved",
  "every engine with seed(unsigned long); lagged Fibonacci and Mersenne twister seeding is in C25 and C31"
 ],
 "C88": [
  "proved",
  "sources are modelled as state machines with integer values"
 ],
 "C89": [
  "proved",
  "lags below 2^32, as unsigned int"
 ],
 "C90": [
  "proved",
  "mrg4::LEcuyer2: an upper bound of the period only"
 ],
 "C91": [
  "proved",
  ""
 ],
 "C92": [
  "proved",
  "every non-zero state"
 ],
 "C93": [
  "proved",
  "exact period of the draws of the predefined engines with largest lag 250, 521, 607; the primality of 2^521-1 and 2^607-1 is proved by the Lucas-Lehmer test inside Coq; larger predefined lags (1279 and more) are not covered"
 ],
 "C94": [
  "proved",
  "Native 128-bit type for count128_lcg_shift; with the portable one the draws are constant (C61)."
 ],
 "C95": [
  "proved",
  "GammaQ_cf over the reals; rounding not modelled; the asymptotic expansion of the regularised functions is a parameter"
 ],
 "C96": [
  "proved",
  "real-number semantics of the expansion: truncation of the table, of mln1p and of the loop; rounding of the double operations is not modelled"
 ],
 "C97": [
  "proved",
  "exact arithmetic; Phi, erf, erfc, ln, sqrt and exp exact; range 2^-1074..1-2^-1074 (every double); nothing claimed for smaller long double arguments"
 ],
 "C98": [
  "proved",
  "exact arithmetic (lgamma, ln, ln1p, exp exact); cdf with the exact integral and, separately, with AS 63; draws with exact pdf and cdf"
 ],
 "C99": [
  "proved",
  "IEEE double and float as in C39 (Flocq); one call per variate as with the default template argument; period statement for engines with a full cycle of outputs"
 ]
}