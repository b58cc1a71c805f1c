# Formal model of trng4 — design

Source: `/repo/trng` (rabauke/trng4 at the pinned commit), read as text only.
Prover: Coq/Rocq 8.16.1.  Sources in `rocq/theories`, build with
`coq_makefile -f _CoqProject -o Makefile && make -j4` in `rocq/`.

## Layout and conventions

* Machine integers are `Z` with the reduction written out (`mod 2^64`, `mod 2^32`, ...).
  Signed overflow, out-of-range shifts, out-of-bounds array accesses and calls that throw
  are distinct outcomes (`option`/result types), never assumed away.
* `*Model.v` files hold definitions only, each with the `/repo` file and lines it models.
  `*Proofs.v` files hold the lemmas.  `Prop_*.v` files hold the property theorems (statement,
  `exact`, `Print Assumptions`) and the concrete `Example`s that meet their hypotheses.
* Specifications are stated with plain iteration of a draw (`Nat.iter`/`Z`-indexed streams),
  plain arithmetic (`Z.pow`, `mod`) or mathematical sequences; they do not use model helpers.
* A statement that is false of the faithful model is recorded as `..._refuted : exists ...`
  next to the strongest restricted version that is true.

## Plan per property

| id | model | proof |
|----|-------|-------|
| C01, C02 | lcg64/lcg64_shift step, pow, g, f, jump2, jump on Z mod 2^64 | closed form of affine iteration; binary decomposition of s |
| C03 | split, backward | T^(2^64) = id for odd a, so backward is the inverse step; even a refuted by a computed witness |
| C04 | step | Hull–Dobell for modulus 2^64 by induction on the modulus exponent |
| C05 | output functions | each xor-shift is inverted on bit level; odd multiplier inverted mod 2^64 |
| C06, C07 | count_shift step, mult_modulo, jump, split | mult_modulo = product mod 2^61-1 for reduced operands; large s refuted |
| C08 | count128 on Z mod 2^128 | affine/additive iteration |
| C09 | operator== of parameter/status classes | equality decides record equality; count128 and mt refuted by witness |
| C10–C12 | minstd | mask reduction = mod; multiplicative order of 16807 via factorisation of 2^31-2 |
| C13–C15 | mrg2..5s step/jump2/jump, generic in order where the code is the same | recurrence = companion matrix; matrix powers |
| C16 | split/backward | linear recurrences: decimation satisfies a recurrence of equal order; gauss sound; uniqueness of continuation; for the predefined sets of order 5 the conjugates x^(m^j) of the variable stay apart under the power s, so no shorter recurrence (FieldAct, LeapProofs) |
| C17 | split | arithmetic on positions from C03/C07/C08/C16 |
| C18–C20 | yarn | power table, primality of the moduli, primitive root order; rest from mrg |
| C21 | modulo_inverse loop | extended-Euclid invariant with int32 bounds |
| C22 | gauss loop | elimination invariant (solution set preserved), triangular back substitution |
| C23, C24 | modulo helpers, power tables | case analysis with lia/nia; square-and-multiply |
| C25–C28 | lagfib ring buffers, discard, seed | window abstraction of the ring; companion matrix over GF(2) or Z/2^w |
| C29, C30 | xoshiro256plus | GF(2)-linearity; explicit inverse |
| C31, C32 | mt19937, mt19937_64 | block regeneration invariant; explicit inverse of tempering |
| C33–C35 | portable uint128, text I/O | limb arithmetic; restoring division invariant; digit lists |
| C36, C37 | stream model (characters + state bits), engine operators | parser/printer inversion lemmas |
| C38 | linear_algebra | blocked loop = plain sum; square-and-multiply |
| C39–C41, C53 | u01xx_traits, uniform_int, operator()(long), uniform_dist in IEEE binary64/32 | Flocq rounding: monotonicity plus evaluation at the extreme output |
| C42 | utility::discrete | binary-search invariant |
| C43, C44 | discrete_dist tree | tree invariant over an abstract addition; prefix sums over Q; double counterexample computed with stdlib SpecFloat |
| C45 | fast_discrete_dist constructor | moved-from parameter has size 0 |
| C46 | hypergeometric weights in exact arithmetic | identity for d = m; counterexample otherwise |
| C47–C50 | closed-form distributions over R | real analysis (stdlib Reals/Coquelicot) |
| C51, C52 | Cholesky loop over R, draw buffer | loop invariant; counterexample history |
| C54 | fixed-notation printing of dyadic rationals | two different doubles with equal text |
| C55 | table + tail loop | least-index invariant, fuel-indexed loop |
| C56, C57 | bernoulli, uniform_int pdf/cdf over Q | case analysis, summation |
| C58 | int_math integer helpers | loop invariants |
| C59 | seed functions | range lemmas |
| C60 | jump | corollary of the jump theorems |
| C61–C63 | count128 with either 128-bit class; additive and affine periods | portable `hi()` witness; order of an odd increment and of the multiplier mod 2^61-1 |
| C64 | engine operator>> | parser lemmas give the ranges; witnesses for unusable engines |
| C65, C66 | binomial_dist, geometric_dist | real identities, table loop; double witnesses |
| C67 | icdf at and outside 0 and 1 | case analysis |
| C68–C72 | Phi and the distributions on it | Gaussian integral via arctan trick; derivative determines the function |
| C73, C74 | distribution text, stream formatting state | parser/printer inversion; witnesses |
| C75 | Gamma and Beta integrals | power series of the incomplete functions; monotone limits; Wendel's inequality gives Beta = Gamma quotient |
| C76–C80 | gamma, chi_square, beta, student_t, snedecor_f distributions | derivative of the incomplete integrals; duplication formula for student_t |
| C81, C82 | series GammaP_ser and algorithm AS 63 in exact arithmetic | geometric tail bounds; remainder of each partial sum through the recurrence of the incomplete integrals |
| C83–C85 | inv_GammaP (Halley) and inv_Beta_I (Newton) in exact arithmetic | fixed points, Taylor remainders; monotone Newton iteration for a log-concave distribution function |
| C86 | maxwell_dist::icdf | the same on both sides of the mode, quadratic convergence between them |
| C87 | draws of seeded engines in closed form | iterated affine map; bitwise specification of shifts; recurrence |
| C88 | seed(gen &) | unfolding; least index; zero windows of a linear recurrence |
| C89 | engine names, foreign texts | unique splitting of texts |
| C90 | periods of mrg and yarn engines | order of X modulo the characteristic polynomial, certified per prime factor of m^n-1; primes by Pratt and Pocklington certificates |
| C91 | n-tuples over a period | injective maps of [0, m^n-1) are onto |
| C92 | xoshiro256plus period | states satisfy a recurrence of degree 256 over GF(2); powers of the variable by a checked chain of squares and products of bit lists, inverses as certificates for x^(N/q) - 1, Pocklington primes; the orbit of one state has 2^256-1 members, hence all |
| C93 | lagged Fibonacci periods | polynomials over GF(2) as binary numbers modulo sparse polynomials (`SparseAct`); x^(2^B) = x and 2^B-1 prime by the Lucas-Lehmer test (`LucasLehmer`), factorised 2^250-1 for r250; for the additive engines the period is lifted from the lowest bit to 2^w (`PlusLift`): x^T = 1 + 2u modulo 4 with u and u+1 invertible |
| C94 | draw periods of the counter engines | exclusive or of the counter halves is invariant under no shift but 0 (two well chosen counter values); the sum of an LCG of period 2^64 and a counter of period 2^61-1, coprime; positions by Chinese remainders |
| C95 | continued fraction GammaQ_cf in exact arithmetic | integrals of e^-u u^(a-1) ((u-x)/u)^n satisfy the recurrence of the fraction; error of each convergent as a product of factors, bounded by integer tables for a <= 64 and by 1/2 for x >= 2.35 a |
| C96 | mln1p, the table of coefficients, the array beta and GammaP/Q_asympt in exact arithmetic | the truncated generating function is compared with eta/mu by a barrier for its differential equation, with the residual of the table evaluated in integers; the array beta solves the equation of the remainder; enclosures of beta over intervals of 1/a; intermediate value theorem for the zero of beta[15] |
| C97 | inv_Phi_approx with its tables, the Halley steps of inv_Phi, inv_erf, inv_erfc in exact arithmetic | derivative of Phi(g(q)) - x compared with integer polynomials on pieces (central region); Mills ratio and logarithmic derivative in the tails; cubic error of a Halley step; erf forms reduced to Phi |
| C98 | negative_binomial_dist: pdf with its sorted sum of logarithms, cdf by Beta_I, table and draw, in exact arithmetic | recurrences of the beta integral in its second parameter give the sums; tail bound by comparison with p/2; C55 for the draw, C82 for the algorithm |
| C99 | accuracy, monotonicity and distribution of uniformcc/co/oc/oo in IEEE double and float | relative error of each rounding; monotonicity of rounding; threshold by induction; positions in the period by the full-cycle theorems C04, C11 |
| C100 | draws of ten continuous distributions in IEEE double, on top of the uniform variates; log, pow, sin, cos are parameters with an error bound | backward error: relative errors add as distances of logarithms; Lipschitz bounds of the distribution functions; counting of outputs |
| C101 | discrete draws in IEEE double: uniform_int, uniform, bernoulli, table search, geometric, discrete_dist, operator()(long) | events decided by the uniform variate up to an error, counting of outputs; rounding errors in the tree of discrete_dist bounded by depth; log is a parameter with an error bound |
| C102 | cdf and icdf of eleven distributions in IEEE double, with overflow | rounding errors tracked through quotients that may overflow; exp, expm1, log1p, atan and pow are parameters with the bounds of FloatCdfSpec.accurate_x, met by FloatCdfLibm.rounded_libmx |
| C103 | the integer code of the CUDA build: yarn, modulo_inverse, gauss, backward and split | CudaModel copies the functions without their tests; whatever the host functions return the CUDA functions return; split with a large n is split of the engine n draws on |
| C104 | the parallel example programs give the result of the serial one | ExamplesModel writes every program as a function of the rank with int and long arithmetic checked; loop invariants say which draw is used next (jump and split from C14, C16, C103), sums over the processes are rearranged to the sum over all points |
| C105 | pdf of eleven distributions in double is close to the density; NaN in the tail of three of them | FloatPdfModel has one rounded operation per C++ operation; the densities are written down in FloatPdfSpec; errors are followed as in C102, `ends` adds to `accurate_x` where exp and pow underflow and overflow and that exp hands NaN on |
| C106 | pdf and cdf of the normal, lognormal and Maxwell distributions in double are close to the exact ones; NaN for extreme arguments of two of them | FloatNormModel has one rounded operation per C++ operation, including the three branches of Phi; the distribution functions are integrals in FloatNormSpec; `accurate_e` adds erf and erfc (absolute error 2^-51, range, limits) to `accurate_x`; `tail_accurate` (relative error of erfc at most 2^-51 on [0,22]) is assumed for the lower tail theorem only, which covers -30 <= (x-mu)/sigma <= -1 |
| C107 | the Wolff cluster step of examples/Ising_model.cc flips one connected cluster of equal spins, ends, stays in range; energy of a flip | WolffModel has the loops of pos with fuel, the queue as a list, index errors and int overflow as None; the engine with the two distributions is a state with two functions (that U(0, L) stays in [0, L) is C40); energy is the integer sum before the division by L2; magnet, print, output and the statistics of wolff_main are not modelled |
| C108 | pdf and cdf of geometric_dist in IEEE double | relative error of 1 - p and of pow; n (1-p)^n is at most 1/(2p), so the error of q costs at most min(2n, 1/p) units; x + 1 = 2^31 is None; pow is assumed accurate as in C100 and C102 |
| C109 | pdf and cdf of truncated_normal_dist in IEEE double; NaN for bounds far above the mean | FloatTruncModel on top of the model of Phi of C106; a quotient of two differences of probabilities with errors; 1 - erfc/2 rounds to 1 in the tail; icdf and the draw are in C112 |
| C110 | pdf and cdf of discrete_dist, uniform_int_dist, bernoulli_dist in IEEE double | the models of C43, C56, C57 with double arithmetic; relative error of sums from the left and of the tree (C101) and of a quotient of both; sums of nonnegative doubles are monotone |
| C111 | inv_Phi, icdf and draws of normal_dist in IEEE double | FloatInvModel: every operation correctly rounded, coefficients as the doubles next to the literals, library functions as parameters (C106); rounding error of the rational approximations added to their real error (C97), one Halley step is cubic, and its own rounding is bounded through Phi in both tails |
| C112 | icdf and draws of lognormal_dist and truncated_normal_dist in IEEE double; infinite draws of the latter | FloatIcdfModel on top of C109 and C111; errors of exp and of x (Phi_b - Phi_a) + Phi_a carried through the exact distribution function; the subtraction 1 - Phi_a is exact, so the position of the last uniform number rounds to 1 |

## Modelled, function by function

* Engines: lcg64, lcg64_shift, lcg64_count_shift, count128_lcg_shift, minstd, mrg2, mrg3, mrg3s,
  mrg4, mrg5, mrg5s, yarn2 … yarn5s, lagfib2/4 plus and xor, xoshiro256plus, mt19937,
  mt19937_64: seed, step, operator(), operator()(n), split, jump2, jump, discard, backward,
  operator==, text I/O.  `std::istream`/`std::ostream` are modelled by a character list with
  state bits in the classic locale (no badbit, width 0; a minus sign before an unsigned number wraps).
* Number theory helpers: `int_math.hpp`, `minstd.hpp` reduction, `mrg_parallel.hpp`/`int_math`
  modulo_invers, gauss, `linear_algebra.hpp`, portable uint128 (`uint128.hpp`) with text I/O.
  `int` has 32 bits, `long` and `unsigned long` 64; out-of-range conversions to `int` wrap.
* Uniform variates and `uniform_dist`, `uniform_int_dist`: IEEE binary64/binary32, round to
  nearest even, no extended precision, no FMA contraction (Flocq).
* Discrete distributions: `utility::discrete`, discrete_dist, fast_discrete_dist, bernoulli_dist,
  binomial_dist, negative_binomial/poisson tables as C55 describes (negative_binomial pdf and cdf in exact arithmetic, C98), geometric_dist,
  hypergeometric_dist (products in its parameter expressions not wrapped).
* Continuous distributions and correlated_normal_dist: exact real arithmetic, extended by the
  values +inf, -inf, NaN.  A draw is the value computed from one uniform real in (0,1).
  The draws of exponential, twosided_exponential, rayleigh, weibull, pareto, powerlaw, cauchy,
  logistic, extreme_value and tent_dist are modelled a second time in binary64 from the output of
  the engine (C100): `std::sqrt` is correctly rounded, `std::log`, `std::pow`, `std::sin`,
  `std::cos` are arbitrary functions with the error bounds of `FloatDrawSpec.accurate` (which a
  correctly rounding library meets).  cdf and icdf of these and of uniform_dist are modelled in
  binary64 as well (C102), with `std::exp`, `std::expm1`, `std::log1p`, `std::atan` bounded by
  `FloatCdfSpec.accurate_x`.
  Special functions stand for their exact values: erf/erfc by the Gaussian integral, tgamma and
  lgamma by Euler's integral, GammaP and Beta_I by the incomplete integrals (guards and branches
  of the code kept), inv_Phi, inv_GammaP, inv_Beta_I by exact inverses (proved to exist; the
  cut-offs of inv_Beta_I at 2^-52 are kept).
* Algorithms behind them: the series for the incomplete gamma function with its branch selection
  and algorithm AS 63 for Beta_I (C81, C82), loop by loop over the reals with the double tolerances;
  conversion to and decrement of `int` are checked for overflow.  The continued fraction GammaQ_cf with
  its guards and stopping rule (C95).  The asymptotic expansion with mln1p, its table and the break of its loop (C96);
  erfc is the exact function.  The iterations inv_GammaP and
  inv_Beta_I (C83–C85), loop by loop over the reals; the function they invert is a parameter or exact.
  inv_Phi, inv_erf and inv_erfc with the rational approximations and Halley steps (C97) over the reals;
  inv_Phi also in binary64 (C111, C112), with the functions of the mathematical library as parameters.
  The iteration of maxwell_dist::icdf (C86) over the reals with exact cdf and pdf.
  The underflow of the initial guess and the first iteration after it are modelled in binary64 (C84).
* Text of distributions: doubles in fixed notation with 16 decimals, correctly rounded printing
  and reading; the sign of a zero is not kept; float and long double are not modelled.

## Not modelled

CUDA code paths of the distributions and special functions (the integer code is C103; there the build only leaves
out the assignments to errno), forwarding overloads of `operator()`,
rounding errors of the other continuous distributions, of pdf (and of cdf and icdf of the distributions not in C102),
and of the numerical iterations inside `special_functions.hpp` except as listed above, long double, `unsigned __int128`
(taken as arithmetic mod 2^128), locales, widths other than 0, size_type overflow in
correlated_normal_dist element counts (except C73), allocation failure, the OpenMP, MPI, TBB and CUDA run times (C104
takes each process as a function of its rank and adds what they return), the examples other than those of C104 and C107.

## Findings: statements that are false of the code

| theorem | what happens |
|---|---|
| C03_even_multiplier_refuted | split/backward of lcg64 with an even multiplier is not the leapfrog stream |
| C06_large_jump_refuted | lcg64_count_shift::jump for s at least 2^61-1 moves to a wrong state |
| C08_count128_jump2_large_refuted | count128 jump2(128) shifts by the word size |
| C09_count128_equal_refuted, C09_mt_equal_refuted, C28_equal_refuted, C52_equality_refuted, C78_equality_refuted | operator== ignores the increment (count128), the position (mt19937), compares ring layout (lagfib), ignores parameters (correlated_normal, beta) |
| C12_minstd_discard_refuted | discard(2147483645) does nothing because the period is taken one too small |
| C16_mrg5_leapfrog_refuted, C20_yarn5_leapfrog_refuted | split of mrg5/mrg5s/yarn5/yarn5s leaves a wrong state for some states and coefficients (never with the predefined parameter sets, C16_mrg_leapfrog_predefined) |
| C22_gauss_complete_refuted | gauss throws on a solvable singular system |
| C23_modulo_range_refuted | the mask reduction is not reduced for operands outside its range |
| C26_discard_one_refuted | lagfib discard(1) differs from one draw |
| C27_power_of_two_refuted | a lag that is a power of two indexes outside the ring |
| C33_hi_refuted, C33_shift_128_refuted, C35_* | portable uint128: hi() wrong, shift by 128, hexadecimal text and `internal` fill not read or written as the built-in type |
| C61_same_stream_refuted | with the portable uint128 count128_lcg_shift yields a constant stream |
| C39_uniformoo_any_range_refuted, C40_full_range_refuted, C53_* | uniformoo of an arbitrary range can return 1; uniform_int over all of int; uniform_dist can return its upper bound or infinity |
| C42_least_index_refuted, C43_double_*, C44_all_outcomes_refuted, C45_usable_refuted | discrete search at c[0]; discrete_dist returns an index out of range with double weights; the last outcome of odd lists never drawn; fast_discrete_dist keeps moved-from parameters |
| C46_refuted, C55_every_variate_refuted, C56_equal_outcomes_refuted, C65_*, C66_* | hypergeometric weights wrong for d <> m; variate equal to cdf(0); equal bernoulli outcomes; binomial with p = 0 or default parameters; geometric overflow |
| C48_*, C49_powerlaw_refuted, C67_ends_refuted, C71_outside_refuted, C72_outside_refuted | powerlaw below its support, weibull density at 0, icdf at 0 and 1, truncated normal outside [a,b], maxwell below 0 |
| C51_explicit_parameters_refuted, C52_* | the explicit-parameter overload and parameter changes of correlated_normal_dist use stale variates |
| C54_*, C73_*, C74_* | 16 fixed decimals lose small values; infinite bounds unreadable; twosided_exponential cannot read its own text; uninitialised reads; d*d wraps; precision not restored |
| C58_mask_signed_refuted, C59_yarn5s_seed_gen_refuted | signed mask overflow; seed(gen) of yarn5s writes one state variable twice |
| C64_* | texts that are accepted but make the next draw undefined or out of range |
| C76_* … C80_* | NaN densities at 0 and distribution functions below the support, unreachable icdf branches, infinite draws, int overflow of nu+1 |
| C81_cut_refuted, C81_iterations_refuted | GammaP is 0 below the tolerance although P(a,x) > 1/2 for small a; inc_gamma(170,170) stops after 53 terms |
| C82_infinity_refuted, C82_conversion_refuted, C82_decrement_refuted | Beta_I: NaN or a too large value converted to int, int decremented below INT_MIN |
| C83_small_shape_refuted | gamma_dist(1/128, 1).icdf(1/2) is a point with distribution function above 0.69; the iteration limit is reached |
| C84_hang_refuted | beta_dist(1/1024, 1023/1024).icdf(1/4) never returns: the initial guess underflows to 0 |
| C88_minstd_terminates_refuted | minstd::seed(g) never returns if g yields only multiples of 2^31-1 |
| C88_mrg_alive_refuted | mrg2::seed(g) with values 0, 2^31-1 gives an engine that draws 0 for ever (C88_mrg_dead: every mrg and yarn class) |
| C90_documented_period_refuted | doc/trng.pdf: mrgn has period m^n-1; mrg3s::trng0 and mrg5s::trng0 (defaults) have (m^n-1)/2, mrg4::LEcuyer2 at most m^2-1 (C90_early_return) |
| C86_tiny_refuted | maxwell_dist(theta).icdf(x) for x < 2^-171 is not near the quantile: 55 halvings reach only 2^-55 theta |
| C95_limit_refuted | GammaQ(1/1024, 1025/1024) stops after 53 iterations with a relative error above 2^-40, 1024 times its tolerance |
| C96_break_refuted | for a shape between 16.17 and 16.18 beta[15] is zero, the loop of GammaPQ_asympt_R stops there, and GammaP is too small by more than 2^-49 |
| C98_pdf_at_one_refuted, C98_never_success_refuted, C98_overflow_refuted | negative_binomial_dist: pdf(0) is NaN for p = 1; the constructor never ends for p = 0; pdf and cdf overflow at INT_MAX |
| C99_two_values_refuted | for an engine with two values uniformco is constantly 0 and uniformoo returns 1 and 0 |
| C102_powerlaw_refuted | powerlaw_dist::cdf is negative between 0 and theta (theta = 2, gamma = 1, x = 1) |
| C103_gauss_refuted | compiled for CUDA, gauss returns a vector for the system x + 2y = 1, 2x + 4y = 1 |
| C103_split_ignored_refuted | compiled for CUDA, split(1, 1) leaves the engine as it is instead of starting at draw 1; the host throws |
| C104_pi_leap_cuda_refuted | pi_leap_cuda.cu with 3 samples on 2 threads counts points 0, 1 and 3 instead of 0, 1 and 2; the bounds of its loop are those of block splitting |
| C104_percolation_embarrassing_refuted | with 42951 processes rank * number_of_PRNs_per_sweep overflows int |
| C105_extreme_value_refuted | pdf of extreme_value_dist is NaN (infinity - infinity) if (x - eta) / theta overflows |
| C105_rayleigh_refuted | pdf of rayleigh_dist is NaN (infinity * 0) if x / nu^2 overflows |
| C105_weibull_refuted | pdf of weibull_dist is NaN (infinity * 0) if (x / theta)^beta overflows, for instance for theta = 1, beta = 2, x = 2^800 |
| C106_maxwell_refuted | pdf of maxwell_dist is NaN (infinity * 0) for every scale if abs(x) >= 2^512 |
| C106_lognormal_refuted | pdf of lognormal_dist is NaN (infinity * 0) for the smallest positive doubles, for instance mu = 0, sigma = 1, x = 2^-1074 |
| C108_small_p_refuted, C108_max_refuted | cdf of geometric_dist is not positive for p = 2^-60 and x = 2^30 although the exact value is above 2^-32; cdf(max()) overflows int (undefined behaviour) |
| C109_upper_tail_refuted | cdf of truncated_normal_dist(0, 1, 20, infinity) is NaN at 25: Phi_a and Phi_b are both 1 |
| C110_discrete_above_one_refuted | cdf(3) of discrete_dist with weights 2^-53, 2^-53, 1, 2^-53 is above 1 = cdf(4) |
| C112_truncated_infinite_refuted | a draw of truncated_normal_dist(0, 1, 3, infinity) is infinite for the engine output 2^64 - 1: the argument of inv_Phi rounds to 1 (C112_truncated_infinite for all such lower bounds) |
| C112_truncated_bound_refuted | every draw of truncated_normal_dist(0, 1, 14, 20) is infinite, above the upper bound: Phi_a = Phi_b = 1 (C112_truncated_far for all such bounds) |

## Trusted base

The Coq kernel (no native compilation; `vm_compute` in a few places); the axioms printed by
`Print Assumptions`, listed for every theorem in `ASSUMPTIONS.md` (generated by
`tools/assumptions.py`); the reading of the C++ text into the model definitions.
Integer and text theorems are closed under the global context.  Theorems about reals or floats
use at most the four standard-library axioms `ClassicalDedekindReals.sig_not_dec`,
`ClassicalDedekindReals.sig_forall_dec`,
`FunctionalExtensionality.functional_extensionality_dep`, `Classical_Prop.classic`.
The development declares no axioms.
