{
 "claims": [
  {
   "property": "C01",
   "status": "proved",
   "theorems": [
    "C01_lcg64_jump",
    "C01_lcg64_shift_jump"
   ],
   "note": "lcg64 and lcg64_shift"
  },
  {
   "property": "C02",
   "status": "proved",
   "theorems": [
    "C02_lcg64_jump2"
   ],
   "note": "lcg64 and lcg64_shift"
  },
  {
   "property": "C03",
   "status": "proved",
   "theorems": [
    "C03_lcg64_leapfrog",
    "C03_lcg64_split_invalid",
    "C03_even_multiplier_refuted"
   ],
   "note": "odd multipliers; even multiplier refuted by witness"
  },
  {
   "property": "C04",
   "status": "proved",
   "theorems": [
    "C04_lcg64_full_period",
    "C04_lcg64_predefined",
    "C04_lcg64_shift_full_period"
   ],
   "note": ""
  },
  {
   "property": "C05",
   "status": "proved",
   "theorems": [
    "C05_lcg64_count_shift_permutation",
    "C05_count128_permutation",
    "C05_lcg64_shift_permutation"
   ],
   "note": "count128: shifts alone, and the whole map for odd a"
  },
  {
   "property": "C06",
   "status": "proved",
   "theorems": [
    "C06_count_shift_jump",
    "C06_count_shift_jump2",
    "C06_large_jump_refuted"
   ],
   "note": "s < 2^61-1; larger s refuted by witness s = 4*(2^61-1)"
  },
  {
   "property": "C07",
   "status": "proved",
   "theorems": [
    "C07_count_shift_leapfrog",
    "C07_count_shift_split_invalid"
   ],
   "note": ""
  },
  {
   "property": "C08",
   "status": "proved",
   "theorems": [
    "C08_count128_jump",
    "C08_count128_jump2",
    "C08_count128_leapfrog",
    "C08_count128_split_invalid",
    "C08_count128_jump2_large_refuted"
   ],
   "note": "s < 128 for jump2; jump2(128) refuted"
  },
  {
   "property": "C09",
   "status": "proved",
   "theorems": [
    "C09_count_shift_equal",
    "C09_count128_equal_refuted",
    "C09_count128_equal_same_increment",
    "C09_lagfib",
    "C09_lcg64_equal",
    "C09_minstd_equal",
    "C09_mrg_equal",
    "C09_mrg_eqb_iff",
    "C09_mt_equal_same_position",
    "C09_mt_equal_after_draw",
    "C09_mt_equal_refuted",
    "C09_xoshiro_equal",
    "C09_yarn_equal"
   ],
   "note": "lcg64 family, minstd, mrg, yarn, lagfib, xoshiro proved; refuted for count128 (C09_count128_*_refuted) and the Mersenne twisters (C09_mt_equal_refuted), with the restricted positive statements beside them"
  },
  {
   "property": "C10",
   "status": "proved",
   "theorems": [
    "C10_minstd_step"
   ],
   "note": ""
  },
  {
   "property": "C11",
   "status": "proved",
   "theorems": [
    "C11_minstd_full_period"
   ],
   "note": ""
  },
  {
   "property": "C12",
   "status": "proved",
   "theorems": [
    "C12_minstd_discard",
    "C12_minstd_discard_refuted"
   ],
   "note": "n < 2147483645; n = 2147483645 refuted for every legal state"
  },
  {
   "property": "C13",
   "status": "proved",
   "theorems": [
    "C13_mrg_step",
    "C13_mrg_no_overflow"
   ],
   "note": ""
  },
  {
   "property": "C14",
   "status": "proved",
   "theorems": [
    "C14_mrg_jump"
   ],
   "note": "every s < 2^64, every legal state and coefficients"
  },
  {
   "property": "C15",
   "status": "proved",
   "theorems": [
    "C15_mrg_jump2"
   ],
   "note": "every s < 2^32"
  },
  {
   "property": "C16",
   "status": "proved",
   "theorems": [
    "C16_mrg_leapfrog_nested",
    "C16_mrg_leapfrog_predefined",
    "C16_mrg_leapfrog",
    "C16_mrg_leapfrog_coefficient",
    "C16_mrg_leapfrog_full_order",
    "C16_mrg5_leapfrog_refuted",
    "C16_mrg_split_throws"
   ],
   "note": "mrg2, mrg3, mrg3s, mrg4: all legal coefficients and states. All six classes with the predefined parameter sets: every state, also split again. mrg5/mrg5s with other coefficients: proved when the subsequence has no shorter recurrence or the last new coefficient is nonzero; unrestricted claim refuted (C16_mrg5_leapfrog_refuted)"
  },
  {
   "property": "C17",
   "status": "proved",
   "theorems": [
    "C17_count_shift_tiles",
    "C17_count128_tiles",
    "C17_lcg64_tiles",
    "C17_mrg_tiles_predefined",
    "C17_yarn_tiles_predefined",
    "C17_mrg_tiles",
    "C17_mrg_tiles_full_order",
    "C17_yarn_tiles",
    "C17_yarn_tiles_full_order"
   ],
   "note": "lcg64, lcg64_shift, lcg64_count_shift, count128, mrg and yarn engines (order 5: predefined parameters, or under the full-order condition)"
  },
  {
   "property": "C18",
   "status": "proved",
   "theorems": [
    "C18_yarn_output"
   ],
   "note": "non-CUDA branch of operator()"
  },
  {
   "property": "C19",
   "status": "proved",
   "theorems": [
    "C19_yarn_permutes"
   ],
   "note": ""
  },
  {
   "property": "C20",
   "status": "proved",
   "theorems": [
    "C20_yarn_leapfrog_predefined",
    "C20_yarn_jump",
    "C20_yarn_jump2",
    "C20_yarn_leapfrog",
    "C20_yarn_leapfrog_full_order",
    "C20_yarn5_leapfrog_refuted"
   ],
   "note": "leapfrog unconditional for yarn2, yarn3, yarn3s, yarn4 and for all classes with the predefined parameter sets; other parameters of yarn5/yarn5s under the full-order condition, refuted otherwise"
  },
  {
   "property": "C21",
   "status": "proved",
   "theorems": [
    "C21_modulo_inverse",
    "C21_modulo_inverse_prime"
   ],
   "note": ""
  },
  {
   "property": "C22",
   "status": "proved",
   "theorems": [
    "C22_gauss_sound",
    "C22_gauss_invertible",
    "C22_gauss_complete_refuted"
   ],
   "note": "gauss: a returned vector solves the system (sound), and for an invertible matrix it always returns; completeness on solvable singular systems is refuted (C22_gauss_complete_refuted): it throws on some solvable singular systems."
  },
  {
   "property": "C23",
   "status": "proved",
   "theorems": [
    "C23_modulo",
    "C23_modulo_range_refuted"
   ],
   "note": "every modulus below 2^31 and every helper class (r = 1..7); beyond the range refuted"
  },
  {
   "property": "C24",
   "status": "proved",
   "theorems": [
    "C24_power"
   ],
   "note": ""
  },
  {
   "property": "C25",
   "status": "proved",
   "theorems": [
    "C25_recurrence",
    "C25_stream",
    "C25_seeded",
    "C25_predefined"
   ],
   "note": "All four class templates, largest lag below 2^31 and not a power of two; all predefined engines satisfy the hypotheses."
  },
  {
   "property": "C26",
   "status": "proved",
   "theorems": [
    "C26_discard",
    "C26_discard_one_wrong",
    "C26_discard_one_refuted"
   ],
   "note": "n <> 1, distinct lags, largest lag at most 2^19 (the branch threshold log2_ceil(n)*B^3 must not wrap). discard(1) is refuted for every engine with a non-zero (xor) or odd (plus) value in its window."
  },
  {
   "property": "C27",
   "status": "proved",
   "theorems": [
    "C27_in_bounds",
    "C27_construct",
    "C27_power_of_two_wrong",
    "C27_power_of_two_refuted"
   ],
   "note": "Largest lag not a power of two; refuted for every power of two."
  },
  {
   "property": "C28",
   "status": "proved",
   "theorems": [
    "C28_reseed_gen",
    "C28_reseed",
    "C28_equal_refuted"
   ],
   "note": "Streams agree after reseeding; equality by == refuted."
  },
  {
   "property": "C29",
   "status": "proved",
   "theorems": [
    "C29_jump",
    "C29_jump2",
    "C29_discard"
   ],
   "note": "All states, all s."
  },
  {
   "property": "C30",
   "status": "proved",
   "theorems": [
    "C30_bijection",
    "C30_never_zero",
    "C30_seed"
   ],
   "note": "All seeds and seed sources; the step is a bijection."
  },
  {
   "property": "C31",
   "status": "proved",
   "theorems": [
    "C31_draws",
    "C31_stream",
    "C31_valid",
    "C31_seed",
    "C31_standard",
    "C31_range"
   ],
   "note": ""
  },
  {
   "property": "C32",
   "status": "proved",
   "theorems": [
    "C32_tempering"
   ],
   "note": ""
  },
  {
   "property": "C33",
   "status": "proved",
   "theorems": [
    "C33_add_sub_mul",
    "C33_unary",
    "C33_bitwise",
    "C33_compare",
    "C33_shift",
    "C33_shift_128_refuted",
    "C33_conversion",
    "C33_hi_wrong",
    "C33_hi_refuted"
   ],
   "note": "All operators for all operands; shifts for |s| < 128 (C33_shift_128_refuted: undefined from 128 on); hi() refuted (C33_hi_refuted, C33_hi_wrong)."
  },
  {
   "property": "C34",
   "status": "proved",
   "theorems": [
    "C34_division",
    "C34_zero_divisor"
   ],
   "note": "All a, b with b <> 0; a zero divisor is answered with 2^128-1 and a by the portable class (C34_zero_divisor)."
  },
  {
   "property": "C35",
   "status": "proved",
   "theorems": [
    "C35_read",
    "C35_read_prefix",
    "C35_write",
    "C35_roundtrip",
    "C35_width",
    "C35_hex_one_digit_refuted",
    "C35_hex_prefix_refuted",
    "C35_internal_refuted"
   ],
   "note": "Write, read, read with 0x prefix, overflow, round trip in all three bases with padding; refuted: one hex digit at end of stream, 1x2 accepted in hex, internal padding with showbase."
  },
  {
   "property": "C36",
   "status": "proved",
   "theorems": [
    "C36_roundtrip",
    "C36_states"
   ],
   "note": "All 24 engine classes (lagfib: every instance up to 64 bits), any leading blanks and following text; valid states are representable."
  },
  {
   "property": "C37",
   "status": "proved",
   "theorems": [
    "C37_failed",
    "C37_accepts"
   ],
   "note": "Any stream state; plus the exact grammar accepted (C37_accepts)."
  },
  {
   "property": "C38",
   "status": "proved",
   "theorems": [
    "C38_product",
    "C38_apply",
    "C38_power",
    "C38_uint",
    "C38_gf2",
    "C38_entrywise"
   ],
   "note": "Matrix product, matrix-vector product and power over any commutative ring interpretation, with instances for unsigned words and GF2."
  },
  {
   "property": "C39",
   "status": "proved",
   "theorems": [
    "C39_uniformco",
    "C39_uniformoc",
    "C39_uniformcc",
    "C39_uniformoo",
    "C39_generate_canonical",
    "C39_uniformoo_any_range_refuted"
   ],
   "note": "uniformco/oc/cc for every range below 2^64, uniformoo for every engine of the library; uniformoo refuted for arbitrary user-defined ranges."
  },
  {
   "property": "C40",
   "status": "proved",
   "theorems": [
    "C40_uniform_int",
    "C40_setters",
    "C40_overflow",
    "C40_full_range_refuted"
   ],
   "note": "Overflow of b-a is undefined behaviour (C40_overflow); full int range refuted."
  },
  {
   "property": "C41",
   "status": "proved",
   "theorems": [
    "C41_engine_bounded",
    "C41_negative",
    "C41_least"
   ],
   "note": ""
  },
  {
   "property": "C42",
   "status": "proved",
   "theorems": [
    "C42_doubles",
    "C42_reals",
    "C42_quantile",
    "C42_in_range",
    "C42_least_index_refuted"
   ],
   "note": "All nondecreasing non-empty tables of finite doubles (comparisons only, no rounding) and of reals; result is always an index of the table for any values at all. The stronger reading 'least index i >= 0' fails at x = c[0] (refuted)."
  },
  {
   "property": "C43",
   "status": "proved",
   "theorems": [
    "C43_draw",
    "C43_probability",
    "C43_outside",
    "C43_zero_weight",
    "C43_power_of_two",
    "C43_double_range_refuted",
    "C43_double_out_of_bounds_refuted"
   ],
   "note": "Exact arithmetic: constructor, draw, pdf and cdf for every nonnegative weight list of positive total with fewer than 2^31 entries. For any arithmetic (doubles included) the result is in range when the number of outcomes is a power of two. In double arithmetic the range claim is refuted with a value that uniformco really returns (result N; or a read outside the vector)."
  },
  {
   "property": "C44",
   "status": "proved",
   "theorems": [
    "C44_update",
    "C44_last_outcome",
    "C44_all_outcomes_refuted"
   ],
   "note": "Any arithmetic (no property of addition is used), at most 2^30 outcomes, every outcome whose tree node has a sibling. For the last outcome of every odd-length list (length >= 3) the update is shown to read outside the vector."
  },
  {
   "property": "C45",
   "status": "proved",
   "theorems": [
    "C45_every_draw_undefined",
    "C45_usable_refuted"
   ],
   "note": "Refuted for every weight vector: max() is -1 and every draw reads outside an empty vector. Assumes that a moved-from std::vector is empty; the body of the constructor's if (s > 0) is not modelled because the sum over the moved-from vector is 0."
  },
  {
   "property": "C46",
   "status": "proved",
   "theorems": [
    "C46_d_equals_m",
    "C46_refuted",
    "C46_draw"
   ],
   "note": "Exact arithmetic, d = m: pdf, cdf and draw. Refuted in general (n=10, m=3, d=2)."
  },
  {
   "property": "C47",
   "status": "proved",
   "theorems": [
    "C47_uniform01",
    "C47_uniform",
    "C47_exponential",
    "C47_twosided_exponential",
    "C47_pareto",
    "C47_powerlaw",
    "C47_logistic",
    "C47_tent",
    "C47_cauchy",
    "C47_weibull",
    "C47_rayleigh",
    "C47_extreme_value"
   ],
   "note": "exact real arithmetic; also Galois form: y <= x iff u <= cdf x"
  },
  {
   "property": "C48",
   "status": "proved",
   "theorems": [
    "C48_uniform01",
    "C48_uniform",
    "C48_exponential",
    "C48_twosided_exponential",
    "C48_pareto",
    "C48_powerlaw",
    "C48_logistic",
    "C48_tent",
    "C48_cauchy",
    "C48_weibull",
    "C48_rayleigh",
    "C48_extreme_value",
    "C48_powerlaw_refuted",
    "C48_weibull_at_zero_refuted"
   ],
   "note": "except at the kinks of the densities; powerlaw below its support refuted; weibull pdf(0) NaN refuted"
  },
  {
   "property": "C49",
   "status": "proved",
   "theorems": [
    "C49_uniform01",
    "C49_uniform",
    "C49_exponential",
    "C49_twosided_exponential",
    "C49_pareto",
    "C49_logistic",
    "C49_tent",
    "C49_cauchy",
    "C49_weibull",
    "C49_rayleigh",
    "C49_extreme_value",
    "C49_powerlaw_support",
    "C49_powerlaw_refuted"
   ],
   "note": "powerlaw on its support only; refuted below"
  },
  {
   "property": "C50",
   "status": "proved",
   "theorems": [
    "C50_uniform01",
    "C50_uniform",
    "C50_exponential",
    "C50_twosided_exponential",
    "C50_pareto",
    "C50_powerlaw",
    "C50_logistic",
    "C50_tent",
    "C50_cauchy",
    "C50_weibull",
    "C50_rayleigh",
    "C50_extreme_value",
    "C50_draw_in_range"
   ],
   "note": "as an integral over the uniform variate; powerlaw on its support"
  },
  {
   "property": "C51",
   "status": "proved",
   "theorems": [
    "C51_factorization",
    "C51_positive_definite",
    "C51_in_bounds",
    "C51_draws",
    "C51_explicit_parameters_refuted"
   ],
   "note": "factorization of symmetric matrices, success with positive pivots iff positive definite, draws are H times z; exact reals"
  },
  {
   "property": "C52",
   "status": "proved",
   "theorems": [
    "C52_same_parameters",
    "C52_reset",
    "C52_parameter_change_refuted",
    "C52_stale_variates_refuted",
    "C52_default_parameters_undefined",
    "C52_equality_refuted"
   ],
   "note": "safe without parameter change and after reset; refuted after param() with pending variates and for default parameters"
  },
  {
   "property": "C53",
   "status": "proved",
   "theorems": [
    "C53_exact",
    "C53_closed_interval",
    "C53_upper_bound_refuted",
    "C53_wide_interval_refuted"
   ],
   "note": "exact arithmetic proved; double arithmetic: upper bound refuted"
  },
  {
   "property": "C54",
   "status": "proved",
   "theorems": [
    "C54_round_trip",
    "C54_small_refuted",
    "C54_same_text_refuted",
    "C54_tenth_refuted",
    "C54_bernoulli_refuted",
    "C54_twosided_exponential_refuted",
    "C54_infinite_refuted"
   ],
   "note": "Round trip proved for the parameters that survive; refuted for the others and for twosided_exponential_dist, bernoulli_dist and infinite parameters."
  },
  {
   "property": "C55",
   "status": "proved",
   "theorems": [
    "C55_poisson",
    "C55_zero_truncated",
    "C55_negative_binomial",
    "C55_gammaQ",
    "C55_every_variate_refuted"
   ],
   "note": "Exact arithmetic. poisson and zero_truncated_poisson with their own pdf/cdf (exact special functions) for 0 < mu <= 2^28; negative_binomial for any cumulative pdf/cdf pair. u = cdf(0) refuted."
  },
  {
   "property": "C56",
   "status": "proved",
   "theorems": [
    "C56_draw",
    "C56_probabilities",
    "C56_equal_outcomes_refuted"
   ],
   "note": "Draw rule and range for all finite doubles; pdf/cdf/min/max in exact arithmetic for all p in [0,1], head <> tail. With head = tail the pdf sums to p (refuted)."
  },
  {
   "property": "C57",
   "status": "proved",
   "theorems": [
    "C57_uniform_int"
   ],
   "note": "Exact arithmetic, all int a < b whose difference fits an int."
  },
  {
   "property": "C58",
   "status": "proved",
   "theorems": [
    "C58_log2_floor",
    "C58_log2_ceil",
    "C58_ceil2",
    "C58_mask",
    "C58_mask_signed",
    "C58_mask_signed_refuted"
   ],
   "note": "unsigned types of 2..64 bits; signed: mask only below 2^(w-2), refuted above"
  },
  {
   "property": "C59",
   "status": "proved",
   "theorems": [
    "C59_count_shift_seed",
    "C59_minstd_seed",
    "C59_mrg_seed",
    "C59_mrg_seed_values",
    "C59_mrg_seed_gen",
    "C59_mrg_params_legal",
    "C59_yarn_seed",
    "C59_yarn5s_seed_gen_refuted",
    "C59_yarn5s_seed_gen_values"
   ],
   "note": "minstd, lcg64_count_shift, mrg, yarn; yarn5s::seed(gen) refuted"
  },
  {
   "property": "C60",
   "status": "proved",
   "theorems": [
    "C60_count_shift_jumps_compose",
    "C60_count_shift_jump2_jump",
    "C60_count128_jumps_compose",
    "C60_count128_jump2_jump",
    "C60_lcg64_jumps_compose",
    "C60_lcg64_jump2_jump",
    "C60_mrg_jumps_compose",
    "C60_mrg_jump_draw",
    "C60_mrg_jump2_jump",
    "C60_xoshiro_jumps_compose",
    "C60_xoshiro_jump_draw",
    "C60_xoshiro_jump2",
    "C60_yarn_jumps_compose",
    "C60_yarn_jump_draw",
    "C60_yarn_jump2_jump"
   ],
   "note": "lcg64*, count128, mrg, yarn, xoshiro256plus."
  },
  {
   "property": "C61",
   "status": "proved",
   "theorems": [
    "C61_portable_constant",
    "C61_same_stream_refuted"
   ],
   "note": "refuted: portable engine is constant"
  },
  {
   "property": "C62",
   "status": "proved",
   "theorems": [
    "C62_count128_state_period"
   ],
   "note": ""
  },
  {
   "property": "C63",
   "status": "proved",
   "theorems": [
    "C63_count_shift_state_period",
    "C63_count_shift_predefined"
   ],
   "note": ""
  },
  {
   "property": "C64",
   "status": "proved",
   "theorems": [
    "C64_representable",
    "C64_lagfib",
    "C64_mt_refuted",
    "C64_minstd_refuted",
    "C64_mrg_refuted",
    "C64_yarn_refuted"
   ],
   "note": "Positive for fields and lagfib; refuted for mt19937, minstd, mrg2, yarn2."
  },
  {
   "property": "C65",
   "status": "proved",
   "theorems": [
    "C65_binomial",
    "C65_zero_probability_draw",
    "C65_zero_probability_refuted",
    "C65_default_parameters_undefined",
    "C65_default_parameters_refuted"
   ],
   "note": "Exact arithmetic; p = 0 in double and default parameters refuted."
  },
  {
   "property": "C66",
   "status": "proved",
   "theorems": [
    "C66_geometric",
    "C66_cdf",
    "C66_draw_defined_refuted",
    "C66_cdf_at_max_refuted"
   ],
   "note": "Exact arithmetic; small p and cdf(max()) refuted."
  },
  {
   "property": "C67",
   "status": "proved",
   "theorems": [
    "C67_ends",
    "C67_outside",
    "C67_ends_refuted"
   ],
   "note": "seven distributions; refuted for five others"
  },
  {
   "property": "C68",
   "status": "proved",
   "theorems": [
    "C68_integral",
    "C68_total",
    "C68_derivative",
    "C68_symmetric",
    "C68_increasing",
    "C68_distribution",
    "C68_inverse_exists",
    "C68_inverse_ends"
   ],
   "note": "Phi over exact reals (improper integral, derivative, symmetry, range, inverse exists, ends of inv_Phi); numerical evaluation of erf and inv_Phi not modelled."
  },
  {
   "property": "C69",
   "status": "proved",
   "theorems": [
    "C69_quantile",
    "C69_derivative",
    "C69_distribution",
    "C69_draw",
    "C69_ends"
   ],
   "note": "Exact real arithmetic; for every exact inverse of Phi on (0,1)."
  },
  {
   "property": "C70",
   "status": "proved",
   "theorems": [
    "C70_quantile",
    "C70_derivative",
    "C70_distribution",
    "C70_draw",
    "C70_ends"
   ],
   "note": "Exact real arithmetic; for every exact inverse of Phi on (0,1)."
  },
  {
   "property": "C71",
   "status": "proved",
   "theorems": [
    "C71_quantile",
    "C71_derivative",
    "C71_support",
    "C71_bounds",
    "C71_draw",
    "C71_outside_refuted"
   ],
   "note": "Exact real arithmetic, finite and infinite bounds; values of cdf and pdf outside [a,b] refuted."
  },
  {
   "property": "C72",
   "status": "proved",
   "theorems": [
    "C72_derivative",
    "C72_support",
    "C72_outside_refuted"
   ],
   "note": "pdf and cdf over exact reals; values below 0 refuted; icdf (Newton iteration) not modelled."
  },
  {
   "property": "C73",
   "status": "proved",
   "theorems": [
    "C73_discrete_round_trip",
    "C73_correlated_round_trip",
    "C73_uninitialised_refuted",
    "C73_wrap_refuted"
   ],
   "note": "Round trip proved; uninitialised reads and the wrapping dimension refuted."
  },
  {
   "property": "C74",
   "status": "proved",
   "theorems": [
    "C74_flags",
    "C74_precision_refuted",
    "C74_history_refuted"
   ],
   "note": "Flags proved, precision refuted."
  },
  {
   "property": "C75",
   "status": "proved",
   "theorems": [
    "C75_tgamma",
    "C75_tgamma_rec",
    "C75_tgamma_factorial",
    "C75_tgamma_half",
    "C75_inc_gamma",
    "C75_beta",
    "C75_beta_sym",
    "C75_beta_outside",
    "C75_beta_I",
    "C75_beta_I_ends",
    "C75_ln_binomial",
    "C75_pochhammer"
   ],
   "note": "exact real arithmetic"
  },
  {
   "property": "C76",
   "status": "proved",
   "theorems": [
    "C76_quantile",
    "C76_distribution",
    "C76_density",
    "C76_draw",
    "C76_range",
    "C76_exponential",
    "C76_zero_refuted",
    "C76_zero",
    "C76_ends_refuted"
   ],
   "note": "exact real arithmetic; inv_GammaP and inv_Beta_I taken as exact inverses (their existence is proved), GammaP and Beta_I as exact integrals"
  },
  {
   "property": "C77",
   "status": "proved",
   "theorems": [
    "C77_quantile",
    "C77_distribution",
    "C77_density",
    "C77_draw",
    "C77_range",
    "C77_two",
    "C77_zero",
    "C77_ends_refuted"
   ],
   "note": "exact real arithmetic; inv_GammaP and inv_Beta_I taken as exact inverses (their existence is proved), GammaP and Beta_I as exact integrals"
  },
  {
   "property": "C78",
   "status": "proved",
   "theorems": [
    "C78_cdf",
    "C78_distribution",
    "C78_quantile",
    "C78_density",
    "C78_draw",
    "C78_range",
    "C78_icdf_ends",
    "C78_set",
    "C78_quantile_refuted",
    "C78_equality_refuted",
    "C78_equality",
    "C78_density_ends",
    "C78_uniform"
   ],
   "note": "exact real arithmetic; inv_GammaP and inv_Beta_I taken as exact inverses (their existence is proved), GammaP and Beta_I as exact integrals"
  },
  {
   "property": "C79",
   "status": "proved",
   "theorems": [
    "C79_cdf",
    "C79_distribution",
    "C79_quantile",
    "C79_density",
    "C79_draw",
    "C79_symmetric",
    "C79_infinite_refuted",
    "C79_ends_refuted",
    "C79_overflow_refuted"
   ],
   "note": "exact real arithmetic; inv_GammaP and inv_Beta_I taken as exact inverses (their existence is proved), GammaP and Beta_I as exact integrals"
  },
  {
   "property": "C80",
   "status": "proved",
   "theorems": [
    "C80_cdf",
    "C80_distribution",
    "C80_quantile",
    "C80_density",
    "C80_draw",
    "C80_below_refuted",
    "C80_zero_refuted",
    "C80_zero",
    "C80_infinite_refuted",
    "C80_ends_refuted"
   ],
   "note": "exact real arithmetic; inv_GammaP and inv_Beta_I taken as exact inverses (their existence is proved), GammaP and Beta_I as exact integrals"
  },
  {
   "property": "C81",
   "status": "proved",
   "theorems": [
    "C81_regularised",
    "C81_unregularised",
    "C81_cut",
    "C81_guard",
    "C81_cut_refuted",
    "C81_iterations_refuted"
   ],
   "note": "series branch only; continued fraction and asymptotic expansion are parameters; rounding not modelled"
  },
  {
   "property": "C82",
   "status": "proved",
   "theorems": [
    "C82_accuracy",
    "C82_defined",
    "C82_guard",
    "C82_student_t",
    "C82_snedecor_f",
    "C82_infinity_undefined",
    "C82_infinity_refuted",
    "C82_conversion_refuted",
    "C82_decrement_refuted"
   ],
   "note": "rounding not modelled"
  },
  {
   "property": "C83",
   "status": "proved",
   "theorems": [
    "C83_positive",
    "C83_fixed",
    "C83_tolerance",
    "C83_distributions",
    "C83_small_shape_refuted"
   ],
   "note": "Exact arithmetic; convergence itself is not claimed. The error of GammaP enters as a parameter."
  },
  {
   "property": "C84",
   "status": "proved",
   "theorems": [
    "C84_defined",
    "C84_tolerance",
    "C84_slope",
    "C84_fixed",
    "C84_hang_refuted"
   ],
   "note": "Range, termination and tolerance in exact arithmetic; the non-termination witness in binary64 with the underflow threshold of pow."
  },
  {
   "property": "C85",
   "status": "proved",
   "theorems": [
    "C85_beta",
    "C85_beta_equal",
    "C85_student",
    "C85_snedecor"
   ],
   "note": "Exact arithmetic with an exact Beta_I. For unequal parameters only quantiles on one side of the initial guess; stated in the property."
  },
  {
   "property": "C86",
   "status": "proved",
   "theorems": [
    "C86_guards",
    "C86_quantile",
    "C86_increasing",
    "C86_tolerance",
    "C86_scale",
    "C86_tiny_refuted"
   ],
   "note": "Exact arithmetic; the value of cdf and pdf inside the loop is exact."
  },
  {
   "property": "C87",
   "status": "proved",
   "theorems": [
    "C87_lcg64",
    "C87_lcg64_shift",
    "C87_count_shift",
    "C87_count128",
    "C87_minstd",
    "C87_mrg",
    "C87_yarn",
    "C87_xoshiro"
   ],
   "note": "every engine with seed(unsigned long); lagged Fibonacci and Mersenne twister seeding is in C25 and C31"
  },
  {
   "property": "C88",
   "status": "proved",
   "theorems": [
    "C88_lcg64",
    "C88_count_shift",
    "C88_count128",
    "C88_injective",
    "C88_minstd",
    "C88_minstd_endless",
    "C88_minstd_terminates_refuted",
    "C88_xoshiro",
    "C88_mersenne",
    "C88_mrg_dead",
    "C88_yarn_dead",
    "C88_mrg_alive_refuted",
    "C88_mrg_alive"
   ],
   "note": "sources are modelled as state machines with integer values"
  },
  {
   "property": "C89",
   "status": "proved",
   "theorems": [
    "C89_lagfib_name",
    "C89_names",
    "C89_foreign"
   ],
   "note": "lags below 2^32, as unsigned int"
  },
  {
   "property": "C90",
   "status": "proved",
   "theorems": [
    "C90_mrg_period",
    "C90_mrg_trng0_period",
    "C90_mrg4_lecuyer2_returns",
    "C90_documented_period_refuted",
    "C90_early_return",
    "C90_yarn_period"
   ],
   "note": "mrg4::LEcuyer2: an upper bound of the period only"
  },
  {
   "property": "C91",
   "status": "proved",
   "theorems": [
    "C91_mrg_equidistribution",
    "C91_yarn_equidistribution"
   ],
   "note": ""
  },
  {
   "property": "C92",
   "status": "proved",
   "theorems": [
    "C92_xoshiro_period",
    "C92_xoshiro_all_states",
    "C92_xoshiro_equidistribution"
   ],
   "note": "every non-zero state"
  },
  {
   "property": "C93",
   "status": "proved",
   "theorems": [
    "C93_xor_period",
    "C93_plus_period"
   ],
   "note": "exact period of the draws of the predefined engines with largest lag 250, 521, 607; the primality of 2^521-1 and 2^607-1 is proved by the Lucas-Lehmer test inside Coq; larger predefined lags (1279 and more) are not covered"
  },
  {
   "property": "C94",
   "status": "proved",
   "theorems": [
    "C94_count128_draw_period",
    "C94_count128_equidistribution",
    "C94_count128_predefined",
    "C94_count_shift_draw_period",
    "C94_count_shift_equidistribution",
    "C94_count_shift_predefined"
   ],
   "note": "Native 128-bit type for count128_lcg_shift; with the portable one the draws are constant (C61)."
  },
  {
   "property": "C95",
   "status": "proved",
   "theorems": [
    "C95_regularised",
    "C95_unregularised",
    "C95_GammaP",
    "C95_poisson",
    "C95_limit_refuted"
   ],
   "note": "GammaQ_cf over the reals; rounding not modelled; the asymptotic expansion of the regularised functions is a parameter"
  },
  {
   "property": "C96",
   "status": "proved",
   "theorems": [
    "C96_absolute",
    "C96_relative",
    "C96_GammaP",
    "C96_poisson",
    "C96_break_refuted"
   ],
   "note": "real-number semantics of the expansion: truncation of the table, of mln1p and of the loop; rounding of the double operations is not modelled"
  },
  {
   "property": "C97",
   "status": "proved",
   "theorems": [
    "C97_quantile_exists",
    "C97_inv_Phi",
    "C97_approximation",
    "C97_inv_erf",
    "C97_inv_erfc",
    "C97_ends",
    "C97_middle",
    "C97_code",
    "C97_normal",
    "C97_lognormal",
    "C97_truncated"
   ],
   "note": "exact arithmetic; Phi, erf, erfc, ln, sqrt and exp exact; range 2^-1074..1-2^-1074 (every double); nothing claimed for smaller long double arguments"
  },
  {
   "property": "C98",
   "status": "proved",
   "theorems": [
    "C98_distribution",
    "C98_pdf",
    "C98_cdf",
    "C98_certain_success",
    "C98_pdf_at_one_refuted",
    "C98_overflow_refuted",
    "C98_draw",
    "C98_never_success_refuted",
    "C98_cdf_algorithm"
   ],
   "note": "exact arithmetic (lgamma, ln, ln1p, exp exact); cdf with the exact integral and, separately, with AS 63; draws with exact pdf and cdf"
  },
  {
   "property": "C99",
   "status": "proved",
   "theorems": [
    "C99_uniformcc",
    "C99_uniformco",
    "C99_uniformoc",
    "C99_uniformoo",
    "C99_two_values_refuted",
    "C99_distribution",
    "C99_period",
    "C99_engines"
   ],
   "note": "IEEE double and float as in C39 (Flocq); one call per variate as with the default template argument; period statement for engines with a full cycle of outputs"
  },
  {
   "property": "C100",
   "status": "proved",
   "theorems": [
    "C100_exponential",
    "C100_twosided_exponential",
    "C100_rayleigh",
    "C100_weibull",
    "C100_pareto",
    "C100_powerlaw",
    "C100_cauchy",
    "C100_logistic",
    "C100_extreme_value",
    "C100_tent",
    "C100_period",
    "C100_engines"
   ],
   "note": "draws in IEEE double; the error bounds of log, pow, sin and cos and moderate parameters are hypotheses"
  },
  {
   "property": "C101",
   "status": "proved",
   "theorems": [
    "C101_uniform_int",
    "C101_bounded",
    "C101_uniform_dist",
    "C101_bernoulli",
    "C101_table",
    "C101_geometric",
    "C101_discrete",
    "C101_period",
    "C101_engines"
   ],
   "note": "double arithmetic bit-exact; log of the geometric draw is any library within two units in the last place; the table statement holds for every finite ascending table ending in 1"
  },
  {
   "property": "C102",
   "status": "proved",
   "theorems": [
    "C102_exponential",
    "C102_twosided",
    "C102_rayleigh",
    "C102_weibull",
    "C102_pareto",
    "C102_cauchy",
    "C102_logistic",
    "C102_extreme",
    "C102_tent",
    "C102_powerlaw",
    "C102_powerlaw_refuted",
    "C102_uniform",
    "C102_uniform_cdf",
    "C102_ends"
   ],
   "note": "Eleven distributions; the C++ mathematical library is any set of functions within the stated error bounds; powerlaw_dist::cdf below theta is refuted in C102_powerlaw_refuted."
  },
  {
   "property": "C103",
   "status": "proved",
   "theorems": [
    "C103_yarn",
    "C103_modulo_inverse",
    "C103_gauss",
    "C103_gauss_refuted",
    "C103_split_same",
    "C103_split_any_offset",
    "C103_split_ignored_refuted"
   ],
   "note": "The while loop is shown to compute gen^r mod modulus with int64_t products below 2^62; modulo_inverse, gauss, backward and split return what the host versions return; the behaviour where the host throws is stated too."
  },
  {
   "property": "C104",
   "status": "proved",
   "theorems": [
    "C104_pi_serial",
    "C104_pi_block",
    "C104_pi_tbb",
    "C104_pi_leap",
    "C104_pi_block_cuda",
    "C104_pi_leap_cuda",
    "C104_pi_leap_cuda_refuted",
    "C104_percolation_embarrassing",
    "C104_percolation_embarrassing_refuted",
    "C104_percolation_fine",
    "C104_sections_partition"
   ],
   "note": "Block splitting and leapfrog of the pi examples and both percolation examples; the index arithmetic must fit int or long (hypotheses), pi_leap_cuda.cu is wrong if the number of threads does not divide the number of samples (refuted)."
  },
  {
   "property": "C105",
   "status": "proved",
   "theorems": [
    "C105_exponential",
    "C105_twosided",
    "C105_logistic",
    "C105_pareto",
    "C105_powerlaw",
    "C105_cauchy",
    "C105_tent",
    "C105_uniform",
    "C105_extreme_value",
    "C105_rayleigh",
    "C105_weibull",
    "C105_weibull_edge",
    "C105_extreme_value_tail",
    "C105_rayleigh_tail",
    "C105_weibull_tail",
    "C105_extreme_value_refuted",
    "C105_rayleigh_refuted",
    "C105_weibull_refuted"
   ],
   "note": "absolute error in units of the largest density; Weibull relative error in the range stated; the tails that give NaN are theorems"
  },
  {
   "property": "C106",
   "status": "proved",
   "theorems": [
    "C106_normal_cdf",
    "C106_normal_tail",
    "C106_lognormal_cdf",
    "C106_maxwell_cdf",
    "C106_normal_pdf",
    "C106_lognormal_pdf",
    "C106_maxwell_pdf",
    "C106_lognormal_small",
    "C106_maxwell_large",
    "C106_maxwell_refuted",
    "C106_lognormal_refuted"
   ],
   "note": "FloatNormProofs, FloatNormPdf, FloatNormLog, FloatNormMax; NaN for extreme arguments: C106_maxwell_refuted, C106_lognormal_refuted"
  },
  {
   "property": "C107",
   "status": "proved",
   "theorems": [
    "C107_wolff",
    "C107_all",
    "C107_none",
    "C107_energy",
    "C107_flip_energy",
    "C107_set",
    "C107_fill",
    "C107_ground"
   ],
   "note": "all lattice sizes for which L*L fits int; draws of the engine arbitrary"
  },
  {
   "property": "C108",
   "status": "proved",
   "theorems": [
    "C108_cdf",
    "C108_pdf",
    "C108_small_p",
    "C108_small_p_refuted",
    "C108_max_refuted"
   ],
   "note": "cdf within (min(2(x+1),1/p)+6)/2^52 of the sum of the probabilities, pdf likewise times p; for p up to 2^-55 cdf is never positive (C108_small_p, C108_small_p_refuted) and cdf(max()) overflows int (C108_max_refuted); accuracy of pow assumed as in C100 and C102"
  },
  {
   "property": "C109",
   "status": "proved",
   "theorems": [
    "C109_cdf",
    "C109_pdf",
    "C109_upper_tail",
    "C109_upper_tail_refuted"
   ],
   "note": "bounds may be infinite; enclosed probability p at least 2^-40; cdf within 49/(2^52 p), pdf within 30/(2^52 sigma p^2); accuracy of exp, erf and erfc assumed as in C106; with bounds 13 to 30 sigma above mu cdf is NaN (C109_upper_tail, C109_upper_tail_refuted, which assume relative accuracy of erfc)"
  },
  {
   "property": "C110",
   "status": "proved",
   "theorems": [
    "C110_discrete",
    "C110_discrete_above_one_refuted",
    "C110_uniform_int",
    "C110_bernoulli"
   ],
   "note": "cdf of discrete_dist above 1 at max(): C110_discrete_above_one_refuted"
  },
  {
   "property": "C111",
   "status": "proved",
   "theorems": [
    "C111_inv_Phi",
    "C111_inv_Phi_ends",
    "C111_normal_icdf",
    "C111_normal_draw"
   ],
   "note": "arguments in [2^-52, 1 - 2^-53], which covers uniformoo; the ends 0 and 1 and arguments outside separately; accuracy of ln, ln1p, exp, erf and erfc assumed as in C106, with erfc relatively accurate in the tail; float and long double not covered"
  },
  {
   "property": "C112",
   "status": "proved",
   "theorems": [
    "C112_lognormal_draw",
    "C112_lognormal_ends",
    "C112_truncated_icdf",
    "C112_truncated_infinite",
    "C112_truncated_infinite_refuted",
    "C112_truncated_far",
    "C112_truncated_bound_refuted"
   ],
   "note": "draws of lognormal_dist; icdf of truncated_normal_dist for x in [2^-40, 1 - 2^-40] and enclosed probability at least 1/256; the last uniform number can give an infinite draw (C112_truncated_infinite, C112_truncated_infinite_refuted), and far above mu every draw is infinite (C112_truncated_far, C112_truncated_bound_refuted); library accuracy assumed as in C111"
  }
 ]
}