# Assumptions of the property theorems

Generated by `tools/assumptions.py` from `Print Assumptions`.

| set | axioms |
|---|---|
| A0 | `ClassicalDedekindReals.sig_not_dec`, `ClassicalDedekindReals.sig_forall_dec`, `FunctionalExtensionality.functional_extensionality_dep`, `Classical_Prop.classic` |
| A1 | `ClassicalDedekindReals.sig_forall_dec`, `FunctionalExtensionality.functional_extensionality_dep` |
| A2 | `ClassicalDedekindReals.sig_not_dec`, `ClassicalDedekindReals.sig_forall_dec`, `FunctionalExtensionality.functional_extensionality_dep` |
| A3 | `ClassicalDedekindReals.sig_forall_dec` |
| closed | closed under the global context |

| file | set | theorems |
|---|---|---|
| Prop_Asy | A0 | C96_absolute, C96_relative, C96_GammaP, C96_poisson, C96_break_refuted |
| Prop_Cf | A0 | C95_regularised, C95_unregularised, C95_GammaP, C95_poisson, C95_limit_refuted |
| Prop_Continuous | A1 | C47_uniform01, C47_uniform, C49_uniform01, C49_uniform, C50_uniform01, C50_uniform, C53_exact |
| Prop_Continuous | A0 | C47_exponential, C47_twosided_exponential, C47_pareto, C47_powerlaw, C47_logistic, C47_cauchy, C47_weibull, C47_rayleigh, C47_extreme_value, C48_uniform01, C48_uniform, C48_exponential, C48_twosided_exponential, C48_pareto, C48_powerlaw, C48_logistic, C48_tent, C48_cauchy, C48_weibull, C48_rayleigh, C48_extreme_value, C48_powerlaw_refuted, C49_exponential, C49_twosided_exponential, C49_pareto, C49_logistic, C49_cauchy, C49_weibull, C49_rayleigh, C49_extreme_value, C49_powerlaw_support, C49_powerlaw_refuted, C50_exponential, C50_twosided_exponential, C50_pareto, C50_powerlaw, C50_logistic, C50_cauchy, C50_weibull, C50_rayleigh, C50_extreme_value, C50_draw_in_range, C67_ends, C67_outside, C67_ends_refuted, C48_weibull_at_zero_refuted |
| Prop_Continuous | A2 | C47_tent, C49_tent, C50_tent |
| Prop_Corr | A2 | C51_factorization, C51_positive_definite, C51_in_bounds, C51_draws |
| Prop_Corr | A3 | C52_same_parameters, C52_reset, C52_parameter_change_refuted |
| Prop_Corr | A1 | C52_stale_variates_refuted, C52_equality_refuted, C51_explicit_parameters_refuted |
| Prop_Corr | closed | C52_default_parameters_undefined |
| Prop_CountPeriod | closed | C94_count128_draw_period, C94_count128_equidistribution, C94_count128_predefined, C94_count_shift_draw_period, C94_count_shift_equidistribution, C94_count_shift_predefined |
| Prop_CountShift | closed | C05_lcg64_count_shift_permutation, C05_count128_permutation, C06_count_shift_jump, C06_count_shift_jump2, C06_large_jump_refuted, C07_count_shift_leapfrog, C07_count_shift_split_invalid, C08_count128_jump, C08_count128_jump2, C08_count128_leapfrog, C08_count128_split_invalid, C08_count128_jump2_large_refuted, C09_count_shift_equal, C59_count_shift_seed, C09_count128_equal_refuted, C09_count128_equal_same_increment, C17_count_shift_tiles, C17_count128_tiles, C60_count_shift_jumps_compose, C60_count_shift_jump2_jump, C60_count128_jumps_compose, C60_count128_jump2_jump, C61_portable_constant, C61_same_stream_refuted, C62_count128_state_period, C63_count_shift_state_period, C63_count_shift_predefined |
| Prop_Cuda | closed | C103_yarn, C103_modulo_inverse, C103_gauss, C103_gauss_refuted, C103_split_same, C103_split_any_offset, C103_split_ignored_refuted |
| Prop_DiscDraw | A0 | C101_uniform_int, C101_bounded, C101_uniform_dist, C101_bernoulli, C101_table, C101_geometric, C101_discrete, C101_engines |
| Prop_DiscDraw | A1 | C101_period |
| Prop_Discrete | A0 | C42_doubles, C42_least_index_refuted, C43_double_range_refuted, C43_double_out_of_bounds_refuted, C44_all_outcomes_refuted, C45_every_draw_undefined, C45_usable_refuted, C56_draw |
| Prop_Discrete | A1 | C42_reals, C42_quantile, C43_draw, C43_probability, C43_outside, C43_zero_weight, C56_probabilities, C56_equal_outcomes_refuted, C57_uniform_int |
| Prop_Discrete | closed | C42_in_range, C43_power_of_two, C44_update, C44_last_outcome |
| Prop_DistText | A0 | C54_round_trip, C54_small_refuted, C54_same_text_refuted, C54_tenth_refuted, C54_bernoulli_refuted, C54_twosided_exponential_refuted, C54_infinite_refuted, C73_discrete_round_trip, C73_correlated_round_trip, C73_uninitialised_refuted, C73_wrap_refuted, C74_history_refuted |
| Prop_DistText | A1 | C74_flags, C74_precision_refuted |
| Prop_Examples | A0 | C104_pi_serial, C104_pi_block, C104_pi_tbb, C104_pi_leap, C104_pi_block_cuda, C104_pi_leap_cuda, C104_pi_leap_cuda_refuted, C104_percolation_embarrassing, C104_percolation_embarrassing_refuted, C104_percolation_fine |
| Prop_Examples | closed | C104_sections_partition |
| Prop_FloatCdf | A0 | C102_exponential, C102_twosided, C102_rayleigh, C102_weibull, C102_pareto, C102_cauchy, C102_logistic, C102_extreme, C102_tent, C102_powerlaw, C102_powerlaw_refuted, C102_uniform, C102_uniform_cdf, C102_ends |
| Prop_FloatDisc | A0 | C110_discrete, C110_discrete_above_one_refuted, C110_uniform_int, C110_bernoulli |
| Prop_FloatDraw | A0 | C100_exponential, C100_twosided_exponential, C100_rayleigh, C100_weibull, C100_pareto, C100_powerlaw, C100_cauchy, C100_logistic, C100_extreme_value, C100_tent, C100_engines |
| Prop_FloatDraw | A1 | C100_period |
| Prop_FloatGeom | A0 | C108_cdf, C108_pdf, C108_small_p, C108_small_p_refuted, C108_max_refuted |
| Prop_FloatIcdf | A0 | C112_lognormal_draw, C112_lognormal_ends, C112_truncated_icdf, C112_truncated_infinite, C112_truncated_infinite_refuted, C112_truncated_far, C112_truncated_bound_refuted |
| Prop_FloatInv | A0 | C111_inv_Phi, C111_inv_Phi_ends, C111_normal_icdf, C111_normal_draw |
| Prop_FloatNorm | A0 | C106_normal_cdf, C106_normal_tail, C106_lognormal_cdf, C106_maxwell_cdf, C106_normal_pdf, C106_lognormal_pdf, C106_maxwell_pdf, C106_lognormal_small, C106_maxwell_large, C106_maxwell_refuted, C106_lognormal_refuted |
| Prop_FloatPdf | A0 | C105_exponential, C105_twosided, C105_logistic, C105_pareto, C105_powerlaw, C105_cauchy, C105_tent, C105_uniform, C105_extreme_value, C105_rayleigh, C105_weibull, C105_weibull_edge, C105_extreme_value_tail, C105_rayleigh_tail, C105_weibull_tail, C105_extreme_value_refuted, C105_rayleigh_refuted, C105_weibull_refuted |
| Prop_FloatTrunc | A0 | C109_cdf, C109_pdf, C109_upper_tail, C109_upper_tail_refuted |
| Prop_Gamma | A0 | C75_tgamma, C75_tgamma_rec, C75_tgamma_factorial, C75_tgamma_half, C75_inc_gamma, C75_beta, C75_beta_sym, C75_beta_outside, C75_beta_I, C75_beta_I_ends, C75_ln_binomial, C75_pochhammer, C76_quantile, C76_distribution, C76_density, C76_draw, C76_range, C76_exponential, C76_zero_refuted, C76_zero, C76_ends_refuted, C77_quantile, C77_distribution, C77_density, C77_draw, C77_range, C77_two, C77_zero, C77_ends_refuted, C78_cdf, C78_distribution, C78_quantile, C78_density, C78_draw, C78_range, C78_icdf_ends, C78_set, C78_quantile_refuted, C78_equality_refuted, C78_equality, C78_density_ends, C78_uniform, C79_cdf, C79_distribution, C79_quantile, C79_density, C79_draw, C79_symmetric, C79_infinite_refuted, C79_ends_refuted, C79_overflow_refuted, C80_cdf, C80_distribution, C80_quantile, C80_density, C80_draw, C80_below_refuted, C80_zero_refuted, C80_zero, C80_infinite_refuted, C80_ends_refuted |
| Prop_Gauss | closed | C22_gauss_sound, C22_gauss_invertible, C22_gauss_complete_refuted |
| Prop_IntMath | closed | C21_modulo_inverse, C21_modulo_inverse_prime, C23_modulo, C23_modulo_range_refuted, C24_power, C58_log2_floor, C58_log2_ceil, C58_ceil2, C58_mask, C58_mask_signed, C58_mask_signed_refuted |
| Prop_InvPhi | A0 | C97_quantile_exists, C97_inv_Phi, C97_approximation, C97_inv_erf, C97_inv_erfc, C97_ends, C97_middle, C97_code, C97_normal, C97_lognormal, C97_truncated |
| Prop_LagPeriod | closed | C93_xor_period, C93_plus_period |
| Prop_Lagfib | closed | C25_recurrence, C25_stream, C25_seeded, C26_discard, C26_discard_one_wrong, C25_predefined, C26_discard_one_refuted, C27_in_bounds, C27_construct, C27_power_of_two_wrong, C27_power_of_two_refuted, C28_reseed_gen, C28_reseed, C28_equal_refuted, C09_lagfib |
| Prop_Lcg64 | closed | C01_lcg64_jump, C01_lcg64_shift_jump, C02_lcg64_jump2, C03_lcg64_leapfrog, C03_lcg64_split_invalid, C03_even_multiplier_refuted, C04_lcg64_full_period, C04_lcg64_predefined, C04_lcg64_shift_full_period, C05_lcg64_shift_permutation, C09_lcg64_equal, C17_lcg64_tiles, C60_lcg64_jumps_compose, C60_lcg64_jump2_jump |
| Prop_Leap | closed | C16_mrg_leapfrog_nested, C16_mrg_leapfrog_predefined, C17_mrg_tiles_predefined, C20_yarn_leapfrog_predefined, C17_yarn_tiles_predefined |
| Prop_LinAlg | closed | C38_product, C38_apply, C38_power, C38_uint, C38_gf2, C38_entrywise |
| Prop_Maxwell | A2 | C86_guards, C86_scale |
| Prop_Maxwell | A0 | C86_quantile, C86_increasing, C86_tolerance, C86_tiny_refuted |
| Prop_Minstd | closed | C10_minstd_step, C11_minstd_full_period, C12_minstd_discard, C12_minstd_discard_refuted, C09_minstd_equal, C59_minstd_seed |
| Prop_Mrg | closed | C13_mrg_step, C13_mrg_no_overflow, C14_mrg_jump, C15_mrg_jump2, C16_mrg_leapfrog, C16_mrg_leapfrog_coefficient, C16_mrg_leapfrog_full_order, C16_mrg5_leapfrog_refuted, C16_mrg_split_throws, C17_mrg_tiles, C17_mrg_tiles_full_order, C60_mrg_jumps_compose, C60_mrg_jump_draw, C60_mrg_jump2_jump, C09_mrg_equal, C09_mrg_eqb_iff, C59_mrg_seed, C59_mrg_seed_values, C59_mrg_seed_gen, C59_mrg_params_legal |
| Prop_Mt | closed | C31_draws, C31_stream, C31_valid, C31_seed, C31_standard, C31_range, C32_tempering, C09_mt_equal_same_position, C09_mt_equal_after_draw, C09_mt_equal_refuted |
| Prop_Names | closed | C89_lagfib_name, C89_names, C89_foreign |
| Prop_NegBin | A0 | C98_distribution, C98_pdf, C98_cdf, C98_certain_success, C98_pdf_at_one_refuted, C98_overflow_refuted, C98_draw, C98_never_success_refuted, C98_cdf_algorithm |
| Prop_Newton | A0 | C83_positive, C83_fixed, C83_tolerance, C83_distributions, C83_small_shape_refuted, C84_defined, C84_tolerance, C84_slope, C84_fixed, C84_hang_refuted, C85_beta, C85_beta_equal, C85_student, C85_snedecor |
| Prop_Normal | A0 | C68_integral, C68_total, C68_derivative, C68_symmetric, C68_increasing, C68_distribution, C68_inverse_exists, C69_quantile, C69_derivative, C69_distribution, C69_draw, C70_quantile, C70_derivative, C70_distribution, C70_draw, C71_quantile, C71_derivative, C71_support, C71_bounds, C71_draw, C71_outside_refuted, C72_derivative, C72_support, C72_outside_refuted |
| Prop_Normal | A1 | C68_inverse_ends, C69_ends |
| Prop_Normal | A2 | C70_ends |
| Prop_Period | closed | C90_mrg_period, C90_mrg_trng0_period, C90_mrg4_lecuyer2_returns, C90_documented_period_refuted, C90_early_return, C90_yarn_period, C91_mrg_equidistribution, C91_yarn_equidistribution |
| Prop_Sampler | A0 | C55_poisson, C55_zero_truncated, C55_every_variate_refuted, C46_d_equals_m, C46_refuted, C46_draw, C65_binomial, C65_zero_probability_draw, C65_zero_probability_refuted, C66_geometric, C66_draw_defined_refuted |
| Prop_Sampler | A1 | C55_negative_binomial, C65_default_parameters_refuted, C66_cdf, C66_cdf_at_max_refuted |
| Prop_Sampler | A2 | C55_gammaQ |
| Prop_Sampler | closed | C65_default_parameters_undefined |
| Prop_Seed | closed | C87_lcg64, C87_lcg64_shift, C87_count_shift, C87_count128, C87_minstd, C87_mrg, C87_yarn, C87_xoshiro, C88_lcg64, C88_count_shift, C88_count128, C88_injective, C88_minstd, C88_minstd_endless, C88_minstd_terminates_refuted, C88_xoshiro, C88_mersenne, C88_mrg_dead, C88_yarn_dead, C88_mrg_alive_refuted, C88_mrg_alive |
| Prop_Series | A0 | C81_regularised, C81_unregularised, C81_cut, C81_guard, C81_cut_refuted, C81_iterations_refuted, C82_accuracy, C82_defined, C82_guard, C82_student_t, C82_snedecor_f, C82_infinity_undefined, C82_infinity_refuted, C82_conversion_refuted, C82_decrement_refuted |
| Prop_Text | closed | C36_roundtrip, C36_states, C37_failed, C37_accepts, C64_representable, C64_lagfib, C64_mt_refuted, C64_minstd_refuted, C64_mrg_refuted, C64_yarn_refuted |
| Prop_Uint128 | closed | C33_add_sub_mul, C33_unary, C33_bitwise, C33_compare, C33_shift, C33_shift_128_refuted, C33_conversion, C33_hi_wrong, C33_hi_refuted, C34_division, C34_zero_divisor, C35_read, C35_read_prefix, C35_write, C35_roundtrip, C35_width, C35_hex_one_digit_refuted, C35_hex_prefix_refuted, C35_internal_refuted |
| Prop_UnifAcc | A0 | C99_uniformcc, C99_uniformco, C99_uniformoc, C99_uniformoo, C99_two_values_refuted, C99_distribution, C99_period, C99_engines |
| Prop_Uniform | A0 | C39_uniformco, C39_uniformoc, C39_uniformcc, C39_uniformoo, C39_generate_canonical, C39_uniformoo_any_range_refuted, C41_engine_bounded, C41_negative, C41_least, C40_uniform_int, C53_closed_interval, C53_upper_bound_refuted, C53_wide_interval_refuted |
| Prop_Uniform | closed | C40_setters, C40_overflow, C40_full_range_refuted |
| Prop_Wolff | closed | C107_wolff, C107_all, C107_none, C107_energy, C107_flip_energy, C107_set, C107_fill, C107_ground |
| Prop_XoPeriod | closed | C92_xoshiro_period, C92_xoshiro_all_states, C92_xoshiro_equidistribution |
| Prop_Xoshiro | closed | C29_jump, C29_jump2, C29_discard, C30_bijection, C30_never_zero, C30_seed, C60_xoshiro_jumps_compose, C60_xoshiro_jump_draw, C60_xoshiro_jump2, C09_xoshiro_equal |
| Prop_Yarn | closed | C19_yarn_permutes, C18_yarn_output, C20_yarn_jump, C20_yarn_jump2, C20_yarn_leapfrog, C20_yarn_leapfrog_full_order, C20_yarn5_leapfrog_refuted, C17_yarn_tiles, C17_yarn_tiles_full_order, C60_yarn_jumps_compose, C60_yarn_jump_draw, C60_yarn_jump2_jump, C09_yarn_equal, C59_yarn_seed, C59_yarn5s_seed_gen_refuted, C59_yarn5s_seed_gen_values |
