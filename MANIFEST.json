{
 "claims": [
  {
   "property": "C01",
   "status": "proved",
   "theorems": [
    "c01_update_is_bayes_rule"
   ],
   "note": "Evidence at least machine epsilon (otherwise the code skips the renormalisation) and threshold below one are the hypotheses; the resample check is shown to be the only difference when it is enabled."
  },
  {
   "property": "C02",
   "status": "partial",
   "theorems": [
    "c02_new_updater",
    "c02_weights_stay_probability",
    "c02_permissive_policies_refuted",
    "c02_small_threshold_refuted"
   ],
   "note": "Proved for the policies error/skip/unknown with threshold >= machine epsilon, for every finite history with caught exceptions. The claim for ignore/warn/reset and for thresholds below machine epsilon is false of the code: refuted by witnesses."
  },
  {
   "property": "C03",
   "status": "proved",
   "theorems": [
    "c03_hypothetical_update_changes_nothing",
    "c03_arrays_agree_with_single_calls",
    "c03_prediction_is_what_update_installs"
   ],
   "note": "Frame over all modelled attributes, array entries agree with single calls, and prediction equals what update installs."
  },
  {
   "property": "C04",
   "status": "proved",
   "theorems": [
    "c04_records_tell_the_history"
   ],
   "note": "Any history; each batch is replaced by the executed prefix of its plan."
  },
  {
   "property": "C05",
   "status": "proved",
   "theorems": [
    "c05_log_total_likelihood_is_log_evidence"
   ],
   "note": "Also covers models with a time step (likelihood along the path of each particle)."
  },
  {
   "property": "C06",
   "status": "proved",
   "theorems": [
    "c06_data_order_irrelevant"
   ],
   "note": "Hypothesis 'regular' (evidence at least eps at every step, for both orders) expresses 'no zero-weight event'."
  },
  {
   "property": "C07",
   "status": "proved",
   "theorems": [
    "c07_batch_length_mismatch",
    "c07_batch_is_one_by_one"
   ],
   "note": "For every non-zero interval (negative included)."
  },
  {
   "property": "C08",
   "status": "partial",
   "theorems": [
    "c08_error_and_skip_leave_posterior",
    "c08_ignore_and_warn_carry_on",
    "c08_policy_has_no_influence_above_threshold",
    "c08_reset_policy_partial",
    "c08_reset_policy_refuted"
   ],
   "note": "All policies proved except 'reset', whose clause is false of the code: after re-sampling the prior the vanishing weights are written over the uniform ones (c08_reset_policy_partial says exactly what happens, c08_reset_policy_refuted gives the witness)."
  },
  {
   "property": "C09",
   "status": "proved",
   "theorems": [
    "c09_n_ess_bounds",
    "c09_min_n_ess_never_increases",
    "c09_min_n_ess_bounds_observed"
   ],
   "note": ""
  },
  {
   "property": "C10",
   "status": "partial",
   "theorems": [
    "c10_resample_iff_ess_low",
    "c10_resample_count_is_exact",
    "c10_just_resampled_flag",
    "c10_flag_after_reset_refuted"
   ],
   "note": "The iff, the counter and the flag after update/resample are proved. 'Latest operation' read to include reset() is false: the flag is left set (c10_flag_after_reset_refuted)."
  },
  {
   "property": "C11",
   "status": "proved",
   "theorems": [
    "c11_reset_from_prior",
    "c11_reset_only_params",
    "c11_reset_both_rejected"
   ],
   "note": ""
  },
  {
   "property": "C12",
   "status": "proved",
   "theorems": [
    "c12_update_commutes_with_permutation",
    "c12_estimates_invariant"
   ],
   "note": "Policy 'reset' excluded (it draws a fresh cloud); time step must itself be permutation equivariant."
  },
  {
   "property": "C13",
   "status": "partial",
   "theorems": [
    "c13_any_evidence",
    "c13_small_evidence_refuted",
    "c13_bayes_risk_is_expected_posterior_loss",
    "c13_expected_loss_bounds",
    "c13_last_outcome_impossible_refuted",
    "c13_array_of_experiments"
   ],
   "note": "Equality and bounds proved when the last outcome of the domain has positive evidence and every other one either is impossible or has evidence at least eps. c13_any_evidence: with any other evidences the result misses the expected posterior loss by at most the total evidence of the outcomes below eps times the Q-weighted size of the cloud; c13_small_evidence_refuted shows that the miss is real. With an impossible last outcome the code returns NaN: refuted."
  },
  {
   "property": "C14",
   "status": "partial",
   "theorems": [
    "c14_any_evidence",
    "c14_negative_refuted",
    "c14_information_gain_is_mutual_information",
    "c14_mutual_information_bounds",
    "c14_zero_probability_refuted",
    "c14_information_or_nan"
   ],
   "note": "Equality and bounds proved for strictly positive weights and likelihoods; a zero product of weight and likelihood makes the code return NaN: refuted. c14_information_or_nan: the number is the mutual information exactly when all products are positive, NaN otherwise. Outcomes with evidence below machine epsilon are left unnormalised: c14_any_evidence bounds the shortfall by the sum of -p ln p over them and shows that the number never exceeds the mutual information; it can be negative (c14_negative_refuted)."
  },
  {
   "property": "C15",
   "status": "proved",
   "theorems": [
    "c15_constructor_normalises",
    "c15_both_rejected",
    "c15_only_dimension"
   ],
   "note": ""
  },
  {
   "property": "C16",
   "status": "proved",
   "theorems": [
    "c16_particle_returned_exactly_on_its_interval",
    "c16_intervals_cover_and_are_disjoint",
    "c16_sample",
    "c16_sample_total"
   ],
   "note": "Draws are real numbers in [0,1); totality is also proved for weights that miss one."
  },
  {
   "property": "C17",
   "status": "proved",
   "theorems": [
    "c17_mean_is_weighted_average",
    "c17_mean_within_range",
    "c17_covariance_is_mean_outer_deviation",
    "c17_covariance_symmetric",
    "c17_covariance_positive_semidefinite",
    "c17_correlations",
    "c17_affine_equivariance",
    "c17_meanfn_identity",
    "c17_meanfn"
   ],
   "note": ""
  },
  {
   "property": "C18",
   "status": "partial",
   "theorems": [
    "c18_credible_region",
    "c18_level_one_refuted"
   ],
   "note": "Proved for 0 <= level < 1. At level 1 exactly the code indexes past the end: IndexError (refuted)."
  },
  {
   "property": "C19",
   "status": "proved",
   "theorems": [
    "c19_entropy_bounds",
    "c19_entropy_uniform",
    "c19_zero_weights_contribute_nothing",
    "c19_entropy_is_shannon"
   ],
   "note": ""
  },
  {
   "property": "C20",
   "status": "partial",
   "theorems": [
    "c20_clusters_partition",
    "c20_total_variance_single_cluster_partial",
    "c20_reported_total",
    "c20_total_variance_refuted"
   ],
   "note": "Partition of the particles into clusters proved. The total-variance identity between clusters is false of the code (refuted); the single-cluster case is proved. c20_reported_total gives the exact total the code reports."
  },
  {
   "property": "C21",
   "status": "proved",
   "theorems": [
    "c21_what_updaters_rely_on",
    "c21_shape_weights_and_calls",
    "c21_square_root_failure"
   ],
   "note": "A non-finite square-root error raises ResamplerError, proved separately."
  },
  {
   "property": "C22",
   "status": "proved",
   "theorems": [
    "c22_leftover_exactly_the_invalid"
   ],
   "note": ""
  },
  {
   "property": "C23",
   "status": "proved",
   "theorems": [
    "c23_consistent_after_any_assignments",
    "c23_override_never_changed"
   ],
   "note": ""
  },
  {
   "property": "C24",
   "status": "partial",
   "theorems": [
    "c24_draw",
    "c24_draw_precomputed",
    "c24_mean_preserved",
    "c24_covariance_preserved",
    "c24_covariance_preserved_only_if",
    "c24_zero_covariance_refuted",
    "c24_zero_covariance_value"
   ],
   "note": "Mean and covariance proved for every non-zero covariance, with the converse. For a cloud of zero covariance the code adds zero_cov_comp, so the covariance is not preserved (refuted); its exact value is c24_zero_covariance_value."
  },
  {
   "property": "C25",
   "status": "partial",
   "theorems": [
    "c25_own_ancestor_refuted",
    "c25_centre_of_some_ancestor_partial",
    "c25_rounds"
   ],
   "note": "False of the code (refuted by a two-particle witness): the retry uses the first remaining centres. Proved instead, for every rejection pattern: c25_rounds, the exact rule (round t, r-th open particle, r-th drawn ancestor); a first draw uses its own ancestor (c24_draw)."
  },
  {
   "property": "C26",
   "status": "partial",
   "theorems": [
    "c26_inverse_cdf",
    "c26_impossible_outcomes_never_occur",
    "c26_missing_mass_reports_zero",
    "c26_other_domain_refuted",
    "c26_varying_outcomes_refuted"
   ],
   "note": "Proved for the standard domain 0..n-1: the returned outcome is the inverse-CDF image of the draw, each outcome's set of draws is an interval of length Pr(d), impossible outcomes never occur. Refuted for other domains (domain.values is indexed by values already taken from domain.values, so {1,2} reports 2 or raises IndexError) and for models with a varying number of outcomes (AttributeError)."
  },
  {
   "property": "C27",
   "status": "partial",
   "theorems": [
    "c27_call_count",
    "c27_sim_count",
    "c27_outermost",
    "c27_mle_calls_refuted",
    "c27_binomial_sims_refuted",
    "c27_repeat_ignored_refuted",
    "c27_uncounted_base_refuted",
    "c27_forwarded",
    "c27_binomial_below",
    "c27_parallel_below"
   ],
   "note": "Proved: counts equal the requested totals for every call history of a stack whose layers forward calls one to one. Refuted: MLE likelihood calls are not counted, BinomialModel simulations are not counted, repeat is ignored by GaussianHyperparameterized and Multinomial models, and the UnknownT2 and noisy coin bases do not count."
  },
  {
   "property": "C28",
   "status": "partial",
   "theorems": [
    "c28_finite_lists_each_member_once",
    "c28_n_members",
    "c28_n_members_reversed_refuted",
    "c28_membership",
    "c28_any_finite_bounds",
    "c28_member_iff_listed",
    "c28_fractional_bound_admits_smaller_refuted",
    "c28_example_point"
   ],
   "note": "Proved for all integer and infinite bounds; n_members is the list length exactly when max >= min-1. Reversed bounds give a negative n_members and fractional bounds are rounded towards zero (both refuted)."
  },
  {
   "property": "C29",
   "status": "partial",
   "theorems": [
    "c29_separate_arguments",
    "c29_list_argument_refuted",
    "c29_values_and_count",
    "c29_empty_factor_refuted",
    "c29_membership",
    "c29_to_then_from",
    "c29_from_then_to",
    "c29_finite_continuous"
   ],
   "note": "Proved for factors given as separate arguments and non-empty factors. One list argument raises AttributeError, an empty factor makes values raise ValueError (both refuted)."
  },
  {
   "property": "C30",
   "status": "proved",
   "theorems": [
    "c30_lists_each_count_vector_once",
    "c30_n_members",
    "c30_membership",
    "c30_example_point"
   ],
   "note": "n_members is modelled with exact binomials, not scipy's float binom."
  },
  {
   "property": "C31",
   "status": "proved",
   "theorems": [
    "c31_inversion",
    "c31_precession",
    "c31_accelerated_precession",
    "c31_unknown_t2",
    "c31_coin",
    "c31_noisy_coin",
    "c31_randomized_benchmarking",
    "c31_interleaved_benchmarking",
    "c31_tomography",
    "c31_die",
    "c31_valid_parameters"
   ],
   "note": "All eight models, plus the die; the experiment-range hypothesis is only needed for t >= 0 (unknown T2) and alpha, beta in [0,1] (noisy coin)."
  },
  {
   "property": "C32",
   "status": "partial",
   "theorems": [
    "c32_count_likelihood",
    "c32_distribution",
    "c32_single_shot",
    "c32_construction",
    "c32_wrong_exception_refuted"
   ],
   "note": "Proved in full for the likelihood (sum over shot records, distribution, single shot, construction over stand-alone models). Refuted: wrapping a powered binomial model raises TypeError instead of ValueError."
  },
  {
   "property": "C33",
   "status": "proved",
   "theorems": [
    "c33_count_likelihood",
    "c33_sums_to_one",
    "c33_zero_probability_outcome"
   ],
   "note": "Likelihood equals the total mass of all records with the given counts; the sum is taken over the model's own outcome domain enumeration."
  },
  {
   "property": "C34",
   "status": "partial",
   "theorems": [
    "c34_range_and_error",
    "c34_scale_finite",
    "c34_argument_check_refuted",
    "c34_exactly_one_argument"
   ],
   "note": "Range and perturbation bound proved in both modes. Refuted: the constructor never raises (both arguments: tol wins; neither: first likelihood call raises TypeError)."
  },
  {
   "property": "C35",
   "status": "proved",
   "theorems": [
    "c35_order_and_zeros",
    "c35_power_one",
    "c35_integer_power",
    "c35_repeated_updates"
   ],
   "note": "Order, zeros, power one and, in the SMC updater model, p updates equal one update of power p."
  },
  {
   "property": "C36",
   "status": "partial",
   "theorems": [
    "c36_random_walk_adds_sample",
    "c36_dimension_mismatch",
    "c36_slots_match_names",
    "c36_cholesky_names",
    "c36_slices",
    "c36_validity",
    "c36_likelihood_ignores_walk_parameters",
    "c36_only_walking_parameters_move",
    "c36_negative_index_refuted",
    "c36_transformation_refuted",
    "c36_separable_transformation",
    "c36_accepts",
    "c36_size_mismatch_exception"
   ],
   "note": "Proved for selections without negative indices and no (or a coordinatewise, inverted) transformation. Refuted: a negative index can slip through and walk another parameter; a mixing transformation moves undeclared parameters; a size mismatch raises AttributeError."
  },
  {
   "property": "C37",
   "status": "partial",
   "theorems": [
    "c37_components_partial",
    "c37_unit_variance",
    "c37_density_refuted",
    "c37_variance_check",
    "c37_simulated_moments"
   ],
   "note": "Refuted: the density omits the factor 1/sigma of each component (and this changes posteriors). Proved: exact relation to the mixture density, equality for unit variances, rejection of non-positive variances."
  },
  {
   "property": "C38",
   "status": "proved",
   "theorems": [
    "c38_conversions",
    "c38_decay",
    "c38_interleaved_decay",
    "c38_length_zero",
    "c38_perfect_gate",
    "c38_valid",
    "c38_interleaved_valid",
    "c38_valid_exactly",
    "c38_order"
   ],
   "note": "Both conversions, decay and bounds for the plain and the interleaved protocol, perfect gate."
  },
  {
   "property": "C39",
   "status": "partial",
   "theorems": [
    "c39_inversion",
    "c39_inversion_mean",
    "c39_precession",
    "c39_precession_mean",
    "c39_coin",
    "c39_coin_mean",
    "c39_coin_boundary_refuted",
    "c39_randomized_benchmarking",
    "c39_randomized_benchmarking_mean",
    "c39_interleaved_benchmarking",
    "c39_interleaved_benchmarking_mean"
   ],
   "note": "Proved for inversion, precession, coin with 0<p<1 and all components of plain and interleaved benchmarking; expectation zero proved for inversion, precession, coin and both kinds of benchmarking. Refuted for the coin at p=0 (p=1): likelihood one but score NaN."
  },
  {
   "property": "C40",
   "status": "proved",
   "theorems": [
    "c40_counts",
    "c40_symmetric",
    "c40_positive_semidefinite",
    "c40_binomial",
    "c40_coin_value",
    "c40_inversion_value"
   ],
   "note": "Quadratic form identity, symmetry, positive semidefiniteness, binomial factor; n_meas times the single-shot matrix is the Fisher information of the count distribution itself (c40_counts)."
  },
  {
   "property": "C41",
   "status": "proved",
   "theorems": [
    "c41_distance_is_a_metric",
    "c41_zero_scale_is_blind",
    "c41_rescaled_distance_is_a_metric",
    "c41_rescaled_distance_value"
   ],
   "note": "Both distances; the exact separation hypothesis is shown necessary."
  },
  {
   "property": "C42",
   "status": "partial",
   "theorems": [
    "c42_chain",
    "c42_passed_through",
    "c42_parameter_count",
    "c42_constant_outcomes_refuted",
    "c42_constant_outcomes_honest"
   ],
   "note": "Chain, base, underlying model, pass-through of outcomes/validity and parameter count proved for every stack. The claim that constant outcome count is inherited honestly is refuted (the derived class does not forward the property), with a positive theorem for stacks whose wrappers do."
  },
  {
   "property": "C43",
   "status": "partial",
   "theorems": [
    "c43_join_then_separate",
    "c43_separate_then_join",
    "c43_empty_arrays_refuted",
    "c43_length_mismatch_rejected"
   ],
   "note": "Both round trips proved for non-empty arrays; an array without elements joins but separating it raises ValueError (refuted)."
  },
  {
   "property": "C44",
   "status": "proved",
   "theorems": [
    "c44_to_simplex_is_a_probability_vector",
    "c44_round_trip",
    "c44_round_trip_back",
    "c44_origin_is_uniform",
    "c44_empty_vector"
   ],
   "note": "All lengths, all real vectors; also the origin maps to the uniform vector. numpy's removed alias np.float in from_simplex is read as float."
  },
  {
   "property": "C45",
   "status": "proved",
   "theorems": [
    "c45_reads_back",
    "c45_injective",
    "c45_same_print_close",
    "c45_recursion_stops"
   ],
   "note": "Strings are modelled; a separate reader recovers the fields. Decimal seconds are rounded to nearest with ties up (Python: to even)."
  },
  {
   "property": "C46",
   "status": "proved",
   "theorems": [
    "c46_each_element_once",
    "c46_order_of_first_appearance"
   ],
   "note": "For element types whose == is equality and which are hashable."
  },
  {
   "property": "C47",
   "status": "partial",
   "theorems": [
    "c47_estimate_range",
    "c47_increasing",
    "c47_error_bound",
    "c47_error_vanishes",
    "c47_no_data_refuted"
   ],
   "note": "Proved whenever N + 2h > 0; N = h = 0 gives 0/0 (refuted there)."
  },
  {
   "property": "C48",
   "status": "proved",
   "theorems": [
    "c48_affine_in_the_draw",
    "c48_inside_the_box",
    "c48_constructor",
    "c48_constant"
   ],
   "note": "Proved for every list of ranges, row number and draw in [0,1): each coordinate is low + draw*(high-low), lies in [low, high] (strictly below high when low < high) and equals low at draw 0. The constructor takes one pair or a list of rows and raises IndexError on a row shorter than two. The upper edge is not reached because NumPy draws are below 1."
  },
  {
   "property": "C49",
   "status": "partial",
   "theorems": [
    "c49_shape",
    "c49_shape_or_postselection_fails",
    "c49_product_concatenates_columns",
    "c49_mixture_takes_rows_from_components",
    "c49_discrete_uniform_refuted",
    "c49_product_of_bits_refuted",
    "c49_empty_mixture_sample_refuted",
    "c49_mixture_constructor"
   ],
   "note": "Proved by induction over arbitrarily nested documented distributions for n > 0: the shape is (n, n_rvs) or postselection raised RuntimeError; products concatenate factor rows; mixtures are a permutation of component blocks whose sizes sum to n. Refuted: DiscreteUniformDistribution.sample returns shape (n,) (so products of them are one-index arrays of all draws in sequence), and MixtureDistribution.sample(0) raises ValueError. The mixture constructor's parametrised form (one class plus dist_args) is treated in C117."
  },
  {
   "property": "C50",
   "status": "proved",
   "theorems": [
    "c50_first_valid_proposals",
    "c50_all_valid",
    "c50_error",
    "c50_success",
    "c50_postselected_distribution"
   ],
   "note": "Proved for every stream of answers of the wrapped distribution, every validity predicate, n and maxiters: success returns for each index its first valid proposal; RuntimeError happens exactly when some index has no valid proposal after maxiters rounds; also stated for the class wrapping any documented distribution."
  },
  {
   "property": "C51",
   "status": "partial",
   "theorems": [
    "c51_positive_totals",
    "c51_negative_totals_refuted",
    "c51_entries_keep_their_sign",
    "c51_zero_total",
    "c51_distribution"
   ],
   "note": "Proved for positive totals. Refuted for every negative total: the factor sign(total) makes the row sum to minus desired_total. A zero total gives NaN."
  },
  {
   "property": "C52",
   "status": "proved",
   "theorems": [
    "c52_beta_moments_of_shapes",
    "c52_beta_requested_moments",
    "c52_beta_round_trip",
    "c52_beta_moments_round_trip",
    "c52_gamma_moments_of_shapes",
    "c52_gamma_requested_moments",
    "c52_gamma_round_trip",
    "c52_betabin_is_a_distribution",
    "c52_betabin_moments_of_shapes",
    "c52_betabin_round_trip",
    "c52_betabin_requested_moments",
    "c52_betabin_single_trial",
    "c52_arguments"
   ],
   "note": "Beta-binomial moments are proved from the finite outcome sums (Vandermonde and absorption identities). Beta and gamma moments are compared with the textbook moment formulas (ratios of rising factorials), which are specification, not derived from the densities. Admissibility conditions are stated; a beta-binomial with one trial has no inverse, which is shown."
  },
  {
   "property": "C53",
   "status": "partial",
   "theorems": [
    "c53_what_is_sampled",
    "c53_only_at_the_defaults_partial",
    "c53_refuted"
   ],
   "note": "Refuted: the class samples mu + sigma*exp(z). It equals exp(mu + sigma z) for all z exactly when mu = 0 and sigma = 1."
  },
  {
   "property": "C54",
   "status": "proved",
   "theorems": [
    "c54_experiment_from_distinct_particles",
    "c54_runtime_error_iff",
    "c54_runtime_error_any_distance",
    "c54_infinite_distance_refuted",
    "c54_default",
    "c54_uninitialised_fields_refuted",
    "c54_scalar_field_needs_one_parameter",
    "c54_no_iterations"
   ],
   "note": "Proved for every distance function with non-negative finite values, every draw stream, dtype and option. RuntimeError exactly when all maxiters pairs are at distance 0. Side findings, also proved: fields neither set by the heuristic nor by other_fields are uninitialised memory; a scalar inversion field refuses particles with several parameters; maxiters = 0 raises UnboundLocalError."
  },
  {
   "property": "C55",
   "status": "partial",
   "theorems": [
    "c55_plain_number",
    "c55_time_field",
    "c55_succeeds",
    "c55_follows_the_record",
    "c55_default_other_fields_refuted"
   ],
   "note": "Proved for histories of any length and for a named time field with other_fields given. Refuted: a time field with the default other_fields=None raises AttributeError."
  },
  {
   "property": "C56",
   "status": "partial",
   "theorems": [
    "c56_best_so_far_partial",
    "c56_unstored",
    "c56_null_refuted",
    "c56_null_forever",
    "c56_ncg_flat_refuted",
    "c56_nan_refuted",
    "c56_callable_guess_refuted",
    "c56_constructor",
    "c56_least_risk_and_cost",
    "c56_least_risk_times_cost"
   ],
   "note": "Proved for histories of any length with CG and NELDER_MEAD when the optimizer reports the objective at its point and no value is NaN. Refuted for NULL (no cost is ever stored, so the last guess wins), for NCG after the flat-gradient fallback (TypeError in Python 3), and after a NaN cost (never replaced). Callable guesses always raise TypeError, Heuristic guesses NotImplementedError. SciPy's optimizers are replies supplied from outside."
  },
  {
   "property": "C57",
   "status": "proved",
   "theorems": [
    "c57_parallel_equals_serial",
    "c57_serial_branch",
    "c57_no_view",
    "c57_lost_engine",
    "c57_default_threshold",
    "c57_even_split"
   ],
   "note": "Proved for every entrywise serial likelihood (the Model interface: entry (o, m, e) depends only on o, m, e), every engine count of at least one, threshold, array and completion order. An engine that never delivers makes the call fail (c57_lost_engine); pickling is not modelled."
  },
  {
   "property": "C58",
   "status": "partial",
   "theorems": [
    "c58_serial_branch_partial",
    "c58_no_view",
    "c58_one_engine",
    "c58_split_by_models_refuted",
    "c58_split_by_models_blocks",
    "c58_uneven_split_refuted",
    "c58_split_by_experiments_refuted"
   ],
   "note": "Proved on the serial branch and for one engine. Refuted for two or more engines: results are concatenated along axis 0 (models) or axis 1 (experiments), one axis too low, so the shape is wrong for every input that does not raise, and unequal chunks raise ValueError."
  },
  {
   "property": "C59",
   "status": "proved",
   "theorems": [
    "c59_gpu_equals_cpu",
    "c59_same_validity"
   ],
   "note": "Proved for every schedule that runs each work item once and every initial buffer content. Reals replace float32."
  },
  {
   "property": "C60",
   "status": "proved",
   "theorems": [
    "c60_gell_mann",
    "c60_gell_mann_independent"
   ],
   "note": "Every dimension d >= 1; the program's plane assignments are modelled in order and their index arithmetic proved to hit every plane exactly once. Dimension 0 raises IndexError."
  },
  {
   "property": "C61",
   "status": "proved",
   "theorems": [
    "c61_tensor_product",
    "c61_tensor_elements",
    "c61_pauli",
    "c61_pauli_one",
    "c61_tensor_distribution_refuted"
   ],
   "note": "Any non-empty list of tomographic factors; pauli_basis(n) for every n >= 1 (n = 0 raises TypeError). c61_tensor_distribution_refuted: TensorProductDistribution passes a generator and its constructor always raises AttributeError."
  },
  {
   "property": "C62",
   "status": "proved",
   "theorems": [
    "c62_params_roundtrip",
    "c62_state_roundtrip",
    "c62_born",
    "c62_diffusive_born",
    "c62_covariance_superop"
   ],
   "note": "Round trips and Born rule for every basis meeting the stated hypotheses; also the covariance superoperator."
  },
  {
   "property": "C63",
   "status": "proved",
   "theorems": [
    "c63_unit_trace",
    "c63_one_row_each",
    "c63_density",
    "c63_density_fixed",
    "c63_accepts",
    "c63_validity",
    "c63_diffusion_raw",
    "c63_diffusion",
    "c63_diffusion_components",
    "c63_diffusion_density"
   ],
   "note": "Unit trace for any eigensolver output, for calls that return; positivity, fixed points and acceptance assume the eigensolver returns a unitary eigendecomposition of Hermitian input (np.linalg.eig does not promise orthogonal vectors for degenerate eigenvalues). Noise is one real draw per model and parameter."
  },
  {
   "property": "C64",
   "status": "partial",
   "theorems": [
    "c64_lambda_range",
    "c64_extreme_point",
    "c64_mean",
    "c64_maximally_mixed_refuted",
    "c64_rank_deficient_refuted",
    "c64_beta_law",
    "c64_beta_mean",
    "c64_mean_of_any_law",
    "c64_mean_beta_draws",
    "c64_samples_are_states"
   ],
   "note": "Mean and positivity proved for minimal eigenvalue strictly between 0 and 1/d, for any law of the fiducial state with mean I/d and any independent law of the damping with the Beta(1,beta) mean (c64_mean_of_any_law), in particular for the Beta(1,beta) law itself as an integral over its quantile function (c64_beta_law, c64_beta_mean, c64_mean_beta_draws); every sample is a density operator. Refuted: the maximally mixed mean gives NaN, and rank-deficient means raise ValueError on sampling."
  },
  {
   "property": "C65",
   "status": "partial",
   "theorems": [
    "c65_terminates_partial",
    "c65_nontermination_refuted",
    "c65_fractional_step_refuted"
   ],
   "note": "Termination and the probability property hold when 1 <= samp_step <= min_samp (as integers); refuted otherwise: the constructor accepts samp_step > min_samp (all-ones data make the estimate exceed one, the error NaN, and the loop endless) and samp_step in (0,1), truncated to 0."
  },
  {
   "property": "C66",
   "status": "proved",
   "theorems": [
    "c66_central_exact",
    "c66_scalar_steps",
    "c66_zero_step_refuted",
    "c66_score_exact",
    "c66_score_steps"
   ],
   "note": "Exact for FiniteDifference.central and ScoreMixin.score (log-derivative); a zero step gives NaN (shown)."
  },
  {
   "property": "C67",
   "status": "partial",
   "theorems": [
    "c67_setter_refuted",
    "c67_constructor_partial"
   ],
   "note": "Refuted: the setter assigns its own property and always ends in RecursionError; the constructor argument can be read back."
  },
  {
   "property": "C68",
   "status": "partial",
   "theorems": [
    "c68_each_particle_once",
    "c68_heaviest",
    "c68_bayes",
    "c68_assertion",
    "c68_all_good_refuted"
   ],
   "note": "Partition, heaviest-first, good mass above the mixture ratio, min_good and Bayes form proved for every argsort and shuffle; refuted in that the method raises AssertionError exactly when every particle is good (mixture_ratio >= 1, or one particle)."
  },
  {
   "property": "C69",
   "status": "partial",
   "theorems": [
    "c69_construction",
    "c69_additive",
    "c69_adaptive",
    "c69_order",
    "c69_frame",
    "c69_caller_array_refuted",
    "c69_integer_array_refuted",
    "c69_monotone",
    "c69_keywords",
    "c69_misspelt_keyword_refuted"
   ],
   "note": "Additivity, order independence, adaptive matrix, monotonicity proved; privacy refuted (initial_bim is stored by reference and mutated; an integer array makes every update a TypeError); resample_a is silently dropped."
  },
  {
   "property": "C70",
   "status": "partial",
   "theorems": [
    "c70_rows",
    "c70_failure",
    "c70_error_policy",
    "c70_trials",
    "c70_error_policy_refuted"
   ],
   "note": "Row contents proved for every successful run; error policy restored whenever the call returns, refuted when a trial fails without allow_failures."
  },
  {
   "property": "C71",
   "status": "proved",
   "theorems": [
    "c71_ensemble_calls_a_possible_member"
   ],
   "note": "np.random.choice is modelled by its documented algorithm (checks, cumulative sum, right search)."
  },
  {
   "property": "C72",
   "status": "partial",
   "theorems": [
    "c72_sample_count",
    "c72_count_matches_iff",
    "c72_biased_refuted"
   ],
   "note": "N = min_samp + (r-1) samp_step proved; equals the r*samp_step samples drawn iff min_samp = samp_step; otherwise refuted with a witness."
  },
  {
   "property": "C73",
   "status": "proved",
   "theorems": [
    "c73_runs_once"
   ],
   "note": "One evaluation per success, no caching of failures."
  },
  {
   "property": "C74",
   "status": "proved",
   "theorems": [
    "c74_weights_stay_probability",
    "c74_never_fails",
    "c74_encloses_within_tolerance",
    "c74_centre_and_shape",
    "c74_slack_tends_to_one",
    "c74_exact_enclosure_refuted",
    "c74_stops",
    "c74_stops_and_encloses",
    "c74_no_enclosing_ellipsoid_is_smaller",
    "c74_minimal_volume_up_to_slack"
   ],
   "note": "For all spanning clouds and inverse routines: weights stay a distribution, no failure, the loop stops for every positive tolerance, the result encloses every point up to an explicit slack that tends to 1, and no enclosing ellipsoid is smaller, so the volume is minimal up to that slack. Exact enclosure at the default tolerance is false (c74_exact_enclosure_refuted); the claim speaks of the tolerance."
  },
  {
   "property": "C75",
   "status": "partial",
   "theorems": [
    "c75_pce_is_mahalanobis",
    "c75_pce_level_zero_refuted",
    "c75_mvee_tests_returned_matrix",
    "c75_hull_is_convex_hull_of_credible_particles",
    "c75_unknown_method_refuted",
    "c75_single_parameter_refuted",
    "c75_documented_ellipsoid_refuted"
   ],
   "note": "All three tests characterised; la.inv, Delaunay and chi2.ppf by their contracts. Refuted: documented orientation of the returned matrix, unknown method strings, level with zero quantile, one-parameter distributions."
  },
  {
   "property": "C76",
   "status": "proved",
   "theorems": [
    "c76_hull_region_is_convex",
    "c76_hull_mass",
    "c76_mvee_contains_credible_particles"
   ],
   "note": "Mass and convexity under the Delaunay contract; the ellipsoid statement carries the tolerance slack of C74."
  },
  {
   "property": "C77",
   "status": "partial",
   "theorems": [
    "c77_distance_value",
    "c77_metric_laws",
    "c77_two_updaters",
    "c77_second_argument_refuted"
   ],
   "note": "Value and metric laws proved when the first argument is an updater. Refuted when only the second argument carries the model: Q is then ignored."
  },
  {
   "property": "C78",
   "status": "partial",
   "theorems": [
    "c78_kl_partial",
    "c78_unit_bandwidth",
    "c78_disjoint_support",
    "c78_bandwidth_refuted"
   ],
   "note": "Holds for bandwidth one. In general the code differs from the divergence by a proved closed-form term; refuted for the default bandwidth 1/100 and Gaussian kernel."
  },
  {
   "property": "C79",
   "status": "partial",
   "theorems": [
    "c79_marginal_partial",
    "c79_normalised",
    "c79_default_range_loses_minimum",
    "c79_default_range_refuted",
    "c79_coinciding_particles_nan",
    "c79_resolution_one",
    "c79_pointwise"
   ],
   "note": "Equally spaced points, non-negativity and trapezoid integral proved for every range whose doubled upper end covers the particles, every value pinned down as a difference quotient of the piecewise linear distribution function; normalised on a range strictly containing the particles. Refuted for the default range (weight at the smallest location is lost) and for coinciding particles (NaN). Smoothing is C121."
  },
  {
   "property": "C80",
   "status": "partial",
   "theorems": [
    "c80_mesh_value",
    "c80_square_mesh_partial",
    "c80_mesh_refuted"
   ],
   "note": "Exact value of every entry proved; the documented orientation is refuted (square meshes are transposed, only the diagonal is right)."
  },
  {
   "property": "C81",
   "status": "partial",
   "theorems": [
    "c81_metric_in_unit_interval",
    "c81_explained_share_refuted",
    "c81_no_variance_nan"
   ],
   "note": "Metric lies in the unit interval for positive total. Refuted: it is not the explained share of the particle variance, because cluster moments use un-normalised weights, and zero variance silently gives NaN."
  },
  {
   "property": "C82",
   "status": "proved",
   "theorems": [
    "c82_value",
    "c82_symmetric",
    "c82_uniform",
    "c82_decreasing",
    "c82_zero_weight",
    "c82_power_zero"
   ],
   "note": "Zero weights are covered separately: infinite or NaN distances."
  },
  {
   "property": "C83",
   "status": "proved",
   "theorems": [
    "c83_always_canonical",
    "c83_resample_canonical",
    "c83_flag_off"
   ],
   "note": "P is arbitrary; time-step hypothesis is needed because smc.py does not canonicalise after update_timestep. only_params resets canonicalise only the selected columns and are excluded."
  },
  {
   "property": "C84",
   "status": "proved",
   "theorems": [
    "c84_single_call",
    "c84_history",
    "c84_prediction"
   ],
   "note": "Counter is the base class call_count of the updated model, advanced by Model.likelihood."
  },
  {
   "property": "C85",
   "status": "proved",
   "theorems": [
    "c85_membership",
    "c85_nan_rejected",
    "c85_example_point",
    "c85_example_point_refuted"
   ],
   "note": "With both bounds at +inf the only member is infinite and the example point 0 is outside: c85_example_point_refuted."
  },
  {
   "property": "C86",
   "status": "proved",
   "theorems": [
    "c86_zero_mean",
    "c86_fixed_diagonal",
    "c86_fixed_dense",
    "c86_learned_diagonal",
    "c86_learned_dense",
    "c86_estimate"
   ],
   "note": "Cholesky correctness and unit-covariance noise are hypotheses (external numerics)"
  },
  {
   "property": "C87",
   "status": "proved",
   "theorems": [
    "c87_normal",
    "c87_gamma",
    "c87_truncated",
    "c87_uniform",
    "c87_slanted",
    "c87_multivariate_normal",
    "c87_different_samples"
   ],
   "note": "moments of the underlying unit draws are hypotheses"
  },
  {
   "property": "C88",
   "status": "partial",
   "theorems": [
    "c88_names_extend",
    "c88_base_names_first",
    "c88_base_part_valid",
    "c88_hyper_valid",
    "c88_walk_valid",
    "c88_two_outcome_wrappers",
    "c88_varying_models_refused",
    "c88_multinomial_outcomes_refuted",
    "c88_differentiable",
    "c88_random_walk"
   ],
   "note": "multinomial n_outcomes refuted (NameError)"
  },
  {
   "property": "C89",
   "status": "proved",
   "theorems": [
    "c89_visibility",
    "c89_no_dephasing",
    "c89_fair_limit",
    "c89_detuning",
    "c89_valid_frequencies",
    "c89_noisy_coin",
    "c89_noiseless_coin",
    "c89_coin_is_die",
    "c89_loaded_die",
    "c89_die_mixture"
   ],
   "note": "floating-point rounding not modelled"
  },
  {
   "property": "C90",
   "status": "partial",
   "theorems": [
    "c90_density_operator",
    "c90_real_ginibre",
    "c90_rank_check",
    "c90_rank_unchecked_refuted",
    "c90_haar",
    "c90_haar_dimension",
    "c90_ginibre_uniform",
    "c90_ginibre_dimension",
    "c90_instances",
    "c90_hilbert_schmidt_refuted",
    "c90_shape"
   ],
   "note": "HilbertSchmidtUniform cannot be instantiated and GinibreReditDistribution does not check its rank (refuted)"
  },
  {
   "property": "C91",
   "status": "partial",
   "theorems": [
    "c91_grid",
    "c91_documented_coordinate_refuted",
    "c91_table",
    "c91_inverse_transform",
    "c91_monotone",
    "c91_unnormalised",
    "c91_samples"
   ],
   "note": "the coordinate in compactspace's docstring is the logistic density, which takes every value twice, while the grid is equally spaced in the logistic CDF (c91_documented_coordinate_refuted)"
  },
  {
   "property": "C92",
   "status": "partial",
   "theorems": [
    "c92_normal",
    "c92_multivariate",
    "c92_uniform",
    "c92_uniform_single_refuted",
    "c92_postselected",
    "c92_outer_product",
    "c92_initial_information"
   ],
   "note": "UniformDistribution returns 12/width^2 in another shape for a batch of one model (c92_uniform_single_refuted); everything else proved"
  },
  {
   "property": "C93",
   "status": "proved",
   "theorems": [
    "c93_born",
    "c93_pauli",
    "c93_qubits_only",
    "c93_stabilizer",
    "c93_record",
    "c93_no_other_fields"
   ],
   "note": "QuTiP eigenvectors are arbitrary unit vectors; random choices are arguments; conversion of the operator list by np.random.choice is not modelled"
  },
  {
   "property": "C94",
   "status": "proved",
   "theorems": [
    "c94_commutation",
    "c94_defined",
    "c94_orthogonal",
    "c94_group",
    "c94_unitary"
   ],
   "note": "floating-point rounding not modelled"
  },
  {
   "property": "C95",
   "status": "partial",
   "theorems": [
    "c95_process",
    "c95_preparation",
    "c95_product_pauli_refuted",
    "c95_product_stabilizer"
   ],
   "note": "ProductHeuristic with RandomPauliHeuristic always raises ValueError because that class takes its dimension from the channel model (c95_product_pauli_refuted); preparation enters transposed"
  },
  {
   "property": "C96",
   "status": "partial",
   "theorems": [
    "c96_best",
    "c96_succeeds",
    "c96_no_draws",
    "c96_diffusive_refuted"
   ],
   "note": "with DiffusiveTomographyModel every call raises ValueError (c96_diffusive_refuted); k = 0 raises"
  },
  {
   "property": "C97",
   "status": "partial",
   "theorems": [
    "c97_routing",
    "c97_missing_is_an_error",
    "c97_unknown_field_is_an_error",
    "c97_positions_and_names_agree",
    "c97_counts_are_kept",
    "c97_numbers_are_kept",
    "c97_fractions_are_dropped",
    "c97_scalar_types",
    "c97_string_dtype_refuted",
    "c97_record_dtype_refuted"
   ],
   "note": "a dtype given as a string (which scalar models of the package declare) or as an np.dtype record makes the call fail (c97_string_dtype_refuted, c97_record_dtype_refuted); negative numbers cast to unsigned are not modelled faithfully"
  },
  {
   "property": "C98",
   "status": "partial",
   "theorems": [
    "c98_one_datum_at_a_time",
    "c98_precession_is_bayes",
    "c98_precession_range",
    "c98_freq_min_refuted",
    "c98_single_line_refuted",
    "c98_other_types",
    "c98_benchmarking_is_bayes"
   ],
   "note": "closed form for runs without a resampling step, otherwise one update per datum in order (c98_one_datum_at_a_time); freq_min does not bound the estimate (c98_freq_min_refuted); a text of one line raises IndexError (c98_single_line_refuted)"
  },
  {
   "property": "C99",
   "status": "partial",
   "theorems": [
    "c99_samples",
    "c99_single_sample",
    "c99_tuple_size_refuted",
    "c99_law",
    "c99_simulated_counts",
    "c99_simulation_matches_likelihood",
    "c99_counts_in_domain",
    "c99_nothing_to_simulate"
   ],
   "note": "Counts, law, domain and agreement with the likelihood proved for all inputs. Refuted: the documented tuple sizes always end in ValueError."
  },
  {
   "property": "C100",
   "status": "partial",
   "theorems": [
    "c100_readings",
    "c100_pairs_uncorrelated",
    "c100_repetitions_share_noise_refuted",
    "c100_repetitions_correlated_refuted"
   ],
   "note": "Readings and noise across models and experiments proved. Refuted: all repetitions share one normal draw."
  },
  {
   "property": "C101",
   "status": "partial",
   "theorems": [
    "c101_within_half_the_uncertainty",
    "c101_within_five_uncertainties",
    "c101_uncertainty_vanishes",
    "c101_digits_refuted",
    "c101_typeset",
    "c101_typeset_refuted",
    "c101_zero_uncertainty",
    "c101_exact_number_refuted"
   ],
   "note": "Error bounds, exactness and typesetting proved where they hold; for ordinary values the printed uncertainty vanishes in part of every decade (c101_uncertainty_vanishes, c101_digits_refuted), negative or two-digit exponents are not typeset (c101_typeset_refuted), and zero uncertainty prints six decimals only (c101_exact_number_refuted)."
  },
  {
   "property": "C102",
   "status": "partial",
   "theorems": [
    "c102_passes_iff",
    "c102_relative",
    "c102_bound_refuted",
    "c102_negative_refuted",
    "c102_zero"
   ],
   "note": "Exact condition proved for positive references and zero; the announced bound of half a unit is refuted, and negative references agree with everything (c102_negative_refuted)."
  },
  {
   "property": "C103",
   "status": "proved",
   "theorems": [
    "c103_binomial_counts",
    "c103_multinomial_counts"
   ],
   "note": "Updates without resample check, evidence at least machine epsilon at every step, static models (update_timestep is the identity)."
  },
  {
   "property": "C104",
   "status": "proved",
   "theorems": [
    "c104_records_are_a_distribution",
    "c104_normalizations_multiply_to_the_prediction",
    "c104_average_posterior_is_prior",
    "c104_average_mean",
    "c104_total_covariance",
    "c104_variance_shrinks"
   ],
   "note": "Updates without resample check; a data record of positive predicted probability must keep the evidence above machine epsilon at each step. Mean and covariance for static models, weights also for drifting particles."
  },
  {
   "property": "C105",
   "status": "proved",
   "theorems": [
    "c105_odds",
    "c105_other_particles_vanish",
    "c105_averages_converge",
    "c105_mean_and_covariance_converge"
   ],
   "note": "Without resampling, static models, likelihoods bounded below by machine epsilon on the possible outcomes, the true particle being one of the cloud."
  },
  {
   "property": "C106",
   "status": "partial",
   "theorems": [
    "c106_likelihood",
    "c106_likelihood_is_a_probability",
    "c106_simulated_entries",
    "c106_simulated_law",
    "c106_agreement",
    "c106_simulation_refuted"
   ],
   "note": "The likelihood formula, its range, the entry-by-entry meaning of the simulation and its limiting law are proved. The claim itself is false: simulation picks the first state with probability (1+lam)/2 while the likelihood uses lam; c106_agreement gives the exact condition for agreement and c106_simulation_refuted a witness. The uniform variate is modelled as equally spaced and the integer as equiprobable. random_integers and the choice of state are as in the code; HTCircuitModel cannot be instantiated (C107)."
  },
  {
   "property": "C107",
   "status": "partial",
   "theorems": [
    "c107_born_rule",
    "c107_probability",
    "c107_several_experiments_refuted",
    "c107_rebit",
    "c107_rebit_visibility_refuted",
    "c107_multi",
    "c107_unusable_refuted"
   ],
   "note": "Born rule and range proved for one experiment (qubit), formula for rebit and multi-qubit, shape for multi-qubit. False in general: several experiments pair up or raise ValueError for the qubit model, the rebit model ignores visibility, the classes leave abstract methods open so none can be instantiated, and pr0_to_likelihood_array is not an attribute of Model."
  },
  {
   "property": "C108",
   "status": "proved",
   "theorems": [
    "c108_root_is_psd",
    "c108_exact",
    "c108_nearest"
   ],
   "note": "For every dimension. eigh enters through its contract (orthonormal complete eigenvectors); positivity needs no contract. check_finite and rounding are not modelled."
  },
  {
   "property": "C109",
   "status": "proved",
   "theorems": [
    "c109_outer_products",
    "c109_contracts",
    "c109_value",
    "c109_unit_balls",
    "c109_slices"
   ],
   "note": "Volume is characterised by Cavalieri's principle (slices along the first coordinate, integral by antiderivatives) and the value 1 in dimension 0. Contracts: gamma at half-integers, det of the principal root is the root of the elimination determinant (c109_contracts derives it from multiplicativity), la.inv."
  },
  {
   "property": "C110",
   "status": "proved",
   "theorems": [
    "c110_averages_are_kept",
    "c110_rounds_are_a_distribution",
    "c110_total_covariance",
    "c110_resampled_mean",
    "c110_resampled_covariance",
    "c110_liu_west_mean",
    "c110_liu_west_total_covariance",
    "c110_liu_west_variance"
   ],
   "note": "Static particles, canonicalisation that does nothing, every outcome either impossible or at least machine epsilon likely, all proposals accepted in the first pass (postselection that rejects would bias). A uniform number enters only through the slot of the weights it falls into; the Riemann integral is shown to be such a law. c110_resampled_covariance shows that the cloud's own covariance shrinks by 1 - 1/n on average (the documented preservation holds for the law of a new particle, C24)."
  },
  {
   "property": "C111",
   "status": "proved",
   "theorems": [
    "c111_best_particle",
    "c111_total_is_the_best_score",
    "c111_posterior_attains_it",
    "c111_only_the_posterior_attains_it"
   ],
   "note": "Records of regular updates (the zero-weight branches not taken), no resampling in between; candidates are distributions on particles that had prior weight and positive likelihood of the record."
  },
  {
   "property": "C112",
   "status": "proved",
   "theorems": [
    "c112_smallest",
    "c112_nested",
    "c112_equal_weights"
   ],
   "note": "Levels below one (C18 shows the code fails at level one); ties among weights are covered since any ascending argsort is allowed."
  },
  {
   "property": "C113",
   "status": "partial",
   "theorems": [
    "c113_one_shape",
    "c113_entries_from_the_right",
    "c113_empty_axis_refuted",
    "c113_one_index"
   ],
   "note": "An axis of length zero breaks alignment (c113_empty_axis_refuted: [-0:] keeps everything); c113_one_index ties the array model to the one-index form used in the performance loop (C70)."
  },
  {
   "property": "C114",
   "status": "proved",
   "theorems": [
    "c114_records_exist_iff_names_are_free",
    "c114_fields",
    "c114_single_parameter",
    "c114_clash_refuted",
    "c114_timer",
    "c114_running_timer",
    "c114_failed_block_refuted"
   ],
   "note": "NumPy's rule that record field names are distinct is part of the model; c114_failed_block_refuted: a block that raises never stops its timer."
  },
  {
   "property": "C115",
   "status": "proved",
   "theorems": [
    "c115_bar_changes_nothing",
    "c115_ipython_bar",
    "c115_closed_widget",
    "c115_work_before_a_failure",
    "c115_finished_in_every_case",
    "c115_what_is_reported",
    "c115_descriptions",
    "c115_full_bar_refuted",
    "c115_broken_bar_masks_refuted"
   ],
   "note": "Creating the bar is assumed to succeed. c115_full_bar_refuted: the bar never reaches its maximum; c115_broken_bar_masks_refuted: a bar that fails masks successful trials."
  },
  {
   "property": "C116",
   "status": "proved",
   "theorems": [
    "c116_ellipse_is_mahalanobis_ball",
    "c116_long_axis_first",
    "c116_rebit_ellipse",
    "c116_coverage",
    "c116_default_axes",
    "c116_default_axes_onto",
    "c116_default_axes_pauli_refuted"
   ],
   "note": "The eigensolver is an arbitrary orthonormal eigendecomposition; signed zeros of arctan2 are not distinguished; colours and labels are left out. Also proved: with the Gell-Mann basis the default axes show the Z and X coordinates of rebits, filling the drawn circle; with the Pauli basis they do not show Z (c116_default_axes_pauli_refuted)."
  },
  {
   "property": "C117",
   "status": "partial",
   "theorems": [
    "c117_class_form_is_list_form",
    "c117_rows_reach_the_class",
    "c117_no_positional_arguments_refuted",
    "c117_wrong_number_of_rows",
    "c117_wrong_list",
    "c117_rows_are_independent_draws",
    "c117_unshuffled_in_order",
    "c117_one_by_one",
    "c117_law",
    "c117_rows_independent",
    "c117_unshuffled"
   ],
   "note": "c117_no_positional_arguments_refuted: the documented None for classes without positional arguments always raises AttributeError. c117_law and c117_rows_independent give the law for all components that draw their rows one by one (c117_one_by_one: every documented one except postselected ones, nested mixtures and DiscreteUniform), over component laws with finitely many values"
  },
  {
   "property": "C118",
   "status": "proved",
   "theorems": [
    "c118_generated_is_a_distribution",
    "c118_true_weight_rarely_dips",
    "c118_inverse_weight_does_not_grow",
    "c118_predictions_merge",
    "c118_few_surprises",
    "c118_overlap",
    "c118_wrong_particle_decays",
    "c118_exponential_rate",
    "c118_posterior_average_decays",
    "c118_expected_loss_decays",
    "c118_confidence"
   ],
   "note": "Assumes updates without resampling and, as in C104/C105, that no record possible under the truth meets an evidence below the zero threshold; with moving particles (timestep) unless stated static."
  },
  {
   "property": "C119",
   "status": "partial",
   "theorems": [
    "c119_cumsum_monotone",
    "c119_cumsum_error",
    "c119_ancestor",
    "c119_ancestor_index_error_refuted",
    "c119_ancestor_failure_chance",
    "c119_ancestor_law",
    "c119_sample",
    "c119_sample_zero_weight_refuted",
    "c119_credible",
    "c119_credible_level_refuted",
    "c119_simulated_outcome",
    "c119_impossible_outcome_refuted",
    "c119_impossible_outcome_chance"
   ],
   "note": "Refuted as stated: with ten weights 1/10 and the largest draw 1 - 2^-53 the Liu-West resampler raises IndexError, sample can return a last particle of weight zero, a credible level of 1 - 2^-53 raises IndexError, and the simulator returns an impossible first outcome (c119_*_refuted). Proved: order and error of cumulative sums, correct behaviour for every draw below the last cumulative sum, and the chance of the other draws. Overflow not modelled."
  },
  {
   "property": "C120",
   "status": "proved",
   "theorems": [
    "c120_sum",
    "c120_weights",
    "c120_total",
    "c120_not_taken_for_zero",
    "c120_below_eps",
    "c120_run",
    "c120_normalisation",
    "c120_no_underflow",
    "c120_ness",
    "c120_mean"
   ],
   "note": "Likelihood values are taken as the model returns them; overflow not modelled; c120_run and c120_normalisation assume no underflow (sufficient condition: c120_no_underflow) and no resampling."
  },
  {
   "property": "C121",
   "status": "partial",
   "theorems": [
    "c121_off",
    "c121_smoothed",
    "c121_conserved",
    "c121_small",
    "c121_zero_range",
    "c121_coinciding",
    "c121_integral_refuted",
    "c121_width_refuted"
   ],
   "note": "Proved for every input: an average over a Gaussian of standard deviation smoothing*res/(res-1) (mirrored at the ends, cut off after about four standard deviations), non-negative, with the same sum over the grid, within the range of the plain values and with no larger sum of squares; tiny widths and widths <= 0 change nothing. Refuted: the documented width (off by the factor res/(res-1)) and conservation of the trapezoid integral (it changes by the end values, exact formula proved). A range of length zero raises OverflowError. scipy.ndimage.gaussian_filter1d is modelled from its documentation."
  },
  {
   "property": "C122",
   "status": "partial",
   "theorems": [
    "c122_error",
    "c122_variance_floor",
    "c122_single",
    "c122_psd_refuted",
    "c122_symmetry_refuted"
   ],
   "note": "Error bound for every entry, any signs and any order of summation, relative to the second moments; a computed variance is never below minus that error; a single particle has covariance exactly zero. Refuted: particles 1 and 1+3/2^52 have computed variance -2^-52 (warning, NaN correlation, and a Liu-West step without any noise), and the matrix is not symmetric for two particles with weights 3/4 and 1/4. No overflow, no fused multiply-add."
  },
  {
   "property": "C123",
   "status": "proved",
   "theorems": [
    "c123_prediction_is_unbiased",
    "c123_posterior_average",
    "c123_total_likelihood",
    "c123_averages_settle",
    "c123_mean_settles",
    "c123_covariance_settles",
    "c123_finite_priors"
   ],
   "note": "Explicit constants (relative spread of the likelihoods of the prefixes of the record) and rate one over the number of particles. Chances are values of a positive linear functional on bounded functions of the draws with pairwise independent particles; c123_finite_priors builds it for every prior with finitely many values. Particles may move one by one between data. Runs that meet the zero-weight rules are part of the bound. No resampling (C110 covers its unbiasedness)."
  },
  {
   "property": "C124",
   "status": "partial",
   "theorems": [
    "c124_simple_inversion",
    "c124_simple_precession",
    "c124_unknown_t2",
    "c124_coin",
    "c124_noisy_coin",
    "c124_die",
    "c124_randomized_benchmarking",
    "c124_interleaved_benchmarking",
    "c124_tomography",
    "c124_flat_parameters",
    "c124_score_simple_inversion",
    "c124_score_simple_precession",
    "c124_score_coin",
    "c124_score_randomized_benchmarking",
    "c124_score_interleaved_benchmarking",
    "c124_fisher_information",
    "c124_default_timestep",
    "c124_no_outcomes",
    "c124_wrong_width",
    "c124_width_check_refuted"
   ],
   "note": "Exact arithmetic on shape/index arrays (Nd.v). The die needs outcomes in 0..d-1 and the tomography model measurement vectors of the model's dimension. c124_width_check_refuted records the one hole in the shape checks: SimpleInversionModel accepts a parameter array with one column per experiment and pairs column k with experiment k."
  },
  {
   "property": "C125",
   "status": "proved",
   "theorems": [
    "c125_hypothetical_update",
    "c125_bayes_risk",
    "c125_expected_information_gain"
   ],
   "note": "For any like_arr meeting the documented layout (C124 shows the built-in models do). Risk and information gain need at least two outcomes, as the last one is obtained by subtraction; agreement is with SmcModel.hypothetical_update and RiskModel.bayes_risk1/eig1."
  },
  {
   "property": "C126",
   "status": "proved",
   "theorems": [
    "c126_binomial",
    "c126_binomial_invalid",
    "c126_multinomial",
    "c126_hyperparameterized",
    "c126_hyperparameterized_invalid"
   ],
   "note": "For any underlying likelihood array with the documented layout. scipy's binomial pmf, gammaln and normal pdf are taken to be exact. c126_*_invalid are the assertion failures."
  },
  {
   "property": "C127",
   "status": "partial",
   "theorems": [
    "c127_first_outcome_first_experiment",
    "c127_single_update",
    "c127_zero_weight_test_refuted"
   ],
   "note": "Full statement false: c127_zero_weight_test_refuted shows that with several outcomes or experiments the zero-weight test sums over all of them, so a first pair impossible for every particle passes and all-zero weights are stored. c127_first_outcome_first_experiment is the exact behaviour, c127_single_update the documented use."
  },
  {
   "property": "C128",
   "status": "proved",
   "theorems": [
    "c128_no_early_end",
    "c128_posterior_average",
    "c128_total_likelihood",
    "c128_averages_converge",
    "c128_mean_converges",
    "c128_covariance_converges",
    "c128_liu_west",
    "c128_finite_priors",
    "c128_shrinking_refuted"
   ],
   "note": "error bound and convergence for every faithful resampler, Liu-West with a = 1, h = 0 shown faithful; c128_shrinking_refuted: with a = 0.98, h = 0 averages do not converge. Time steps are deterministic per particle; random draws enter as abstract expectation functionals (Riemann integral for the uniform)."
  },
  {
   "property": "C129",
   "status": "proved",
   "theorems": [
    "c129_total_likelihood",
    "c129_exactly_unbiased",
    "c129_unnormalised_average",
    "c129_overestimates_are_rare",
    "c129_liu_west",
    "c129_shrinking_refuted"
   ],
   "note": "for every unbiased and faithful resampler and any number of particles; Liu-West with a = 1, h = 0 shown unbiased; c129_shrinking_refuted: strictly biased with a = 0.98, h = 0. Random draws enter as abstract expectation functionals."
  },
  {
   "property": "C130",
   "status": "partial",
   "theorems": [
    "c130_order",
    "c130_refused",
    "c130_abstract",
    "c130_instances",
    "c130_library_partial",
    "c130_library_refuted",
    "c130_subclass",
    "c130_missing_method",
    "c130_one_sample_at_a_time",
    "c130_mixin_last_refuted",
    "c130_constructors",
    "c130_models_are_initialised",
    "c130_library_models"
   ],
   "note": "Six exported or documented classes cannot be instantiated (c130_library_refuted): HilbertSchmidtUniform, four legacy tomography models, UnstructuredFrequencyModel. Everything else is proved, for all programs extending the library. What constructors do besides continuing to other constructors, and their arguments, are not part of this model."
  },
  {
   "property": "C131",
   "status": "proved",
   "theorems": [
    "c131_total",
    "c131_any_region",
    "c131_credible_region",
    "c131_weights_are_calibrated",
    "c131_error_of_an_estimate",
    "c131_mean_is_best",
    "c131_only_the_mean_is_best",
    "c131_longer_studies_are_better",
    "c131_risk_is_least_error",
    "c131_least_risk_experiment"
   ],
   "note": "The truth is drawn from the initial cloud with its weights; nothing is resampled and no warning or error arises on a possible record (study). c131_longer_studies_are_better takes particles that do not move between experiments, c131_risk_is_least_error the conditions under which bayes_risk is exact (C13)."
  },
  {
   "property": "C132",
   "status": "partial",
   "theorems": [
    "c132_one_counting_model",
    "c132_declared_dtype",
    "c132_arrays_exist",
    "c132_clash_refuted",
    "c132_reads_by_name",
    "c132_experiments_arrive",
    "c132_multinomial_ignores_n_meas_refuted",
    "c132_precession_takes_records",
    "c132_missing_field",
    "c132_unused_time",
    "c132_rmfield",
    "c132_rmfield_undoes_counting"
   ],
   "note": "Proved as stated, except that MultinomialModel's likelihood does not look at n_meas at all (c132_multinomial_ignores_n_meas_refuted), and that a base model with a field n_meas of its own gives a dtype of which no array can be created, which the constructor does not notice (c132_clash_refuted). NumPy's behaviour on assigning records to a number field (ValueError) is the one test_models.py:188-196 expects; newer versions raise TypeError."
  },
  {
   "property": "C133",
   "status": "proved",
   "theorems": [
    "c133_one_experiment",
    "c133_information_range",
    "c133_useless_experiments",
    "c133_chain_rule",
    "c133_announced_is_gained",
    "c133_entropy_falls_on_average",
    "c133_speed_limit",
    "c133_guessing",
    "c133_experiments_needed",
    "c133_surprises_refuted"
   ],
   "note": "Exact real arithmetic, no resampling. The identity with the reported gains needs likelihoods of at least machine epsilon (below that expected_information_gain reports non-finite numbers, see C14); the identity with the mutual information does not. c133_surprises_refuted shows that monotone entropy per update is false."
  },
  {
   "property": "C134",
   "status": "partial",
   "theorems": [
    "c134_sufficient_version",
    "c134_order",
    "c134_weaker_requirements",
    "c134_default_requirement",
    "c134_check_agrees",
    "c134_absent",
    "c134_the_module",
    "c134_suffix_passes",
    "c134_candidate_refuted",
    "c134_trailing_zero_refuted",
    "c134_silent_refuted",
    "c134_no_distutils_refuted",
    "c134_message_refuted",
    "c134_models_copy_refuted"
   ],
   "note": "Version strings are ASCII; LooseVersion is modelled from its documented regular expression. Proved for dotted version numbers; refuted beyond them: release candidates pass (c134_candidate_refuted), trailing zeros matter, numbers against letters raise TypeError out of get_qutip_module, without distutils nothing is found, the message of require_qutip names a version that fails, and heisenberg_weyl_operators of tomography/models.py always raises."
  },
  {
   "property": "C135",
   "status": "partial",
   "theorems": [
    "c135_value",
    "c135_finite",
    "c135_integers",
    "c135_integers_refuted",
    "c135_significant_refuted",
    "c135_signs",
    "c135_matrix",
    "c135_repr",
    "c135_labels"
   ],
   "note": "The claim about integers missed by at most the tolerance is false on one side: int() truncates, so 1 - 5e-11 is displayed as 1.000 (c135_integers_refuted; c135_integers for the other side). Three decimals are not significant figures: 0.0014 is displayed as 0.001 (c135_significant_refuted). A negative imaginary part is displayed with both signs, 'a + -b i' (c135_signs). The reader of numbers and matrices is written in LtxSpec.v without the printer. Numbers are exact reals or infinities/NaN; negative zero is not distinguished."
  },
  {
   "property": "C136",
   "status": "partial",
   "theorems": [
    "c136_numbered",
    "c136_no_label",
    "c136_braces_refuted",
    "c136_gell_mann",
    "c136_subscript_refuted",
    "c136_tensor",
    "c136_tensor_distinct",
    "c136_tensor_distinct_refuted",
    "c136_pauli",
    "c136_scale_refuted",
    "c136_iterate",
    "c136_iterate_short",
    "c136_index",
    "c136_index_list",
    "c136_names",
    "c136_rebit_axes_refuted",
    "c136_dimension",
    "c136_iterate_tensor",
    "c136_iterate_pauli",
    "c136_iterate_gell_mann",
    "c136_field_refuted",
    "c136_index_other"
   ],
   "note": "Exceptions found and proved: a label text with a braced name (ordinary LaTeX) makes the constructor raise KeyError (c136_braces_refuted); subscripts carry no braces, so typeset only the first ten numbers are subscripts (c136_subscript_refuted); labels that contain a tensor sign themselves can collide (c136_tensor_distinct_refuted); the Pauli labels name matrices sqrt(2) times the elements (c136_scale_refuted); the default axes of rebit plots are labelled sigma_x and sigma_y (c136_rebit_axes_refuted). A text with a replacement field of its own raises IndexError (c136_field_refuted). Dimensions multiply and every tensor product iterates over all its elements. str.format is modelled for one positional argument with empty, named and doubled braces. The Qobj constructor called by __getitem__ is not modelled."
  },
  {
   "property": "C137",
   "status": "partial",
   "theorems": [
    "c137_unix_name",
    "c137_windows_name",
    "c137_elsewhere",
    "c137_one_platform",
    "c137_only_directories",
    "c137_directory_made",
    "c137_empty_appdata",
    "c137_saved_is_read",
    "c137_last_save_counts",
    "c137_other_files_kept",
    "c137_directories_kept",
    "c137_reading_keeps_files",
    "c137_no_file",
    "c137_modern_python_refuted",
    "c137_unreadable_refuted",
    "c137_failed_save_refuted",
    "c137_reading_makes_directory_refuted",
    "c137_file_in_the_way_refuted",
    "c137_no_appdata_refuted"
   ],
   "note": "Exceptions found and proved: SafeConfigParser is gone since Python 3.12, so that read_config always raises there (c137_modern_python_refuted); an unreadable file counts as empty (c137_unreadable_refuted); a failure while writing has already emptied the file (c137_failed_save_refuted); reading makes the directory (c137_reading_makes_directory_refuted); a file called .config makes reading find nothing and saving fail (c137_file_in_the_way_refuted); without APPDATA the file goes to a directory of that literal name (c137_no_appdata_refuted). Path names are compared as strings; drives, links and dots are not modelled."
  },
  {
   "property": "C138",
   "status": "partial",
   "theorems": [
    "c138_import",
    "c138_reported",
    "c138_interrupt",
    "c138_absent_partial",
    "c138_absent_refuted",
    "c138_functions",
    "c138_undecorated",
    "c138_library",
    "c138_extensions",
    "c138_single_inheritance",
    "c138_skipped_refuted"
   ],
   "note": "Exceptions found and proved: since Python 3.6 a missing package raises ModuleNotFoundError, whose name is not ImportError, so that every import logs an error (c138_absent_refuted); decorate_init gives UnknownT2Model the constructor of FiniteOutcomeModel as its own, so that with multiple inheritance a constructor that comes between the two is skipped (c138_skipped_refuted, c138_mixin). Classes derived by single inheritance, and all others without such a constructor, are covered. KeyboardInterrupt and the like are passed on (c138_interrupt)."
  },
  {
   "property": "C139",
   "status": "partial",
   "theorems": [
    "c139_mean",
    "c139_same_mean",
    "c139_same_meanfn",
    "c139_refused",
    "c139_stretched_refuted",
    "c139_same_covariance",
    "c139_no_warning",
    "c139_warning_refuted",
    "c139_outer",
    "c139_outer_row_refuted",
    "c139_outer_positive"
   ],
   "note": "Exceptions found and proved: a single weight, or a table with a single row, is stretched to the other's length instead of being refused (c139_stretched_refuted); weights that do not add up to one cause the warning without any numerical error (c139_warning_refuted); outer_product of an array with one row and two axes is the squared length (c139_outer_row_refuted)."
  },
  {
   "property": "C140",
   "status": "partial",
   "theorems": [
    "c140_values",
    "c140_numbered",
    "c140_reverse",
    "c140_reverse_name",
    "c140_inverse",
    "c140_inverse_numbered",
    "c140_repeated_refuted",
    "c140_keyword_refuted",
    "c140_reserved_refuted",
    "c140_library",
    "c140_designer"
   ],
   "note": "Exceptions found and proved: a repeated name keeps its last number only and the first then belongs to no name (c140_repeated_refuted); a keyword can take a number's name away (c140_keyword_refuted); the name reverse_mapping is lost (c140_reserved_refuted)."
  },
  {
   "property": "C141",
   "status": "partial",
   "theorems": [
    "c141_states_in_disc",
    "c141_states_in_circle",
    "c141_identity_axis_refuted",
    "c141_prior",
    "c141_prior_inside",
    "c141_posterior",
    "c141_posterior_inside",
    "c141_qutrit_refuted",
    "c141_default_true_state_refuted",
    "c141_prior_without_mean_refuted",
    "c141_modern_matplotlib_refuted",
    "c141_unknown_region_refuted",
    "c141_ellipse_refuted"
   ],
   "note": "The default true_state=None, a prior without a mean, matplotlib without axes.color_cycle and an unknown region contradict the natural reading (refuted); a qutrit and the error ellipse can leave the circle (refuted); matplotlib and the eigensolver are not modelled"
  },
  {
   "property": "C142",
   "status": "partial",
   "theorems": [
    "c142_slice",
    "c142_covariance",
    "c142_whole",
    "c142_covariance_index_refuted",
    "c142_no_mpltools",
    "c142_tick_labels_refuted",
    "c142_marginal",
    "c142_true_models_refuted",
    "c142_contour",
    "c142_contour_refuted",
    "c142_risk"
   ],
   "note": "A list of indices or one index always fails, given tick labels are not selected by the slice, further true models are ignored, the contour inherits the transposed mesh, and risk fails for experiments with several fields (refuted)"
  },
  {
   "property": "C143",
   "status": "partial",
   "theorems": [
    "c143_sizes",
    "c143_sizes_refuted",
    "c143_outcomes",
    "c143_every_value",
    "c143_endless_refuted",
    "c143_likelihood",
    "c143_simulate",
    "c143_update_timestep",
    "c143_canonicalize",
    "c143_score",
    "c143_fisher",
    "c143_domains",
    "c143_domain_of_none",
    "c143_models_valid",
    "c143_report",
    "c143_transposed_likelihood",
    "c143_transposed_simulate",
    "c143_transposed_timestep",
    "c143_timestep_refuted",
    "c143_simulate_array",
    "c143_shape_is_enough",
    "c143_mock",
    "c143_values_refuted",
    "c143_no_experiments",
    "c143_returns_nothing",
    "c143_verdict_refuted",
    "c143_unknown_type",
    "c143_assert_warns",
    "c143_assert_warns_exception",
    "c143_map_sync",
    "c143_map_async_refuted",
    "c143_integer_domain",
    "c143_real_domain",
    "c143_multinomial_domain",
    "c143_in_domain"
   ],
   "note": "Each test is proved equivalent to the meaning of passing it. Refuted parts: test_model returns None whatever the outcome (c143_verdict_refuted); an empty first domain makes the tests run forever (c143_endless_refuted); map_async always gives None (c143_map_async_refuted); with as many parameters as experiments a swapped update_timestep passes (c143_timestep_refuted); a likelihood constantly 7 passes (c143_values_refuted); without experiments two of the tested sizes coincide (c143_sizes_refuted)."
  },
  {
   "property": "C144",
   "status": "proved",
   "theorems": [
    "c144_conjugate",
    "c144_estimates",
    "c144_counts",
    "c144_count_history",
    "c144_risk",
    "c144_risk_array"
   ],
   "note": "Updates without resample check, static model, evidence at least machine epsilon at every step (implied by eps (a+b+n) <= a, b for single shots)."
  },
  {
   "property": "C145",
   "status": "proved",
   "theorems": [
    "c145_history",
    "c145_nested",
    "c145_min_n_ess_kept",
    "c145_liu_west"
   ],
   "note": "Evidence at least machine epsilon at every update; the resampler is any function that returns equal weights for as many particles (as LiuWestResampler does)."
  },
  {
   "property": "C146",
   "status": "proved",
   "theorems": [
    "c146_weights",
    "c146_averages",
    "c146_mean",
    "c146_total_likelihood",
    "c146_n_ess",
    "c146_poisoned"
   ],
   "note": "Updates without resample check, static models, evidence at least machine epsilon in both runs."
  },
  {
   "property": "C147",
   "status": "proved",
   "theorems": [
    "c147_rolls",
    "c147_estimates",
    "c147_counts",
    "c147_risk"
   ],
   "note": ""
  },
  {
   "property": "C148",
   "status": "proved",
   "theorems": [
    "c148_history",
    "c148_mean",
    "c148_estimates",
    "c148_risk",
    "c148_gain",
    "c148_representations"
   ],
   "note": ""
  },
  {
   "property": "C149",
   "status": "partial",
   "theorems": [
    "c149_weights",
    "c149_mass",
    "c149_mean",
    "c149_limit_partial",
    "c149_certain",
    "c149_limit_refuted"
   ],
   "note": "c149_weights, c149_mass and c149_mean hold for every power that keeps the evidence of each update at least machine epsilon; c149_limit_partial is the limit under that condition and c149_certain the full limit when the best particle gives the data probability one. The limit as documented is false in the code: c149_limit_refuted shows that when every particle gives some outcome probability at most q < 1, all large enough powers make the update raise RuntimeError and leave the cloud unchanged."
  },
  {
   "property": "C150",
   "status": "proved",
   "theorems": [
    "c150_adaptive",
    "c150_unbiased",
    "c150_script",
    "c150_cloud",
    "c150_coin",
    "c150_coin_attained",
    "c150_precession"
   ],
   "note": ""
  },
  {
   "property": "C151",
   "status": "proved",
   "theorems": [
    "c151_interval",
    "c151_bound",
    "c151_script",
    "c151_code",
    "c151_coin"
   ],
   "note": ""
  },
  {
   "property": "C152",
   "status": "proved",
   "theorems": [
    "c152_ginibre_mean",
    "c152_ginibre_covariance",
    "c152_pure",
    "c152_haar_row",
    "c152_haar_moments",
    "c152_constrained_mean",
    "c152_constrained_covariance"
   ],
   "note": ""
  },
  {
   "property": "C153",
   "status": "proved",
   "theorems": [
    "c153_worse_particles_vanish",
    "c153_best_particles_take_all",
    "c153_averages",
    "c153_rate",
    "c153_total",
    "c153_closest",
    "c153_truth"
   ],
   "note": ""
  },
  {
   "property": "C154",
   "status": "proved",
   "theorems": [
    "c154_operation",
    "c154_history",
    "c154_start",
    "c154_session",
    "c154_mean",
    "c154_covariance",
    "c154_inversion",
    "c154_precession",
    "c154_liu_west",
    "c154_resampler",
    "c154_zero_covariance_refuted",
    "c154_heuristic",
    "c154_experiment"
   ],
   "note": ""
  },
  {
   "property": "C155",
   "status": "proved",
   "theorems": [
    "c155_experiment",
    "c155_predictions",
    "c155_overlap",
    "c155_two_particles",
    "c155_two_particles_unconditional",
    "c155_mirror_refuted",
    "c155_fisher",
    "c155_information",
    "c155_average_information"
   ],
   "note": ""
  },
  {
   "property": "C156",
   "status": "proved",
   "theorems": [
    "c156_composition",
    "c156_sequence",
    "c156_interleaved",
    "c156_survival",
    "c156_interleaved_survival",
    "c156_fidelity",
    "c156_fidelity_of_sequence",
    "c156_negative_scale_refuted",
    "c156_identifiable",
    "c156_two_lengths_refuted",
    "c156_perfect_gate_refuted",
    "c156_others_vanish",
    "c156_estimates_converge"
   ],
   "note": ""
  },
  {
   "property": "C157",
   "status": "proved",
   "theorems": [
    "c157_learned",
    "c157_never_learned",
    "c157_inversion_confuses",
    "c157_precession_confuses",
    "c157_precession_half_turn",
    "c157_precession_aliases_refuted",
    "c157_two_inversions",
    "c157_t2",
    "c157_t2_one_time_refuted",
    "c157_noisy_coin",
    "c157_die",
    "c157_binomial",
    "c157_tomography",
    "c157_tomography_refuted"
   ],
   "note": ""
  },
  {
   "property": "C158",
   "status": "proved",
   "theorems": [
    "c158_factor",
    "c158_misleading_evidence",
    "c158_own_data",
    "c158_average_factor",
    "c158_growth",
    "c158_prior_evidence",
    "c158_prior_posterior",
    "c158_opinions_approach"
   ],
   "note": ""
  },
  {
   "property": "C159",
   "status": "proved",
   "theorems": [
    "c159_updater",
    "c159_escape_refuted",
    "c159_model",
    "c159_chain",
    "c159_separator_refuted"
   ],
   "note": ""
  },
  {
   "property": "C160",
   "status": "proved",
   "theorems": [
    "c160_step",
    "c160_history",
    "c160_untracked",
    "c160_one_per_resampling",
    "c160_failed_resampling",
    "c160_number",
    "c160_causes",
    "c160_no_negative_weights",
    "c160_few_particles",
    "c160_enough_particles",
    "c160_update_warnings",
    "c160_resample_warnings",
    "c160_twice",
    "c160_debug",
    "c160_new"
   ],
   "note": ""
  },
  {
   "property": "C161",
   "status": "proved",
   "theorems": [
    "c161_same_updater",
    "c161_same_history",
    "c161_given_up",
    "c161_normalization_record",
    "c161_data_record",
    "c161_update_in_place",
    "c161_resampling_keeps_old",
    "c161_reset",
    "c161_partial_reset",
    "c161_careful_callers",
    "c161_records_are_not_read",
    "c161_snapshot_refuted",
    "c161_caller_reaches_posterior_refuted",
    "c161_caller_reaches_record_refuted"
   ],
   "note": ""
  },
  {
   "property": "C162",
   "status": "proved",
   "theorems": [
    "c162_risk_never_improves",
    "c162_information_never_grows",
    "c162_computed_risks",
    "c162_computed_information",
    "c162_noisy_coin",
    "c162_fisher",
    "c162_more_shots",
    "c162_parameter_dependent_noise_refuted"
   ],
   "note": ""
  },
  {
   "property": "C163",
   "status": "proved",
   "theorems": [
    "c163_never_below_zero",
    "c163_never_below_one_over_n",
    "c163_always_above_one",
    "c163_spacing",
    "c163_first_resampling",
    "c163_count_is_not_monotone_refuted",
    "c163_liu_west_sound",
    "c163_liu_west_even",
    "c163_liu_west_spacing"
   ],
   "note": ""
  },
  {
   "property": "C164",
   "status": "proved",
   "theorems": [
    "c164_law",
    "c164_particles",
    "c164_unbiased",
    "c164_error",
    "c164_target",
    "c164_prediction",
    "c164_posterior",
    "c164_total_likelihood",
    "c164_agree",
    "c164_mean",
    "c164_covariance",
    "c164_stages",
    "c164_stages_evidence"
   ],
   "note": ""
  },
  {
   "property": "C165",
   "status": "proved",
   "theorems": [
    "c165_law",
    "c165_records",
    "c165_conditional",
    "c165_loss",
    "c165_region",
    "c165_unbiased",
    "c165_best"
   ],
   "note": ""
  }
 ]
}