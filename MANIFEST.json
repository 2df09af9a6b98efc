{
 "claims": [
  {
   "property": "C01",
   "status": "proved",
   "theorems": [
    "C01_order_agreement",
    "C01_observed_input_refuted"
   ],
   "note": "For observed models none of which is an input of another; without that condition the walks disagree (C01_observed_input_refuted)."
  },
  {
   "property": "C02",
   "status": "proved",
   "theorems": [
    "C02_set_get",
    "C02_get_set_same"
   ],
   "note": ""
  },
  {
   "property": "C03",
   "status": "proved",
   "theorems": [
    "C03_reusable",
    "C03_short_list_refuted",
    "C03_like_new",
    "C03_returns"
   ],
   "note": "Full for the corrected statement; the exceptional case is C03_short_list_refuted."
  },
  {
   "property": "C04",
   "status": "proved",
   "theorems": [
    "C04_prior_density_once",
    "C04_discrete_factor_refuted",
    "C04_stale_parent_refuted",
    "C04_prior_density_exact"
   ],
   "note": "Exact value for every vector of the right shape; the intended once-per-parameter product holds for accepted vectors with each discrete node on one path (C04_prior_density_once) and is refuted otherwise."
  },
  {
   "property": "C05",
   "status": "proved",
   "theorems": [
    "C05_ancestral",
    "C05_operation_value_refuted",
    "C05_ancestral_exact"
   ],
   "note": "Arithmetic nodes included, through the relation Fresh of S_Fresh.v. Assumes that a simulator's answer passes its own output check and that operations have two inputs."
  },
  {
   "property": "C06",
   "status": "proved",
   "theorems": [
    "C06_set_outcome",
    "C06_history_dependent_refuted"
   ],
   "note": "The extra theorem shows that the verdict itself depends on previously stored values."
  },
  {
   "property": "C07",
   "status": "proved",
   "theorems": [
    "C07_flatten",
    "C07_type_error",
    "C07_negative_index_refuted",
    "C07_getitem"
   ],
   "note": "InputConnector: flattening order, index errors and getitem proved for every input list; negative index -dim-1.. is accepted at construction and only fails later (refuted instance)."
  },
  {
   "property": "C08",
   "status": "proved",
   "theorems": [
    "C08_operation",
    "C08_self_difference",
    "C08_nested_refuted",
    "C08_rpow_refuted",
    "C08_rpow_nested_refuted",
    "C08_every_operation"
   ],
   "note": "All operators and nestings through the relation Fresh of S_Fresh.v; division by zero is 0 in the model (Q)."
  },
  {
   "property": "C09",
   "status": "proved",
   "theorems": [
    "C09_map_collect",
    "C09_single",
    "C09_refinement",
    "C09_terminates",
    "C09_map_of_map_refuted",
    "C09_collect_raw_refuted"
   ],
   "note": "Every schedule, every number of leaders (one process per model), every correct program. Two uses BackendDummy accepts fail under MPI: mapping a mapped data set, collecting a data set that was not mapped."
  },
  {
   "property": "C10",
   "status": "proved",
   "theorems": [
    "C10_exception",
    "C09_terminates",
    "C10_unbuildable_refuted",
    "C10_returned_exception_refuted"
   ],
   "note": "Proved for exceptions that can be rebuilt from one string; an exception class that cannot kills the leader and the map hangs; a returned exception object is raised."
  },
  {
   "property": "C100",
   "status": "proved",
   "theorems": [
    "C100_result",
    "C100_one",
    "C100_refuted",
    "C100_remainder",
    "C100_end"
   ],
   "note": "One map by itself, process_per_model = 1, messages buffered (a send does not wait for its receiver); exceptions of the function are values (C09 covers how collect raises them). Another chunk_size than 1 has to be assigned to the attribute of the backend."
  },
  {
   "property": "C11",
   "status": "proved",
   "theorems": [
    "C11_ids_fresh",
    "C11_broadcast_seen",
    "C11_stores",
    "C11_delete_independent"
   ],
   "note": "Identifiers for every program; stores and deletions for correct programs."
  },
  {
   "property": "C12",
   "status": "proved",
   "theorems": [
    "C12_history",
    "C12_bad_type"
   ],
   "note": "All seven getters after every history of add calls."
  },
  {
   "property": "C13",
   "status": "proved",
   "theorems": [
    "C13_ess",
    "C13_flat_refuted"
   ],
   "note": "Weights in the (n,1) shape all schemes record; a flat weight vector is a TypeError (C13_flat_refuted)."
  },
  {
   "property": "C14",
   "status": "proved",
   "theorems": [
    "C14_convex",
    "C14_rescale",
    "C14_permute",
    "C14_same_iteration",
    "C14_one_sample_refuted"
   ],
   "note": "Needs at least two samples: with one, np.squeeze drops the sample axis and np.average raises (C14_one_sample_refuted)."
  },
  {
   "property": "C15",
   "status": "proved",
   "theorems": [
    "C15_resample",
    "C15_refuses",
    "C15_shared_name_refuted"
   ],
   "note": "Holds when parameter names are distinct; with a shared name the claim is false (C15_shared_name_refuted)."
  },
  {
   "property": "C16",
   "status": "proved",
   "theorems": [
    "C16_threshold",
    "C16_total",
    "C16_sizes_refuted",
    "C16_unbound_refuted",
    "C16_nan_refuted"
   ],
   "note": "Holds whenever a journal is returned, apart from NaN distances which are accepted (C16_nan_refuted). Returns one exactly under the stated conditions; 1 sample or more than 46340 samples and thresholds not below dist_max always raise."
  },
  {
   "property": "C17",
   "status": "proved",
   "theorems": [
    "C17_budget",
    "C17_budget_spent",
    "C17_count",
    "C17_equal_refuted",
    "C17_bounded_distance_refuted",
    "C17_resample_refuted"
   ],
   "note": "Holds whenever a journal is returned; errors for ties below the quantile and for distances with finite dist_max are exhibited."
  },
  {
   "property": "C18",
   "status": "proved",
   "theorems": [
    "C18_run",
    "C18_respected",
    "C18_nonincreasing",
    "C18_caller_list_refuted",
    "C18_second_call_refuted",
    "C18_restart_configuration_refuted"
   ],
   "note": "NaN distances excepted. Side findings: the caller's threshold list is overwritten, a second call starts from the old population, restarting grows the stored list."
  },
  {
   "property": "C19",
   "status": "proved",
   "theorems": [
    "C19_pmcabc",
    "C19_pmcabc_refuted",
    "C19_apmcabc",
    "C19_apmcabc_refuted",
    "C19_smcabc",
    "C19_smcabc_refuted",
    "C19_smcabc_bernton_refuted",
    "C19_pmc_run",
    "C19_pmc_iteration",
    "C19_pmc",
    "C19_pmc_sample",
    "C19_pmc_inipoints",
    "C19_pmc_prior_twice_refuted"
   ],
   "note": "PMCABC (and its zero-density failure), APMCABC (retained weights normalised, recorded ones not), SMCABC (as long as some particle survives each reweighting; NaN otherwise). PMC: positive and summing to 1 for finite likelihoods and positive kernel densities, but the prior density enters twice."
  },
  {
   "property": "C20",
   "status": "proved",
   "theorems": [
    "C20_run",
    "C20_population",
    "C20_attempts_nonneg",
    "C20_final_threshold_raises",
    "C20_zero_attempts_raise",
    "C20_restart_refuted",
    "C20_nothing_to_replenish_refuted",
    "C20_second_call_refuted",
    "C20_round"
   ],
   "note": "Full characterisation of a run of RSMCABC, and the cases in which the claim fails."
  },
  {
   "property": "C21",
   "status": "proved",
   "theorems": [
    "C21_pmcabc",
    "C21_pmcabc_refuted",
    "C21_rsmcabc_never_moves",
    "C21_rsmcabc_refuted",
    "C21_apmcabc",
    "C24_moves",
    "C21_smcabc_one_hit_refuted",
    "C21_subsim",
    "C21_sabc"
   ],
   "note": "Proved for PMCABC, APMCABC, SMCABC moves, ABCsubsim and SABC; false for RSMCABC (reported parameters are the old ones) and SMCABC's one-hit kernel."
  },
  {
   "property": "C22",
   "status": "proved",
   "theorems": [
    "C22_run",
    "C22_retained",
    "C22_threshold",
    "C22_threshold_refuted",
    "C22_size_refuted",
    "C22_early_stop_refuted",
    "C22_ties_refuted",
    "C22_restart_refuted"
   ],
   "note": "The unconditional claims (threshold never increases, n particles) are false; the exact behaviour and a sufficient condition are proved."
  },
  {
   "property": "C23",
   "status": "proved",
   "theorems": [
    "C23_bisection_terminates",
    "C23_bisection_interval",
    "C23_bisection_bracket",
    "C23_bisection_no_change",
    "C23_run",
    "C23_restart",
    "C23_thresholds",
    "C23_early_stop_refuted",
    "C23_second_call_refuted",
    "C23_restart_refuted",
    "C23_bernton_threshold",
    "C23_delmoral_threshold"
   ],
   "note": "Full characterisation of a run of SMCABC for both versions and all three kernels."
  },
  {
   "property": "C24",
   "status": "proved",
   "theorems": [
    "C24_distances",
    "C24_moves",
    "C24_paired",
    "C24_refuted",
    "C24_refuted_delmoral"
   ],
   "note": "Distances always belong to the stored simulations; parameters and simulations belong together only without resampling (refuted otherwise, for both versions)."
  },
  {
   "property": "C25",
   "status": "proved",
   "theorems": [
    "C25_run",
    "C25_sizes",
    "C25_sizes_general",
    "C25_annealing",
    "C25_below",
    "C25_covariances",
    "C25_chain_length",
    "C25_too_few",
    "C25_restart",
    "C25_annealing_refuted",
    "C25_decreasing_refuted",
    "C25_sizes_refuted",
    "C25_zero_refuted"
   ],
   "note": "Full characterisation of a run of ABCsubsim on a fresh object. The claim holds when chain_length divides n_samples; the annealing parameter is the mean of two sorted distances (not one of them) and may increase; restarting from a journal always fails."
  },
  {
   "property": "C26",
   "status": "proved",
   "theorems": [
    "C26_run",
    "C26_smooth",
    "C26_smooth_range",
    "C26_probability",
    "C26_replaced",
    "C26_sizes",
    "C26_restart",
    "C26_second_call",
    "C26_monotone_refuted",
    "C26_counts_refuted",
    "C26_lost_refuted",
    "C26_zero_refuted",
    "C26_ratio_refuted",
    "C26_smooth_range_refuted",
    "C26_second_call_refuted",
    "C26_mean"
   ],
   "note": "Full characterisation of a run of SABC on a fresh object. The three claims hold for non-negative distances and a positive epsilon in the first iteration; later iterations compare with a ratio that can exceed 1. Restarting from a journal and calling sample twice fail."
  },
  {
   "property": "C27",
   "status": "proved",
   "theorems": [
    "C27_run",
    "C27_chain",
    "C27_no_samples"
   ],
   "note": "Fresh runs; the walk is described move by move (S_MCMC.Walk)."
  },
  {
   "property": "C28",
   "status": "proved",
   "theorems": [
    "C28_balance",
    "C28_untransformed",
    "C28_zero_likelihood",
    "C28_bounded",
    "C28_dummy"
   ],
   "note": "Floats as extended reals; positive prior densities and finite likelihoods (zero likelihoods separately); C28_bounded for BoundedVarTransformer."
  },
  {
   "property": "C29",
   "status": "proved",
   "theorems": [
    "C29_restart",
    "C29_composition",
    "C29_split"
   ],
   "note": "Composition holds for a restart without burn-in with the generator carried over; the code's default burn-in of 1000 is run again on restart (C29_burnin_again)."
  },
  {
   "property": "C30",
   "status": "proved",
   "theorems": [
    "C30_transform",
    "C30_roundtrip",
    "C30_onto",
    "C30_refused",
    "C30_init",
    "C30_single_refuted",
    "C30_float32",
    "C30_integer_refuted",
    "C30_dummy",
    "C30_integers",
    "C30_infinite",
    "C30_nan_refuted"
   ],
   "note": "For two or more float variables whose bounds are float32 numbers; false for one variable (IndexError), for integer arrays, and near bounds that float32 rounds."
  },
  {
   "property": "C31",
   "status": "proved",
   "theorems": [
    "C31_jacobian",
    "C31_inverse",
    "C31_volume",
    "C31_integers"
   ],
   "note": "Inverse Jacobian up to the float32 rounding of log(upper-lower) and the cutoffs at 100, both bounded."
  },
  {
   "property": "C32",
   "status": "proved",
   "theorems": [
    "C32_check",
    "C32_update",
    "C32_perturb",
    "C32_pdf",
    "C32_structure",
    "C32_default",
    "C32_uncovered_refuted",
    "C32_default_kinds"
   ],
   "note": "Overlap is refused; missing coverage is not (refuted: the proposal is then too short and set_parameters raises).  Draws and densities of the single kernels are parameters."
  },
  {
   "property": "C33",
   "status": "proved",
   "theorems": [
    "C33_moves",
    "C33_single",
    "C33_many_refuted",
    "C33_array_refuted",
    "C33_network",
    "C33_network_product",
    "C33_network_scalars_refuted",
    "C33_network_int_refuted",
    "C33_draws",
    "C33_network_unreachable",
    "C33_own_numbers"
   ],
   "note": "True for one value; false for two or more values (only the first is looked at), for array values of two or more numbers, and for the network kernel on rows of numbers or Python integers."
  },
  {
   "property": "C34",
   "status": "proved",
   "theorems": [
    "C34_success",
    "C34_failure",
    "C34_total",
    "C34_success_refuted",
    "C34_failure_refuted",
    "C34_proposal_installed",
    "C34_graph_set_ok"
   ],
   "note": "Both halves of the claim are false; the exact behaviour is proved."
  },
  {
   "property": "C35",
   "status": "proved",
   "theorems": [
    "C35_rows",
    "C35_stage",
    "C35_input",
    "C35_identity",
    "C35_linear",
    "C35_size",
    "C35_standardised",
    "C35_constant_refuted"
   ],
   "note": "Row-wise action, size, and standardisation of every statistics stage over extended reals; neural networks are an arbitrary function.  Standardisation is false when a reference column is constant (division by zero)."
  },
  {
   "property": "C36",
   "status": "proved",
   "theorems": [
    "C36_transparent",
    "C36_fresh",
    "C36_mutation_refuted",
    "C36_shape_refuted",
    "C36_reuse",
    "C36_incomparable"
   ],
   "note": "Transparent when the cached list is not changed in place and compared arrays have equal length; false otherwise (refuted)."
  },
  {
   "property": "C37",
   "status": "proved",
   "theorems": [
    "C37_value",
    "C37_metric",
    "C37_single",
    "C37_self_refuted"
   ],
   "note": "Mean of pairwise distances; symmetric, non-negative, triangle inequality; distance of a multi-observation data set to itself is not 0 (refuted)."
  },
  {
   "property": "C38",
   "status": "proved",
   "theorems": [
    "C38_gram",
    "C38_value",
    "C38_refused",
    "C38_symmetric",
    "C38_order",
    "C38_self_zero",
    "C38_nonneg",
    "C38_gaussian",
    "C38_euclidean",
    "C38_gaussian_nonneg",
    "C38_energy",
    "C38_options",
    "C38_unbiased_refuted",
    "C38_declared"
   ],
   "note": "Real arithmetic on finite statistics, sigma not 0.  Positive definiteness of the Gaussian kernel and negative type of |x-y|^beta (0<beta<=2) are proved from the definitions.  Non-negativity is false for the unbiased estimator, the default of MMD (refuted)."
  },
  {
   "property": "C39",
   "status": "proved",
   "theorems": [
    "C39_neighbours",
    "C39_refused",
    "C39_kl",
    "C39_gamma",
    "C39_hellinger",
    "C39_hellinger_range",
    "C39_hellinger_symmetric",
    "C39_hellinger_refuted",
    "C39_self_refuted",
    "C39_logreg",
    "C39_penlogreg",
    "C39_shared_refuted",
    "C39_repeated"
   ],
   "note": "Extended reals, gam > 0; classifiers are arbitrary functions.  The squared Hellinger estimate stays below its maximum but is not non-negative as declared (refuted).  One shared point (k copies in the other data set) makes all three estimates minus infinity (refuted), so the data are accepted with any threshold; repeated points make KL and Gamma plus infinity."
  },
  {
   "property": "C40",
   "status": "proved",
   "theorems": [
    "C40_bernoulli",
    "C40_binomial",
    "C40_binomial_negative",
    "C40_binomial_negative_refuted",
    "C40_binomial_truncates_refuted",
    "C40_binomial_samples",
    "C40_bernoulli_samples",
    "C40_poisson",
    "C40_poisson_mean_refuted",
    "C40_poisson_samples",
    "C40_discrete_uniform",
    "C40_discrete_uniform_between_refuted",
    "C40_inputs",
    "C40_nan_refuted",
    "C40_outputs",
    "C40_output"
   ],
   "note": "Probabilities sum to one and samplers follow them. Refuted parts: Binomial at negative or non-integer points, Poisson truncating its mean, DiscreteUniform between integers, NaN parameters accepted."
  },
  {
   "property": "C41",
   "status": "proved",
   "theorems": [
    "C41_density",
    "C41_accepted",
    "C41_nan_refuted",
    "C41_flat_refuted",
    "C41_refused",
    "C41_extra_refuted",
    "C41_samples",
    "C41_law"
   ],
   "note": "For boxes with interior and finite points. Refuted parts: NaN accepted with density 0, flat boxes have infinite density, more than two lists accepted with a density that disagrees with the samples."
  },
  {
   "property": "C42",
   "status": "proved",
   "theorems": [
    "C42_range",
    "C42_distinct",
    "C42_distinct_refuted",
    "C42_equal_seeds",
    "C42_rejection_refuted"
   ],
   "note": "The claim is false; the exact condition under which the seeds are distinct is proved, with counterexamples, and the consequence of equal seeds."
  },
  {
   "property": "C43",
   "status": "proved",
   "theorems": [
    "C43_sample",
    "C43_pairs",
    "C43_none_refuted",
    "C43_zero_chunk_refuted"
   ],
   "note": "For n > 0 pairs; sample_par_sim_pairs(0) raises ValueError."
  },
  {
   "property": "C44",
   "status": "proved",
   "theorems": [
    "C44_acceptable",
    "C44_aligned",
    "C44_refused",
    "C44_refused_parameters_refuted",
    "C44_discard_refuted",
    "C44_single"
   ],
   "note": "Alignment for every journal, schedule and worker history when the observed model and its inputs are not arithmetic nodes and every stored parameter is acceptable to the graph; the cases where the code breaks the claim (parameters refused by set_parameters are used anyway; discarding ends in AttributeError; journals without type_model give KeyError) are separate theorems."
  },
  {
   "property": "C45",
   "status": "proved",
   "theorems": [
    "C45_weights",
    "C45_default_weights",
    "C45_distance",
    "C45_distance_default",
    "C45_single",
    "C45_monotone",
    "C45_max",
    "C45_max_bounds",
    "C45_max_infinite",
    "C45_product",
    "C45_sum",
    "C45_agree",
    "C45_refused",
    "C45_fewer",
    "C45_surplus_refuted",
    "C45_zero_sum_refuted",
    "C45_zero_weight_max_refuted"
   ],
   "note": "True for lists of the right length; wrong numbers are refused at construction, but surplus data sets are ignored silently (refuted), too few give IndexError, weights with sum zero are accepted (refuted) and a zero weight on an infinite maximum gives NaN (refuted)."
  },
  {
   "property": "C46",
   "status": "proved",
   "theorems": [
    "C46_drawn",
    "C46_label",
    "C46_table",
    "C46_selected",
    "C46_pickled_refuted",
    "C46_table_reused",
    "C46_refused_sizes",
    "C46_first_data_set_only",
    "C46_vector_data_refuted",
    "C46_own_probability",
    "C46_absent_model_refuted",
    "C46_other_column_refuted",
    "C46_posterior",
    "C46_one_data_set_refuted"
   ],
   "note": "Labels, table and choice for the sequential backend; with backends that pickle results every label is 0 and the first candidate is always chosen; absent candidates break posterior_probability. Forests, the statistics and the simulators are arbitrary functions; a forest is assumed to predict a class it was trained on."
  },
  {
   "property": "C47",
   "status": "proved",
   "theorems": [
    "C47_transparent",
    "C47_once",
    "C47_arguments",
    "C47_stable",
    "C47_raising_refuted",
    "C47_stateful_refuted"
   ],
   "note": "For functions whose result depends on the argument only; once per argument for arguments on which the function does not raise (refuted otherwise)."
  },
  {
   "property": "C48",
   "status": "proved",
   "theorems": [
    "C48_matrix",
    "C48_fraction",
    "C48_symmetric",
    "C48_reflexive",
    "C48_duplicates_refuted",
    "C48_refused",
    "C48_siamese",
    "C48_siamese_weight",
    "C48_triplet",
    "C48_siamese_ends",
    "C48_endless",
    "C48_no_dissimilar",
    "C48_pairs"
   ],
   "note": "Symmetric always; reflexive and non-trivial when no two samples are equal, false with duplicates (refuted: the matrix is all False and no error is raised). Items have the right targets; loops may be endless."
  },
  {
   "property": "C49",
   "status": "proved",
   "theorems": [
    "C49_derivatives",
    "C49_smooth",
    "C49_hessian",
    "C49_first_only",
    "C49_relu",
    "C49_refused",
    "C49_sizes",
    "C49_discard_last",
    "C49_accepted"
   ],
   "note": "All depths, widths, weights and batches; the nonlinearity is any function with the derivatives torch's graph returns, needed only at the values it is applied to (so it covers ReLU away from 0). Real arithmetic."
  },
  {
   "property": "C50",
   "status": "proved",
   "theorems": [
    "C50_columns",
    "C50_named_columns",
    "C50_update",
    "C50_recorded_fits",
    "C50_history"
   ],
   "note": ""
  },
  {
   "property": "C51",
   "status": "proved",
   "theorems": [
    "C51_default",
    "C51_teams",
    "C51_second_scheduler_refuted",
    "C51_refusal_refuted",
    "C51_factory",
    "C51_refused",
    "C51_ranks"
   ],
   "note": "Proved for scheduler ranks [0] (the only value the factory passes). Other lists: team property only; counterexamples for the map loop and for refusal of bad lists."
  },
  {
   "property": "C52",
   "status": "proved",
   "theorems": [
    "C52_labels",
    "C52_used",
    "C52_all_used_refuted"
   ],
   "note": "True as stated; that every fold is used when there are at least as many observations as folds is false (refuted)."
  },
  {
   "property": "C53",
   "status": "proved",
   "theorems": [
    "C53_solver_exists",
    "C53_refused",
    "C53_scale",
    "C53_equal_weights",
    "C53_value",
    "C53_nonneg",
    "C53_symmetric",
    "C53_triangle",
    "C53_zero",
    "C53_distribution",
    "C53_single",
    "C53_series_refused",
    "C53_series",
    "C53_series_ok",
    "C53_components"
   ],
   "note": "ot.emd2 is an exact solver (hypothesis, proved satisfiable). Also proved: metric, dependence on the distributions only, series."
  },
  {
   "property": "C54",
   "status": "proved",
   "theorems": [
    "C54_adaptation",
    "C54_space_refuted",
    "C54_skipped_refuted"
   ],
   "note": "Exact characterisation; states are taken in the original space although proposals are made in the transformed one, and a proposal outside the prior skips the adaptation."
  },
  {
   "property": "C55",
   "status": "proved",
   "theorems": [
    "C55_fit",
    "C55_roundtrip",
    "C55_jacobian"
   ],
   "note": "sklearn's MinMaxScaler is modelled in M_Scaler (not part of the repository)."
  },
  {
   "property": "C56",
   "status": "proved",
   "theorems": [
    "C56_bounds",
    "C56_multidim_refuted"
   ],
   "note": "If and only if, for scalar parameters with different names; false for multi-dimensional parameters."
  },
  {
   "property": "C57",
   "status": "proved",
   "theorems": [
    "C57_value",
    "C57_unweighted",
    "C57_scale",
    "C57_refused",
    "C57_accepted",
    "C57_positive_definite",
    "C57_degenerate",
    "C57_one_weight_refuted",
    "C57_one_particle",
    "C57_one_particle_refuted",
    "C57_factors",
    "C57_walk",
    "C57_one_factor"
   ],
   "note": "np.cov is modelled after numpy's documented computation; real arithmetic without rounding."
  },
  {
   "property": "C58",
   "status": "proved",
   "theorems": [
    "C58_exponential",
    "C58_normal",
    "C58_lognormal",
    "C58_variance_refuted",
    "C58_inputs",
    "C58_student",
    "C58_student_repeated_refuted",
    "C58_mixture",
    "C58_standard",
    "C58_normal_law",
    "C58_normal_cdf",
    "C58_lognormal_law",
    "C58_lognormal_mean_refuted",
    "C58_exponential_law"
   ],
   "note": "The Normal, LogNormal and Exponential densities integrate to one, with their means and variances (improper integrals); the samples have these densities for any generator of standard normal numbers, whose distribution function is unique. Refuted parts: the second Normal parameter is the standard deviation, not the documented variance; the mean of LogNormal is not the documented mu; StudentT.pdf shifts the array it is given."
  },
  {
   "property": "C59",
   "status": "proved",
   "theorems": [
    "C59_simulation_of_parameters",
    "C59_operation_stale_refuted"
   ],
   "note": "Positive part for observed models with no arithmetic node among their inputs; counterexample with an arithmetic node."
  },
  {
   "property": "C60",
   "status": "proved",
   "theorems": [
    "C60_run",
    "C60_refused",
    "C60_restored_refuted"
   ],
   "note": "Stopping rule and lists for all runs. The last clause is false: state_dict returns references to the live tensors, so the weights returned are those of the last epoch (refuted)."
  },
  {
   "property": "C61",
   "status": "proved",
   "theorems": [
    "C61_contrastive",
    "C61_contrastive_zero",
    "C61_triplet",
    "C61_refused",
    "C61_score_matching",
    "C61_batch",
    "C61_sliced_unbiased",
    "C61_rademacher",
    "C61_noise_refused",
    "C61_sphere",
    "C61_sliced_batch",
    "C61_signs"
   ],
   "note": "Reals stand for floats; derivative tensors are arguments of the losses; the noise distribution is finite (sign vectors are proved to be an instance, the Gaussian one is not)."
  },
  {
   "property": "C62",
   "status": "proved",
   "theorems": [
    "C62_pairs",
    "C62_single",
    "C62_provided",
    "C62_refused",
    "C62_mixed_refuted",
    "C62_roots_refuted",
    "C62_linear",
    "C62_semiautomatic",
    "C62_validation"
   ],
   "note": "Mixed rows with several simulations per parameter and a polynomial expansion, or several root models, are proved as refutations."
  },
  {
   "property": "C63",
   "status": "proved",
   "theorems": [
    "C63_batches",
    "C63_run",
    "C63_reported_refuted",
    "C63_left_over",
    "C63_endless",
    "C63_restored_refuted"
   ],
   "note": "Optimisers, networks and schedulers are oracles; the learning rate enters through the number of scheduler steps."
  },
  {
   "property": "C64",
   "status": "proved",
   "theorems": [
    "C64_solver_exists",
    "C64_refused",
    "C64_value",
    "C64_nonneg",
    "C64_self",
    "C64_symmetric",
    "C64_triangle",
    "C64_below",
    "C64_zero_refuted",
    "C64_redraw_refuted"
   ],
   "note": "ot.lp.emd2_1d is a parameter specified as an exact solver (C64_solver_exists shows one exists); equal weights; real arithmetic."
  },
  {
   "property": "C65",
   "status": "proved",
   "theorems": [
    "C65_gaussian",
    "C65_ratio",
    "C65_order",
    "C65_join",
    "C65_peak",
    "C65_singular",
    "C65_rank_correlation",
    "C65_correlation",
    "C65_monotone",
    "C65_ties_refuted",
    "C65_semi",
    "C65_dimension",
    "C65_memo",
    "C65_integer_refuted",
    "C65_likelihood"
   ],
   "note": "ledoit_wolf, matrix inverse, log-determinant, kernel density estimator and norm.ppf are parameters; real arithmetic; statistics are finite."
  },
  {
   "property": "C66",
   "status": "proved",
   "theorems": [
    "C66_reference",
    "C66_empty",
    "C66_value",
    "C66_count",
    "C66_fit_error",
    "C66_one_statistic_refuted",
    "C66_marginal_refuted",
    "C66_models"
   ],
   "note": "LogitNet is a parameter (an arbitrary function of training data, labels and folds that may raise); prior and simulator are parameters that raise nothing; real arithmetic."
  },
  {
   "property": "C67",
   "status": "proved",
   "theorems": [
    "C67_jacobian",
    "C67_mixing",
    "C67_second_order_flat",
    "C67_second_order",
    "C67_hessian",
    "C67_routes_agree",
    "C67_check_refuted",
    "C67_mixing_refuted",
    "C67_third_dimension_refuted"
   ],
   "note": "torch.autograd is a parameter assumed to return the derivative whenever it exists (kinks that cancel inside a network are not modelled); real arithmetic; jacobian_hessian for two-dimensional inputs."
  },
  {
   "property": "C68",
   "status": "proved",
   "theorems": [
    "C68_served",
    "C68_training_data",
    "C68_scaling",
    "C68_mode",
    "C68_expfam",
    "C68_mode_refuted",
    "C68_offset_refuted",
    "C68_bounds_refuted",
    "C68_roundtrip",
    "C68_reload",
    "C68_reload_softplus_refuted",
    "C68_refusals",
    "C68_scale_not_saved_refuted",
    "C68_default_networks",
    "C68_wrong_width"
   ],
   "note": "The training routine is a parameter returning the final numbers of the network; float32 rounding is a parameter function; a network class is its names, shapes and forward pass in both modes; devices are not modelled."
  },
  {
   "property": "C69",
   "status": "proved",
   "theorems": [
    "C69_accepted",
    "C69_cholesky",
    "C69_accepted_refuted",
    "C69_constructed",
    "C69_samples",
    "C69_density",
    "C69_density_shape",
    "C69_density_one",
    "C69_infinite_df_refuted",
    "C69_normal_samples",
    "C69_mixture"
   ],
   "note": "Real arithmetic; np.linalg.det and inv are parameters assumed correct for the matrix at hand; numpy's normal and chi-square generators are parameters; scipy's multivariate_normal density is not modelled."
  },
  {
   "property": "C70",
   "status": "proved",
   "theorems": [
    "C70_value",
    "C70_semidefinite",
    "C70_scale",
    "C70_equal_weights",
    "C70_one_weight_refuted",
    "C70_refused",
    "C70_entries",
    "C70_numbers_refuted",
    "C70_no_iteration",
    "C70_same_iteration",
    "C70_names_refuted"
   ],
   "note": "Real arithmetic, finite numbers; np.hstack and np.cov are modelled after their numpy sources."
  },
  {
   "property": "C71",
   "status": "proved",
   "theorems": [
    "C71_histogram",
    "C71_refused",
    "C71_numbers_refuted"
   ],
   "note": "Real arithmetic, finite numbers (non-finite samples, which numpy refuses, are not modelled); np.histogramdd is modelled after its numpy source: outer edges, linspace, searchsorted, ravel_multi_index, bincount."
  },
  {
   "property": "C72",
   "status": "proved",
   "theorems": [
    "C72_progress",
    "C72_bounded",
    "C72_completes",
    "C72_same_calls",
    "C72_lockstep",
    "C72_delete_refuted",
    "C72_exception_refuted"
   ],
   "note": "Collective operations are matched by position; a barrier is entered and left in two steps; a broadcast does not block the root. The nested function is one local step."
  },
  {
   "property": "C73",
   "status": "proved",
   "theorems": [
    "C73_plain",
    "C73_nested",
    "C73_reuse_refuted",
    "C73_hits",
    "C73_hits_refuted"
   ],
   "note": "Unpickled copies of the arguments are used by the leader too, so the generator of the caller stays as it is."
  },
  {
   "property": "C74",
   "status": "proved",
   "theorems": [
    "C74_joint",
    "C74_conditional",
    "C74_count",
    "C74_unfinished"
   ],
   "note": "Draws with finitely many outcomes; an attempt is one draw. Workers with different seeds are not claimed to be independent."
  },
  {
   "property": "C75",
   "status": "proved",
   "theorems": [
    "C75_step",
    "C75_invariant",
    "C75_marginal",
    "C75_accept"
   ],
   "note": "The uniform number enters by the length of the set of its values that accept. Positions form a finite set (a lattice in the transformed space)."
  },
  {
   "property": "C76",
   "status": "proved",
   "theorems": [
    "C76_law",
    "C76_weighted",
    "C76_exact",
    "C76_truncated_refuted"
   ],
   "note": "Every proposal can be assigned to the model; each operation uses one draw; limits are taken in the number of available draws."
  },
  {
   "property": "C77",
   "status": "proved",
   "theorems": [
    "C77_move",
    "C77_invariant",
    "C77_exact",
    "C77_truncated_refuted"
   ],
   "note": "Every proposal can be assigned to the model; coins have the right probability for the acceptance probabilities that occur; limits are taken in the number of available draws."
  },
  {
   "property": "C78",
   "status": "proved",
   "theorems": [
    "C78_first_law",
    "C78_second_law",
    "C78_first",
    "C78_second",
    "C78_truncated_refuted"
   ],
   "note": "Every proposal can be assigned to the model; simulator, perturbation, coin and choice are programs over a finite law of draws that produce the laws assumed (the case shows such programs, with coins built from fair bits); limits are taken in the number of available draws."
  },
  {
   "property": "C79",
   "status": "proved",
   "theorems": [
    "C79_prior_law",
    "C79_no_refusals",
    "C79_refusals_refuted"
   ],
   "note": "Finite laws of draws; values are rationals in lowest terms; discrete nodes are reached on one path (otherwise C04_discrete_factor_refuted); graphs without arithmetic nodes (otherwise C05_operation_value_refuted)."
  },
  {
   "property": "C80",
   "status": "proved",
   "theorems": [
    "C80_matrix",
    "C80_matrix_many_refuted",
    "C80_singles",
    "C80_doubles",
    "C80_padded",
    "C80_errors",
    "C80_array_range_refuted",
    "C80_traceplot",
    "C80_ess",
    "C80_ranges_kept_refuted",
    "C80_two_coordinates_refuted",
    "C80_twice_refuted",
    "C80_flat_refuted",
    "C80_trace_unknown",
    "C80_tuple_refuted"
   ],
   "note": "A figure is the list of what is drawn into each of its axes; density estimates, sizes, ticks and files are not modelled; numbers are rationals."
  },
  {
   "property": "C81",
   "status": "proved",
   "theorems": [
    "C81_law",
    "C81_last",
    "C81_first",
    "C81_independent",
    "C81_second_refuted"
   ],
   "note": "Random draws are a list of independent draws with finitely many outcomes; laws are limits as the number of available draws grows. The chain is proved and the invariance refuted for two moves."
  },
  {
   "property": "C82",
   "status": "proved",
   "theorems": [
    "C82_agree",
    "C82_results",
    "C82_self",
    "C82_again",
    "C82_rejection",
    "C82_generator_refuted",
    "C82_timing_refuted",
    "C82_pickled",
    "C82_generate_refuted",
    "C82_chain",
    "C82_put"
   ],
   "note": "pyspark is modelled by what it documents: lazy RDDs, functions pickled at the first job, one copy of self per slice, slices in order. List elements have no identity."
  },
  {
   "property": "C83",
   "status": "proved",
   "theorems": [
    "C83_law",
    "C83_batch",
    "C83_member",
    "C83_move",
    "C83_first",
    "C83_batch_refuted",
    "C83_bounded_refuted",
    "C83_skew_refuted"
   ],
   "note": "np.exp is any function whose values are the given ratios of weights; numbers of draws tend to infinity (loops without bound). Iterations without resampling, from the second on."
  },
  {
   "property": "C84",
   "status": "proved",
   "theorems": [
    "C84_run",
    "C84_loaders",
    "C84_refused",
    "C84_place",
    "C84_stranded",
    "C84_store",
    "C84_own",
    "C84_mean",
    "C84_mean_refuted",
    "C84_collates",
    "C84_mixed_refuted",
    "C84_leak_refuted",
    "C84_options",
    "C84_given"
   ],
   "note": "Random draws, shuffling (a permutation), the optimiser's step on a loss function and float rounding of losses are parameters; broadcasting of outputs and targets of different sizes is not modelled."
  },
  {
   "property": "C85",
   "status": "proved",
   "theorems": [
    "C85_agree",
    "C85_ends",
    "C85_self",
    "C85_items",
    "C85_rejection",
    "C85_generator_refuted",
    "C85_generate_refuted"
   ],
   "note": "Each leader computes alone (teams with workers: C10, C80); MPI messages are reliable and ordered as in M_MPI; names bound again delete the old object at once (reference counting); functions carry the broadcast values the leaders would look up (C11_broadcast_seen)."
  },
  {
   "property": "C86",
   "status": "proved",
   "theorems": [
    "C86_rejection",
    "C86_enough",
    "C86_pmcabc",
    "C86_pmcabc_enough",
    "C86_posterior",
    "C86_pmcabc_refuted"
   ],
   "note": "Workers have independent draws (in the code their seeds are drawn from 1..n^2-1 and can coincide, C42); draws have finite discrete laws; one draw per attempt gives parameters and data (P_Consist), separate draws for index, perturbation and data (P_Consist2, as C76). P_Consist2 is conditional on the population before the last iteration, with a function parametric in n."
  },
  {
   "property": "C87",
   "status": "proved",
   "theorems": [
    "C87_law",
    "C87_average",
    "C87_enough",
    "C87_target",
    "C87_uniform",
    "C87_prior_refuted"
   ],
   "note": "Draws have finite discrete laws; choosing n indices uses n draws, a perturbation and a simulation one draw each; workers and the main generator have independent draws (the code derives worker seeds from the main generator); log likelihoods are finite; conditional on the population before the last iteration; no rounding."
  },
  {
   "property": "C88",
   "status": "proved",
   "theorems": [
    "C88_converges",
    "C88_law",
    "C88_forget",
    "C88_sample",
    "C88_enough",
    "C88_gap_refuted"
   ],
   "note": "Draws have finite discrete laws; a perturbation, a simulation, a uniform number and a sample of the prior take one draw each; the uniform numbers are below every acceptance probability that occurs with exactly that probability (as real uniform numbers are); the matrices that adaptation can produce form a finite list; runs that do not start from a journal (resumed runs: C88_law, C88_forget); no rounding."
  },
  {
   "property": "C89",
   "status": "proved",
   "theorems": [
    "C89_exact",
    "C89_square",
    "C89_rejection",
    "C89_wide",
    "C89_repair",
    "C89_repair_million"
   ],
   "note": "randint is taken to draw independently, every value of its range with the same probability; C89_rejection is about runs in which every seed of the range reaches an acceptance (otherwise the code does not return)."
  },
  {
   "property": "C90",
   "status": "proved",
   "theorems": [
    "C90_rejection",
    "C90_cost"
   ],
   "note": "RandomState(seed) is a family of independent streams, one per seed (C86 gives every worker its own stream); one draw gives parameters and data of an attempt; seeds are equally likely and independent; no rounding."
  },
  {
   "property": "C91",
   "status": "proved",
   "theorems": [
    "C91_law",
    "C91_proper",
    "C91_recorded",
    "C91_enough",
    "C91_prior",
    "C91_first",
    "C91_posterior_refuted"
   ],
   "note": "One iteration, from a given retained population; laws of draws are finite and workers have independent streams (C90 for shared seeds in RejectionABC); no rounding. The property that the recorded population stands for the ABC posterior is false: C91_posterior_refuted."
  },
  {
   "property": "C92",
   "status": "proved",
   "theorems": [
    "C92_worker",
    "C92_iteration",
    "C92_params",
    "C92_average",
    "C92_shrinks",
    "C92_distance_refuted"
   ],
   "note": "C92_worker, C92_iteration, C92_params and C92_average: laws of draws are finite and workers have independent streams; kernels whose density is that of the perturbation; no rounding; one iteration after the first, from a given retained population. C92_shrinks: runs not started from a journal. That the recorded distances belong to the recorded parameters is false: C92_distance_refuted."
  },
  {
   "property": "C93",
   "status": "proved",
   "theorems": [
    "C93_reweighted",
    "C93_resampled_refuted"
   ],
   "note": "First iteration and the reweighting that follows it; laws of draws are finite and workers have independent streams; no rounding. That moves after resampling keep the posterior is false: C93_resampled_refuted."
  },
  {
   "property": "C94",
   "status": "proved",
   "theorems": [
    "C94_moved",
    "C94_second",
    "C94_hits",
    "C94_second_hits"
   ],
   "note": "C94_moved: default kernel (number 0); C94_hits: the r-hit kernels 1 and 2; C94_second: second iteration, default kernel; C94_second_hits: second iteration, r-hit kernels with one distance per data set (n_samples_per_param = 1). Laws of draws are finite, workers have independent streams, no rounding, set_parameters succeeds. The second-iteration theorems assume what C77_exact and the r-hit theorems of C78 need (constant chance of staying inside the prior; C77_truncated_refuted shows that it is needed) and a first threshold that all distances are below."
  },
  {
   "property": "C95",
   "status": "proved",
   "theorems": [
    "C95_worker",
    "C95_first",
    "C95_indistinguishable",
    "C95_rejection",
    "C95_pmcabc",
    "C95_operation_refuted",
    "C95_refused_draw_refuted",
    "C95_rsmcabc",
    "C95_apmcabc",
    "C95_smcabc",
    "C95_sabc",
    "C95_subsim",
    "C95_subsim_cov",
    "C95_pmc_likelihood",
    "C95_pmc_weight",
    "C95_mcmc"
   ],
   "note": "Runs in which sample_from_prior does not end within the given number of rounds are excluded (the result of the loop is then OutOfFuel). Programs offer parameter vectors of the declared dimensions; the kernel's own reading of the graph structure is part of its draw (C01, C04). The backend is sequential."
  },
  {
   "property": "C96",
   "status": "proved",
   "theorems": [
    "C96_rejection",
    "C96_rsmcabc_first",
    "C96_apmcabc_first",
    "C96_smcabc_first",
    "C96_sabc_first",
    "C96_pmcabc",
    "C96_pmcabc_weight",
    "C96_rsmcabc",
    "C96_apmcabc",
    "C96_smcabc",
    "C96_sabc",
    "C96_subsim_first",
    "C96_subsim",
    "C96_subsim_cov",
    "C96_pmc_likelihood",
    "C96_pmc_weight",
    "C96_child_first_refuted",
    "C96_hierarchy"
   ],
   "note": "Maps in which a bounded loop does not end (OutOfFuel) are excluded. The transport of items and results by MPI is the subject of C09, C10 and C85, for pure functions; here only the graph copy an item finds matters. Counterexample for children met before their parents: C96_child_first_refuted."
  },
  {
   "property": "C97",
   "status": "proved",
   "theorems": [
    "C97_maximum",
    "C97_sabc",
    "C97_refusals",
    "C97_hellinger_refuted",
    "C97_kernel_refuted",
    "C97_smcabc",
    "C97_smcabc_refusal"
   ],
   "note": "The maxima hold for every class. What SABC accepts is finite and non-negative for exact transport solvers and for kernels that are positive definite (or minus a distance of negative type); every class it refuses has negative estimates. Refuted: the squared Hellinger distance declares non-negative estimates but has no lower bound (the sum over points is not divided by their number), and the biased MMD declares them for any kernel."
  },
  {
   "property": "C98",
   "status": "proved",
   "theorems": [
    "C98_density",
    "C98_draw",
    "C98_symmetric",
    "C98_joint",
    "C98_singular",
    "C98_infinite_refuted"
   ],
   "note": "Real arithmetic; numpy's normal and chi-square generators, determinant and inverse are parameters (assumed correct for the matrix at hand); gamma is assumed to have the value of its integral at the one point used.  The normal kernel's density (scipy) is not modelled."
  },
  {
   "property": "C99",
   "status": "proved",
   "theorems": [
    "C99_fit",
    "C99_score",
    "C99_epochs_refuted"
   ],
   "note": "The figure is modelled by its curves (label, colour, points); axis labels and legend are not modelled."
  }
 ]
}
