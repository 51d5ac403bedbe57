{
 "claims": [
  {
   "property": "C01",
   "status": "proved",
   "theorems": [
    "C01_neal2_sweep_proper",
    "C01_neal3_sweep_proper",
    "C01_neal2_iterations_proper",
    "C01_neal3_iterations_proper",
    "C01_step_local"
   ],
   "note": "For every interface satisfying the hypotheses `laws` (index draws in range, statistics insertions and removals cancel and commute); masses of the mixing assumed defined up to n-1 clusters (true of DP and PY; see C39 for the exception). Neal3 for conjugate hierarchies only, as enforced by initialize."
  },
  {
   "property": "C02",
   "status": "proved",
   "theorems": [
    "C02_neal8_sweep_proper",
    "C02_neal8_iterations_proper",
    "C02_neal8_init_aux",
    "C02_neal8_no_aux_UB"
   ],
   "note": "Positive part for n_aux >= 1; with n_aux = 0, reallocating an observation that is alone in its cluster is UB."
  },
  {
   "property": "C03",
   "status": "proved",
   "theorems": [
    "C03_split_merge_sweep_proper",
    "C03_split_merge_iterations_proper",
    "C03_one_move",
    "C03_reject_unchanged",
    "C03_caches_fresh"
   ],
   "note": "Conjugate hierarchies without covariates (split-merge requires conjugacy; covariates: see C47). Mixing masses assumed defined, as for C01, plus those with two clusters that the code asks for."
  },
  {
   "property": "C04",
   "status": "proved",
   "theorems": [
    "C04_blocked_init",
    "C04_blocked_sweep",
    "C04_blocked_one",
    "C04_blocked_iterations",
    "C04_blocked_labels_drawn"
   ],
   "note": "For every interface satisfying `laws`; the mixing must return one log-weight per component."
  },
  {
   "property": "C05",
   "status": "proved",
   "theorems": [
    "C05_slice_init",
    "C05_weights_keep_occupied",
    "C05_allocations",
    "C05_labels_drawn",
    "C05_slice_iterations",
    "C05_slice_step_completes",
    "C05_slice_init_positive"
   ],
   "note": "The stick-breaking loop of the weights step has a fuel argument; None = not ended, about which nothing is claimed. Over the reals C05_slice_step_completes says when an iteration can fail."
  },
  {
   "property": "C06",
   "status": "proved",
   "theorems": [
    "C06_init_proper",
    "C06_init_too_many_UB"
   ],
   "note": "Both directions: proper with k clusters for k <= n; UB for k > n."
  },
  {
   "property": "C07",
   "status": "proved",
   "theorems": [
    "C07_run_saves",
    "C07_neal2_run_completes"
   ],
   "note": ""
  },
  {
   "property": "C08",
   "status": "proved",
   "theorems": [
    "C08_checks_iff_well_formed",
    "C08_initialize_throws"
   ],
   "note": ""
  },
  {
   "property": "C09",
   "status": "proved",
   "theorems": [
    "C09_drop_cluster",
    "C09_drop_defined"
   ],
   "note": ""
  },
  {
   "property": "C10",
   "status": "proved",
   "theorems": [
    "C10_neal2_single_UB",
    "C10_neal3_single_UB",
    "C10_split_merge_single_throws",
    "C10_split_merge_single_UB"
   ],
   "note": "Neal2, Neal3: UB. Split-merge: throws when at least one MH update is requested (categorical over zero elements), UB if only full scans. Neal8: C02 theorems hold for n >= 1."
  },
  {
   "property": "C11",
   "status": "proved",
   "theorems": [
    "C11_second_run_inconsistent",
    "C11_leftover"
   ],
   "note": "Leftover clusters make labels and clusters inconsistent; set_hierarchy gives a one-element vector, for which C06_init_proper applies."
  },
  {
   "property": "C12",
   "status": "proved",
   "theorems": [
    "C12_blocked_redraw",
    "C12_slice_redraw",
    "C12_neal2_redraw",
    "C12_neal8_redraw",
    "C12_first_cluster_saved",
    "C12_every_cluster_refuted"
   ],
   "note": "Conjugate-style updaters (other_draw = None). Neal2, Neal8: at most one cluster holds a saved posterior, which is the initial prior. Blocked Gibbs and slice: exactly component 0, when the hierarchy is conjugate."
  },
  {
   "property": "C13",
   "status": "proved",
   "theorems": [
    "C13_neal3_fresh",
    "C13_neal3_init_fresh",
    "C13_hyper_update_stale_refuted"
   ],
   "note": "Freshness within sweeps for all prefixes; witness of staleness after a hyperparameter update."
  },
  {
   "property": "C14",
   "status": "proved",
   "theorems": [
    "C14_neal8_aux"
   ],
   "note": ""
  },
  {
   "property": "C15",
   "status": "proved",
   "theorems": [
    "C15_any_hierarchy",
    "C15_uninorm",
    "C15_multinorm",
    "C15_linreg",
    "C15_fa"
   ],
   "note": "Any sequence of additions, removals, draws and posterior computations of one cluster, for an arbitrary lawful hierarchy and spelled out as sums for the four likelihoods."
  },
  {
   "property": "C16",
   "status": "proved",
   "theorems": [
    "C16_nnig_bayes"
   ],
   "note": "The log-gamma function is arbitrary; with the true one the constant is the integral of likelihood times prior, see C105."
  },
  {
   "property": "C17",
   "status": "proved",
   "theorems": [
    "C17_nnig_predictive",
    "C17_predictive_chain"
   ],
   "note": ""
  },
  {
   "property": "C18",
   "status": "proved",
   "theorems": [
    "C18_nnw_valid",
    "C18_linreg_valid",
    "C18_nnig_valid"
   ],
   "note": ""
  },
  {
   "property": "C19",
   "status": "proved",
   "theorems": [
    "C19_nnw_compose",
    "C19_nnw_perm",
    "C19_linreg_compose",
    "C19_linreg_perm",
    "C19_nnig_compose",
    "C19_nnig_perm"
   ],
   "note": ""
  },
  {
   "property": "C20",
   "status": "proved",
   "theorems": [
    "C20_nxig_mean",
    "C20_nxig_variance",
    "C20_nxig_draw"
   ],
   "note": ""
  },
  {
   "property": "C21",
   "status": "proved",
   "theorems": [
    "C21_nnw_quadratic",
    "C21_nnw_bayes"
   ],
   "note": "Also with all normalising constants (log-gamma arbitrary)."
  },
  {
   "property": "C22",
   "status": "proved",
   "theorems": [
    "C22_linreg_quadratic",
    "C22_linreg_bayes"
   ],
   "note": "Also with all normalising constants."
  },
  {
   "property": "C23",
   "status": "proved",
   "theorems": [
    "C23_cluster_shortcut",
    "C23_laplace_cluster"
   ],
   "note": ""
  },
  {
   "property": "C24",
   "status": "proved",
   "theorems": [
    "C24_round_trip",
    "C24_jacobian",
    "C24_unconstrained_prior"
   ],
   "note": ""
  },
  {
   "property": "C25",
   "status": "proved",
   "theorems": [
    "C25_density_factor",
    "C25_constrained_state",
    "C25_grid",
    "C25_prior_state_iff",
    "C25_prior_sample_density_refuted"
   ],
   "note": "Iff-characterisation and a refutation for sampled states."
  },
  {
   "property": "C26",
   "status": "proved",
   "theorems": [
    "C26_woodbury",
    "C26_logdet"
   ],
   "note": "Whole log density."
  },
  {
   "property": "C27",
   "status": "proved",
   "theorems": [
    "C27_psi_exact_iff_even",
    "C27_stale_density",
    "C27_density_after_draw_refuted"
   ],
   "note": "Iff-characterisation, staleness for every draw and a refutation."
  },
  {
   "property": "C28",
   "status": "proved",
   "theorems": [
    "C28_mean_conditional",
    "C28_mean_draw"
   ],
   "note": "The hyperprior variance is taken positive; it is not checked by the code (C72)."
  },
  {
   "property": "C29",
   "status": "proved",
   "theorems": [
    "C29_ngg_location",
    "C29_ngg_scaling",
    "C29_ngg_rate",
    "C29_ngg_draw",
    "C29_ngg_exact_refuted"
   ],
   "note": "Iff-characterisation and refutation of exactness."
  },
  {
   "property": "C30",
   "status": "proved",
   "theorems": [
    "C30_metropolis",
    "C30_metropolis_uninitialised",
    "C30_random_walk_symmetric",
    "C30_posterior_balance_refuted"
   ],
   "note": "Iff-characterisation, effect of the uninitialised accumulators, and a refutation for posterior reversibility."
  },
  {
   "property": "C31",
   "status": "proved",
   "theorems": [
    "C31_py_masses_sum",
    "C31_dp_masses_sum"
   ],
   "note": ""
  },
  {
   "property": "C32",
   "status": "proved",
   "theorems": [
    "C32_py_exchangeable",
    "C32_dp_exchangeable",
    "C32_py_unique",
    "C32_dp_unique"
   ],
   "note": ""
  },
  {
   "property": "C33",
   "status": "proved",
   "theorems": [
    "C33_py_scales",
    "C33_dp_scales",
    "C33_mfm_scales"
   ],
   "note": "Dirichlet process: iff the cached logarithm is in sync (see C37)."
  },
  {
   "property": "C34",
   "status": "proved",
   "theorems": [
    "C34_neal3_weights",
    "C34_neal2_weights"
   ],
   "note": "Neal3: weights proportional to partition prior times marginal likelihood; Neal2: with the current parameters. For Dirichlet and Pitman-Yor masses; `py_masses`, `marginal_likelihood` are discharged for the real NNIG program by C35_nnig_sweep_invariant's proof."
  },
  {
   "property": "C35",
   "status": "proved",
   "theorems": [
    "C35_neal3_sweep_law",
    "C35_neal3_sweep_invariant",
    "C35_states_exist",
    "C35_nnig_sweep_invariant",
    "C35_factory_dirichlet",
    "C35_factory_dirichlet_mass",
    "C35_configured_mass_refuted",
    "C35_nnw_sweep_invariant",
    "C35_linreg_sweep_invariant"
   ],
   "note": "The sweep's law is computed from the categorical weights; with the factory-built Dirichlet mixing the invariant law has total mass 1 (C35_factory_dirichlet), the configured mass is refuted."
  },
  {
   "property": "C36",
   "status": "proved",
   "theorems": [
    "C36_neal8_weights"
   ],
   "note": "Choices of a new cluster use the parameters of the auxiliary components."
  },
  {
   "property": "C37",
   "status": "proved",
   "theorems": [
    "C37_dp_log_history",
    "C37_dp_log_mass",
    "C37_dp_log_mass_refuted"
   ],
   "note": "Characterisation over all histories; C37_dp_log_mass_refuted: the intended value fails after initialisation."
  },
  {
   "property": "C38",
   "status": "proved",
   "theorems": [
    "C38_dp_update_throws"
   ],
   "note": "The generator's value is a parameter; the support (0, inf) of the auxiliary draw is gamma_rng's."
  },
  {
   "property": "C39",
   "status": "proved",
   "theorems": [
    "C39_mfm_table"
   ],
   "note": "Hypothesis: the series value is not negative (proved in C68 for the loop)."
  },
  {
   "property": "C40",
   "status": "proved",
   "theorems": [
    "C40_mfm_masses_sum"
   ],
   "note": ""
  },
  {
   "property": "C41",
   "status": "proved",
   "theorems": [
    "C41_weight_value",
    "C41_weight_sum",
    "C41_weights_nonneg",
    "C41_sum_one",
    "C41_log_scale"
   ],
   "note": "Over the reals."
  },
  {
   "property": "C42",
   "status": "proved",
   "theorems": [
    "C42_full_conditional",
    "C42_update_draws"
   ],
   "note": "Densities up to normalising constants; with a finite mixture the last drawn stick is then replaced by one."
  },
  {
   "property": "C43",
   "status": "proved",
   "theorems": [
    "C43_init_sum_below_one",
    "C43_dp_init_sum_below_one",
    "C43_accepted_prior_refuted",
    "C43_keep_breaking_throws"
   ],
   "note": "With the positivity hypothesis; C43_accepted_prior_refuted gives accepted priors violating it."
  },
  {
   "property": "C44",
   "status": "proved",
   "theorems": [
    "C44_logit_sum"
   ],
   "note": ""
  },
  {
   "property": "C45",
   "status": "proved",
   "theorems": [
    "C45_dirichlet_mixture",
    "C45_pitman_yor_mixture",
    "C45_finite_mixture",
    "C45_auxiliary_component",
    "C45_conditional_mixture",
    "C45_conditional_short_weights"
   ],
   "note": "Mixture density with explicit normalised weights for the three marginal mixings, the auxiliary component of Neal 8 and the conditional algorithms."
  },
  {
   "property": "C46",
   "status": "proved",
   "theorems": [
    "C46_split_ratio",
    "C46_merge_ratio",
    "C46_accept_test",
    "C46_update_structure",
    "C46_pitman_yor_refuted",
    "C46_scan_probability",
    "C46_split_draws",
    "C46_merge_draws"
   ],
   "note": "Ratio computed exactly for Dirichlet and Pitman-Yor mixings with the normal model; equality with the posterior ratio iff discount 0 or two clusters; refuted for Pitman-Yor with a witness. The proposal probability in the ratio is the product of the probabilities of the draws of the scan."
  },
  {
   "property": "C47",
   "status": "proved",
   "theorems": [
    "C47_covariates_discarded_mh",
    "C47_covariates_discarded_full"
   ],
   "note": "Hypothesis: the statistics reject an empty covariate row for the data at hand; the outcome is UB (Eigen assertion or out-of-range). Instance: demo_cov."
  },
  {
   "property": "C48",
   "status": "proved",
   "theorems": [
    "C48_roundtrip",
    "C48_crash_prefix"
   ],
   "note": "For every message type whose parser inverts its serialiser; messages larger than the protobuf limit are skipped by the writer model as by the code. After the end, the next read starts again from the first state."
  },
  {
   "property": "C49",
   "status": "proved",
   "theorems": [
    "C49_chunk_size",
    "C49_chunk_zero_ub",
    "C49_whole_and_chunks",
    "C49_collectors_are_cursors",
    "C49_chunk_zero_diverges"
   ],
   "note": "Chunk size 0 is undefined in the collector and diverges in the chunked evaluation loop."
  },
  {
   "property": "C50",
   "status": "proved",
   "theorems": [
    "C50_memory_history",
    "C50_write_then_load",
    "C50_load_runs_past_end",
    "C50_load_refuted"
   ],
   "note": "Loading into a non-empty collector is characterised and refuted."
  },
  {
   "property": "C51",
   "status": "proved",
   "theorems": [
    "C51_python_roundtrip",
    "C51_python_cut",
    "C51_python_prefix_refuted"
   ],
   "note": "Complete characterisation of cut files and refutation of the prefix property."
  },
  {
   "property": "C52",
   "status": "proved",
   "theorems": [
    "C52_sequential_rows",
    "C52_low_memory_same",
    "C52_full_memory_rows",
    "C52_same_rows_permuted",
    "C52_order_kept_iff",
    "C52_no_jobs",
    "C52_values_independent_of_object",
    "C52_parallel_order_refuted"
   ],
   "note": "Sequential, low-memory and full-memory evaluation; order characterised and refuted. The object-independence hypothesis is proved for Dirichlet and Pitman-Yor mixings."
  },
  {
   "property": "C53",
   "status": "proved",
   "theorems": [
    "C53_vstack",
    "C53_append_inplace_same",
    "C53_append_rows",
    "C53_append_fails",
    "C53_stack_vectors",
    "C53_grid_out_of_range",
    "C53_grid_rows",
    "C53_grid_complete",
    "C53_grid_lists_pairs_refuted"
   ],
   "note": "Grid characterised and refuted."
  },
  {
   "property": "C54",
   "status": "proved",
   "theorems": [
    "C54_vector_roundtrip",
    "C54_vector_short",
    "C54_matrix_stored_by_columns",
    "C54_matrix_roundtrip",
    "C54_row_major_read",
    "C54_matrix_short",
    "C54_shape_kept_refuted"
   ],
   "note": "Shape of empty matrices refuted."
  },
  {
   "property": "C55",
   "status": "proved",
   "theorems": [
    "C55_table",
    "C55_unparsable",
    "C55_roundtrip",
    "C55_all_cells_written_refuted"
   ],
   "note": "For an abstract number parser; ragged files characterised."
  },
  {
   "property": "C56",
   "status": "proved",
   "theorems": [
    "C56_similarity_fraction",
    "C56_similarity_range",
    "C56_similarity_relabel",
    "C56_estimate_relabel",
    "C56_estimate_minimises",
    "C56_estimate_uninitialised",
    "C56_estimate_empty",
    "C56_estimate_refuted"
   ],
   "note": "Uninitialised accumulators: any iteration can be returned (refuted)."
  },
  {
   "property": "C57",
   "status": "proved",
   "theorems": [
    "C57_covariate_lookup"
   ],
   "note": ""
  },
  {
   "property": "C58",
   "status": "proved",
   "theorems": [
    "C58_first_builder",
    "C58_unknown_identifier",
    "C58_by_name",
    "C58_unknown_name_throws_refuted"
   ],
   "note": "Lookup by unknown name refuted."
  },
  {
   "property": "C59",
   "status": "proved",
   "theorems": [
    "C59_relabel"
   ],
   "note": "Univariate data."
  },
  {
   "property": "C60",
   "status": "proved",
   "theorems": [
    "C60_open_table_rows",
    "C60_sweep_rows"
   ],
   "note": "Per table and per sweep."
  },
  {
   "property": "C61",
   "status": "proved",
   "theorems": [
    "C61_initialise"
   ],
   "note": ""
  },
  {
   "property": "C62",
   "status": "proved",
   "theorems": [
    "C62_histories",
    "C62_clone_shares",
    "C62_sampler_shares",
    "C62_evaluation_overwrites",
    "C62_deep_independent",
    "C62_deep_value",
    "C62_deep_copies_refuted",
    "C62_no_prior"
   ],
   "note": "Histories of any prior model; the claim that a deep clone copies the hyperparameters is refuted."
  },
  {
   "property": "C63",
   "status": "proved",
   "theorems": [
    "C63_overlap_iff",
    "C63_half_distance",
    "C63_self",
    "C63_symmetric",
    "C63_order",
    "C63_distance_refuted",
    "C63_single",
    "C63_terminates_iff",
    "C63_states",
    "C63_mixed_states",
    "C63_normal_mass",
    "C63_multi_distance",
    "C63_multi_throws_iff"
   ],
   "note": "The univariate distance is refuted with a witness and characterised; the multivariate one is proved."
  },
  {
   "property": "C64",
   "status": "proved",
   "theorems": [
    "C64_own_component_candidate",
    "C64_truncation_for_slices_read",
    "C64_truncation_for_slices_used_refuted"
   ],
   "note": "True for the slices read by the weights step, refuted for those the allocation step uses (C64_truncation_for_slices_used_refuted)."
  },
  {
   "property": "C65",
   "status": "proved",
   "theorems": [
    "C65_py_shapes",
    "C65_py_first_weight_refuted"
   ],
   "note": "Characterisation of the shapes used plus a refutation of the Pitman-Yor value."
  },
  {
   "property": "C66",
   "status": "proved",
   "theorems": [
    "C66_logit_full_conditional",
    "C66_logit_gradient"
   ],
   "note": ""
  },
  {
   "property": "C67",
   "status": "proved",
   "theorems": [
    "C67_logit_accept",
    "C67_logit_accept_refuted"
   ],
   "note": "Scalar coefficient; iff-characterisation and refutation of the Metropolis-Hastings ratio."
  },
  {
   "property": "C68",
   "status": "proved",
   "theorems": [
    "C68_mfm_loop",
    "C68_mfm_loop_positive"
   ],
   "note": ""
  },
  {
   "property": "C69",
   "status": "proved",
   "theorems": [
    "C69_mfm_partition_law",
    "C69_mfm_exchangeable"
   ],
   "note": "Common truncation K of the coefficients; the code truncates each coefficient separately (C68)."
  },
  {
   "property": "C70",
   "status": "proved",
   "theorems": [
    "C70_lapnig_throws"
   ],
   "note": ""
  },
  {
   "property": "C71",
   "status": "proved",
   "theorems": [
    "C71_nig_sample",
    "C71_nxig_sample"
   ],
   "note": ""
  },
  {
   "property": "C72",
   "status": "proved",
   "theorems": [
    "C72_accepted_valid",
    "C72_updates_valid",
    "C72_ngg_variance",
    "C72_mean_variance_iff",
    "C72_mean_variance_refuted"
   ],
   "note": "Positive part proved for all priors; negative part refuted with a witness."
  },
  {
   "property": "C73",
   "status": "proved",
   "theorems": [
    "C73_nnw_predictive",
    "C73_nnw_chain",
    "C73_linreg_predictive",
    "C73_linreg_chain",
    "C73_grid"
   ],
   "note": "Normal-Wishart part for dimension at least one."
  },
  {
   "property": "C74",
   "status": "proved",
   "theorems": [
    "C74_scores_exact",
    "C74_loadings_exact",
    "C74_mean_exact_iff",
    "C74_mean_draw_refuted"
   ],
   "note": "Iff-characterisation and refutation for the mean."
  },
  {
   "property": "C75",
   "status": "proved",
   "theorems": [
    "C75_prior_draw_unusable",
    "C75_draw_after_prior_draw",
    "C75_initial_state",
    "C75_through_message"
   ],
   "note": ""
  },
  {
   "property": "C76",
   "status": "proved",
   "theorems": [
    "C76_accepted_nw",
    "C76_initial_nw_valid",
    "C76_accepted_mnig",
    "C76_initial_mnig_valid",
    "C76_update_valid"
   ],
   "note": ""
  },
  {
   "property": "C77",
   "status": "proved",
   "theorems": [
    "C77_mean_update",
    "C77_ngiw_mean",
    "C77_scale_update",
    "C77_scaling_exact_iff",
    "C77_scaling_update_refuted"
   ],
   "note": "Iff-characterisation and refutation for the scaling."
  },
  {
   "property": "C78",
   "status": "proved",
   "theorems": [
    "C78_diag_generator",
    "C78_precision_generator"
   ],
   "note": ""
  },
  {
   "property": "C79",
   "status": "proved",
   "theorems": [
    "C79_writer_closes_own",
    "C79_writer_closes_foreign_refuted"
   ],
   "note": "Characterised and refuted."
  },
  {
   "property": "C80",
   "status": "proved",
   "theorems": [
    "C80_dirichlet_evaluation_changes_mass",
    "C80_finite_mixture_stale_coefficients",
    "C80_finite_mixture_stale_table",
    "C80_evaluation_leaves_no_trace_refuted"
   ],
   "note": "Characterised and refuted."
  },
  {
   "property": "C81",
   "status": "proved",
   "theorems": [
    "C81_split_undone_by_merge",
    "C81_detailed_balance"
   ],
   "note": "Generic over conjugate hierarchies; detailed balance for the normal model."
  },
  {
   "property": "C82",
   "status": "proved",
   "theorems": [
    "C82_step",
    "C82_run",
    "C82_get_state"
   ],
   "note": "Univariate data, conversion of minus infinity defined."
  },
  {
   "property": "C83",
   "status": "proved",
   "theorems": [
    "C83_empty_table_undefined",
    "C83_run_undefined"
   ],
   "note": "Empty tables and unused shared atoms; every run with adaptation."
  },
  {
   "property": "C84",
   "status": "proved",
   "theorems": [
    "C84_truncated_log_weights",
    "C84_count_weights_refuted"
   ],
   "note": "Bounds and refutation of equality."
  },
  {
   "property": "C85",
   "status": "proved",
   "theorems": [
    "C85_leave_shared",
    "C85_shared_counts_refuted"
   ],
   "note": "Characterised; exactness of the counts refuted."
  },
  {
   "property": "C86",
   "status": "proved",
   "theorems": [
    "C86_to_shared_keeps_objects",
    "C86_shared_coherent_refuted",
    "C86_restored"
   ],
   "note": "Refuted with a witness; restoration proved."
  },
  {
   "property": "C87",
   "status": "proved",
   "theorems": [
    "C87_atoms_given_their_data"
   ],
   "note": ""
  },
  {
   "property": "C88",
   "status": "proved",
   "theorems": [
    "C88_second_run_undefined"
   ],
   "note": ""
  },
  {
   "property": "C89",
   "status": "proved",
   "theorems": [
    "C89_multivariate_undefined"
   ],
   "note": ""
  },
  {
   "property": "C90",
   "status": "proved",
   "theorems": [
    "C90_collecting_undefined"
   ],
   "note": "The cast between unrelated message types is modelled as undefined."
  },
  {
   "property": "C91",
   "status": "proved",
   "theorems": [
    "C91_private_choice_refuted"
   ],
   "note": "Refuted with a witness."
  },
  {
   "property": "C92",
   "status": "proved",
   "theorems": [
    "C92_unknown_mode"
   ],
   "note": ""
  },
  {
   "property": "C93",
   "status": "proved",
   "theorems": [
    "C93_empty_table_weight"
   ],
   "note": ""
  },
  {
   "property": "C94",
   "status": "proved",
   "theorems": [
    "C94_mesh_constant",
    "C94_mesh_throws_iff",
    "C94_mesh_square",
    "C94_mesh_overrun",
    "C94_mesh_product",
    "C94_mesh_product_cells",
    "C94_regular_grids_refuted"
   ],
   "note": "All cases characterised; the claim that regular grids are plotted is refuted."
  },
  {
   "property": "C95",
   "status": "proved",
   "theorems": [
    "C95_bar_chart",
    "C95_bar_wide",
    "C95_bar_empty"
   ],
   "note": ""
  },
  {
   "property": "C96",
   "status": "proved",
   "theorems": [
    "C96_density_line",
    "C96_density_plane",
    "C96_density_throws_iff",
    "C96_density_skipped_iff"
   ],
   "note": "At least one iteration; an empty matrix gives NaN, which is not modelled."
  },
  {
   "property": "C97",
   "status": "proved",
   "theorems": [
    "C97_r_roundtrip",
    "C97_r_empty_between",
    "C97_r_last_empty_dropped",
    "C97_r_cut",
    "C97_r_agrees_with_python",
    "C97_r_roundtrip_refuted",
    "C97_r_prefix_refuted"
   ],
   "note": "Every cut is covered; the round trip with empty messages is refuted."
  },
  {
   "property": "C98",
   "status": "proved",
   "theorems": [
    "C98_outputs_memory",
    "C98_outputs_file",
    "C98_outputs_unwritten"
   ],
   "note": ""
  },
  {
   "property": "C99",
   "status": "proved",
   "theorems": [
    "C99_neal2_counts",
    "C99_proper_counts",
    "C99_blocked_counts_refuted"
   ],
   "note": "Neal 2 in full, other samplers through the partition invariant; blocked Gibbs is refuted."
  },
  {
   "property": "C100",
   "status": "proved",
   "theorems": [
    "C100_literal_grammar",
    "C100_value_like",
    "C100_parse_pairs",
    "C100_refused",
    "C100_help",
    "C100_trailing_option",
    "C100_missing_value_refused_refuted",
    "C100_defaults_usable_refuted"
   ],
   "note": "The readable default of --coll-name and the refusal of a missing last value are refuted."
  },
  {
   "property": "C101",
   "status": "proved",
   "theorems": [
    "C101_outputs",
    "C101_other_files",
    "C101_refused",
    "C101_unwritable",
    "C101_no_collector_name",
    "C101_failure_empties",
    "C101_failure_keeps_outputs_refuted",
    "C101_inputs_kept_refuted"
   ],
   "note": "Names of inputs and outputs are assumed distinct; without that the data can be lost, which is refuted with a witness, as is the survival of old outputs."
  },
  {
   "property": "C102",
   "status": "proved",
   "theorems": [
    "C102_command",
    "C102_accepted",
    "C102_inputs_written",
    "C102_failures_reported_refuted",
    "C102_status_ignored",
    "C102_any_path_refuted"
   ],
   "note": "Command, inputs and results proved; reported failures and arbitrary paths are refuted."
  },
  {
   "property": "C103",
   "status": "proved",
   "theorems": [
    "C103_command",
    "C103_failures_reported",
    "C103_failure_deletes",
    "C103_accepted",
    "C103_same_as_python",
    "C103_failure_keeps_files_refuted"
   ],
   "note": "The survival of the caller's files is refuted; names with characters special to the shell are outside the model."
  },
  {
   "property": "C104",
   "status": "proved",
   "theorems": [
    "C104_r_end_to_end",
    "C104_py_end_to_end"
   ],
   "note": "For Python under the assumption that the program ended with status 0, which the wrapper does not check."
  },
  {
   "property": "C105",
   "status": "proved",
   "theorems": [
    "C105_gamma_function",
    "C105_nig_normalised",
    "C105_nxig_normalised",
    "C105_gamma_normalised",
    "C105_marginal_integral",
    "C105_predictive_integral",
    "C105_posterior_predictive",
    "C105_predictive_normalised",
    "C105_likelihoods_normalised"
   ],
   "note": "Over the half plane of means and variances the integral is iterated, mean first."
  },
  {
   "property": "C106",
   "status": "proved",
   "theorems": [
    "C106_conjugate_dirichlet",
    "C106_conjugate_pitman_yor",
    "C106_conjugate_finite",
    "C106_auxiliary_dirichlet",
    "C106_auxiliary_pitman_yor",
    "C106_stick_density",
    "C106_blocked_density",
    "C106_slice_density_refuted",
    "C106_slice_mass_below_one"
   ],
   "note": "Univariate hierarchies. Proved for marginal algorithms and blocked Gibbs; refuted for the slice sampler, where the mass is one minus the weight left after the last stick."
  },
  {
   "property": "C107",
   "status": "proved",
   "theorems": [
    "C107_wishart_normalised",
    "C107_nw_normalised",
    "C107_nnw_marginal_integral",
    "C107_nnw_predictive_integral",
    "C107_nnw_posterior_predictive",
    "C107_nnw_predictive_normalised",
    "C107_mnig_normalised",
    "C107_linreg_marginal_integral",
    "C107_linreg_predictive_integral",
    "C107_linreg_posterior_predictive",
    "C107_linreg_predictive_normalised",
    "C107_likelihoods_normalised",
    "C107_fa_scores_integral",
    "C107_matrix_integral_one"
   ],
   "note": "Matrices are integrated over pivot, then Schur column, then the rest; the Jacobian of these coordinates is part of the definition of the integral, and C107_matrix_integral_one ties dimension one to the half line."
  },
  {
   "property": "C108",
   "status": "proved",
   "theorems": [
    "C108_conjugate_dirichlet",
    "C108_conjugate_pitman_yor",
    "C108_conjugate_finite",
    "C108_auxiliary_dirichlet",
    "C108_auxiliary_pitman_yor",
    "C108_stick_density",
    "C108_blocked_density",
    "C108_slice_mass_below_one"
   ],
   "note": "Normal, factor-analytic and regression likelihoods; for the slice sampler the mass is below one."
  },
  {
   "property": "C109",
   "status": "proved",
   "theorems": [
    "C109_bayes",
    "C109_posterior_valid",
    "C109_marginal_integral",
    "C109_statistics",
    "C109_init_iff",
    "C109_messages",
    "C109_hypers_complete_refuted",
    "C109_initial_state",
    "C109_conjugate_without_marginal",
    "C109_evaluated_density"
   ],
   "note": "Completeness of the stored hyperparameters is refuted; the hierarchy has no marginal likelihood, which the conjugate algorithms need."
  },
  {
   "property": "C110",
   "status": "proved",
   "theorems": [
    "C110_run",
    "C110_density",
    "C110_first_cluster",
    "C110_redraw_refuted"
   ],
   "note": "Redrawing the rate of the first cluster from its posterior is refuted."
  },
  {
   "property": "C111",
   "status": "proved",
   "theorems": [
    "C111_gamma_recursion",
    "C111_augmentation",
    "C111_mass_given_auxiliary",
    "C111_mass_normalised",
    "C111_update",
    "C111_auxiliary_refuted",
    "C111_auxiliary_never"
   ],
   "note": "The draw of the total mass is exact; that the auxiliary variable is drawn from its full conditional is refuted: the code draws a gamma variable where the law is a beta."
  },
  {
   "property": "C112",
   "status": "proved",
   "theorems": [
    "C112_neal2_normal",
    "C112_neal3_normal",
    "C112_neal8_normal",
    "C112_neal8_semiconjugate",
    "C112_neal8_laplace",
    "C112_programs_end",
    "C112_never_undefined",
    "C112_gamma_mass_throws",
    "C112_gamma_mass_ends_refuted"
   ],
   "note": "That every run ends without throwing is refuted for a gamma prior on the total mass; it is proved for fixed parameters. The Laplace hierarchy is run with the random-walk updater (its default updater throws, C70)."
  },
  {
   "property": "C113",
   "status": "proved",
   "theorems": [
    "C113_initialised",
    "C113_weights",
    "C113_update",
    "C113_rates",
    "C113_rates_refuted",
    "C113_threshold",
    "C113_langevin_refuted",
    "C113_langevin_scale",
    "C113_no_covariates",
    "C113_stored",
    "C113_stored_refuted"
   ],
   "note": "Refuted: rates before the first update, the covariance of the Langevin proposal, storage into an object with another number of components. The last weight is logistic(1) times what is left; without covariates the update aborts."
  },
  {
   "property": "C114",
   "status": "proved",
   "theorems": [
    "C114_normal",
    "C114_semiconjugate",
    "C114_laplace",
    "C114_infinite",
    "C114_infinite_refuted",
    "C114_no_components",
    "C114_more_components",
    "C114_last_shape",
    "C114_last_shape_refuted",
    "C114_any_components_refuted",
    "C114_logit",
    "C114_logit_never",
    "C114_logit_density_refuted"
   ],
   "note": "Refuted: completion for no component or more components than observations, completion for an accepted beta prior whose last shape is not positive, unit mass with infinite_mixture set, unit mass with logit stick breaking (it never holds)."
  },
  {
   "property": "C115",
   "status": "proved",
   "theorems": [
    "C115_normal",
    "C115_semiconjugate",
    "C115_laplace",
    "C115_ends",
    "C115_outcome",
    "C115_loop_refuted",
    "C115_short_sticks",
    "C115_answers_refuted",
    "C115_density_refuted"
   ],
   "note": "Refuted: that every run ends (summable stick lengths keep the loop going for ever), that a run never throws, unit mass for infinite mixtures. Stick priors have positive shapes; termination is proved for the conjugate normal hierarchy."
  },
  {
   "property": "C116",
   "status": "proved",
   "theorems": [
    "C116_ngg",
    "C116_normal_mean",
    "C116_fixed",
    "C116_total_mass",
    "C116_mixing_fixed",
    "C116_unique",
    "C116_ngiw",
    "C116_multi_mean",
    "C116_multi_fixed",
    "C116_mode_unique"
   ],
   "note": ""
  },
  {
   "property": "C117",
   "status": "proved",
   "theorems": [
    "C117_normal_wishart",
    "C117_hyperparameters_updated",
    "C117_regression",
    "C117_programs_end",
    "C117_never_undefined",
    "C117_missing_covariates"
   ],
   "note": "A regression program without covariates is not rejected and has undefined behaviour (C117_missing_covariates)."
  },
  {
   "property": "C118",
   "status": "proved",
   "theorems": [
    "C118_normal_wishart",
    "C118_regression"
   ],
   "note": ""
  },
  {
   "property": "C119",
   "status": "proved",
   "theorems": [
    "C119_normal",
    "C119_normal_ends",
    "C119_normal_never_undefined",
    "C119_single"
   ],
   "note": "With one observation the program throws or has undefined behaviour (C119_single)."
  },
  {
   "property": "C120",
   "status": "proved",
   "theorems": [
    "C120_normal_wishart",
    "C120_normal_wishart_ends",
    "C120_normal_wishart_never_undefined",
    "C120_regression_undefined"
   ],
   "note": "For the linear regression the property is the opposite: undefined behaviour (C120_regression_undefined)."
  },
  {
   "property": "C121",
   "status": "proved",
   "theorems": [
    "C121_table_transparent",
    "C121_step",
    "C121_outcome",
    "C121_saved",
    "C121_alone_undefined",
    "C121_last_undefined",
    "C121_first_completes",
    "C121_normal",
    "C121_semiconjugate",
    "C121_laplace",
    "C121_defined_refuted"
   ],
   "note": "The table is not carried over between calls in the model; C121_table_transparent shows that this changes nothing."
  },
  {
   "property": "C122",
   "status": "proved",
   "theorems": [
    "C122_neal3_weights",
    "C122_neal2_weights",
    "C122_coefficients_exist"
   ],
   "note": ""
  },
  {
   "property": "C123",
   "status": "proved",
   "theorems": [
    "C123_converges",
    "C123_limit",
    "C123_unique",
    "C123_normal",
    "C123_normal_wishart",
    "C123_regression"
   ],
   "note": "For the Dirichlet process as built by the factory the limit is that of total mass one (C35_factory_dirichlet)."
  },
  {
   "property": "C124",
   "status": "proved",
   "theorems": [
    "C124_labels",
    "C124_parameters",
    "C124_sticks",
    "C124_first_component",
    "C124_every_component_refuted"
   ],
   "note": "The exception for the first component is C124_first_component and C124_every_component_refuted."
  },
  {
   "property": "C125",
   "status": "proved",
   "theorems": [
    "C125_independent",
    "C125_dependent",
    "C125_joint_never",
    "C125_joint_refuted",
    "C125_regression",
    "C125_factors",
    "C125_nnw_mean",
    "C125_nnw_precision_iff",
    "C125_nnw_precision_refuted"
   ],
   "note": "Refuted: the joint mode for the normal-inverse-gamma prior (it never is), and the precision of the normal-Wishart hierarchy, which is a mode only for matching hyperparameters (C125_nnw_precision_iff)."
  },
  {
   "property": "C126",
   "status": "proved",
   "theorems": [
    "C126_pairs",
    "C126_outputs",
    "C126_other_files",
    "C126_incomplete_requests",
    "C126_refused",
    "C126_unwritable",
    "C126_completes",
    "C126_after_run",
    "C126_asked_plot_drawn_refuted",
    "C126_missing_data_refused_refuted",
    "C126_failure_keeps_plots_refuted",
    "C126_data_kept_refuted"
   ],
   "note": "Refuted: that every plot asked for is drawn or refused, that old plots survive a failed run, that the data survive a plot with their name."
  },
  {
   "property": "C127",
   "status": "proved",
   "theorems": [
    "C127_weight",
    "C127_weight_conjugate",
    "C127_restaurant_weights",
    "C127_step",
    "C127_full",
    "C127_metro_base",
    "C127_metro_base_reversible",
    "C127_metro_dist",
    "C127_leave",
    "C127_seat",
    "C127_sweep",
    "C127_open_private",
    "C127_open_shared",
    "C127_dish",
    "C127_table_data",
    "C127_moved_observations",
    "C127_pseudo_prior",
    "C127_pseudo_weights",
    "C127_metro_dist_reversible_refuted",
    "C127_mixture_mass",
    "C127_mixture_is_density_refuted",
    "C127_base_measure_refuted",
    "C127_new_dish_refuted"
   ],
   "note": "Refuted: reversibility of the distance-based move, unit mass of a restaurant's mixture and of the shared base measure, the marginal likelihood of a new dish."
  },
  {
   "property": "C128",
   "status": "proved",
   "theorems": [
    "C128_plots_of_a_run",
    "C128_reads_nearest",
    "C128_too_large",
    "C128_too_small",
    "C128_integers",
    "C128_integers_refuted",
    "C128_double_precision_refuted",
    "C128_other_separator_refuted",
    "C128_six_digits",
    "C128_small_integers",
    "C128_written_injective_refuted",
    "C128_double_files",
    "C128_integer_files",
    "C128_no_number",
    "C128_special",
    "C128_hexadecimal",
    "C128_six_digits_nearest"
   ],
   "note": "Refuted: double precision of the data, exactness of larger integers, that another separator is noticed, that different doubles have different texts."
  },
  {
   "property": "C129",
   "status": "proved",
   "theorems": [
    "C129_neal8_step",
    "C129_neal8_step_mfm",
    "C129_invariant",
    "C129_discrete"
   ],
   "note": "C129_invariant is for real-valued expectations of exchangeable draws, with integrability of the three functions that occur as hypotheses; C129_discrete discharges them for priors with finitely many values."
  },
  {
   "property": "C130",
   "status": "proved",
   "theorems": [
    "C130_regression_roundtrip",
    "C130_regression_onto",
    "C130_regression_jacobian",
    "C130_multi_sizes",
    "C130_multi_roundtrip",
    "C130_multi_onto",
    "C130_multi_jacobian_throws",
    "C130_multi_jacobian_refuted"
   ],
   "note": "Refuted: the log-determinant of the multivariate transformation, which always throws. Stan's functions are written from their reference."
  },
  {
   "property": "C131",
   "status": "proved",
   "theorems": [
    "C131_neal2",
    "C131_neal8",
    "C131_neal3",
    "C131_split_merge",
    "C131_split_merge_no_scan_refuted",
    "C131_blocked",
    "C131_slice",
    "C131_normal"
   ],
   "note": "Refuted for split-merge without full scans, whose parameters are drawn from posteriors under outdated hyperparameters."
  },
  {
   "property": "C132",
   "status": "proved",
   "theorems": [
    "C132_round_trip",
    "C132_allocations",
    "C132_chain",
    "C132_cut_refuted",
    "C132_unknown_field",
    "C132_last_value",
    "C132_cut_nested"
   ],
   "note": "Refuted: that a chain file cut inside a state yields in Python only states that were written. The wire format is written from its reference."
  },
  {
   "property": "C133",
   "status": "proved",
   "theorems": [
    "C133_reads",
    "C133_file",
    "C133_shipped",
    "C133_unknown_name",
    "C133_twice",
    "C133_oneof_twice",
    "C133_wrong_bracket",
    "C133_mistake_stops_refuted",
    "C133_missing_file",
    "C133_zero_twice_refuted"
   ],
   "note": "Refuted: that a mistake in a configuration file stops the program; it is printed and the run goes on with the fields read so far. Refuted: that a second value is always reported (not after a value of zero). The text format is written from its reference, without its escapes, Any, extensions and groups."
  },
  {
   "property": "C134",
   "status": "proved",
   "theorems": [
    "C134_algorithm",
    "C134_dirichlet",
    "C134_pitman_yor",
    "C134_finite",
    "C134_normal",
    "C134_semiconjugate",
    "C134_missing_stops",
    "C134_omitted_stops",
    "C134_mistake_stops_refuted",
    "C134_tutorial",
    "C134_tutorial_completes_refuted"
   ],
   "note": "Refuted: that a mistake in the file of a prior stops the program. Refuted: that the program of the tutorial always completes."
  },
  {
   "property": "C135",
   "status": "proved",
   "theorems": [
    "C135_run",
    "C135_exits",
    "C135_sampler_ends"
   ],
   "note": "Density evaluation and cluster estimate stay parameters; other registered algorithms, hierarchies and mixings, and settings that are infinite or not a number, are outside the model."
  },
  {
   "property": "C136",
   "status": "proved",
   "theorems": [
    "C136_multivariate",
    "C136_regression",
    "C136_factor",
    "C136_truncated",
    "C136_logit",
    "C136_short_vector",
    "C136_omitted_stops",
    "C136_factor_omitted_stops_refuted",
    "C136_tutorial",
    "C136_laplace_file_fits_refuted",
    "C136_no_components_refuted"
   ],
   "note": "Refuted: that leaving out the vectors of the factor hierarchy ends the program (the shipped example does); that the shipped file for the Laplace hierarchy fits its prior; that a truncated stick-breaking prior without components is refused."
  },
  {
   "property": "C137",
   "status": "proved",
   "theorems": [
    "C137_density",
    "C137_order",
    "C137_order_refuted",
    "C137_best",
    "C137_exits"
   ],
   "note": "The univariate programs of C135 (NNIG with Neal2, Neal3, Neal8; NNxIG with Neal8; DP and PY). Refuted: that the rows of the density file are in the order of the iterations."
  },
  {
   "property": "C138",
   "status": "proved",
   "theorems": [
    "C138_r",
    "C138_python"
   ],
   "note": "The univariate programs of C135. The Python function does not look at the exit status of the program (C102_failures_reported_refuted), hence the hypothesis on it there."
  },
  {
   "property": "C139",
   "status": "proved",
   "theorems": [
    "C139_answers",
    "C139_values",
    "C139_accepted",
    "C139_no_state",
    "C139_no_draw",
    "C139_given",
    "C139_twice",
    "C139_positive_refuted"
   ],
   "note": "No code of the repository calls the function. Refuted: that the scales are positive (below shape 1 they are negative and nothing is thrown). The prior's member dim stays 0, so afterwards the state cannot be set up again and draws from the prior draw nothing (C139_no_state, C139_no_draw)."
  },
  {
   "property": "C140",
   "status": "proved",
   "theorems": [
    "C140_r",
    "C140_r_failures",
    "C140_py_blind",
    "C140_py",
    "C140_py_keeps",
    "C140_py_last_refuted",
    "C140_py_failure_refuted"
   ],
   "note": "Refuted for Python: that a run calls the program of the last build (the variable of the first run of a process stays), and that a build whose commands fail is reported (run_shell does not look at the exit status, so the handlers of CalledProcessError are never reached)."
  },
  {
   "property": "C141",
   "status": "proved",
   "theorems": [
    "C141_helper",
    "C141_same",
    "C141_optimized",
    "C141_optimized_differs",
    "C141_optimized_refuted",
    "C141_upper_iff",
    "C141_upper_refuted"
   ],
   "note": "Refuted: that the fully optimized function gives the density (half of the constant is lost), and that the upper factor of the benchmarks gives it."
  }
 ]
}