{"id": "C01", "title": "Neal2/Neal3 sweeps always leave a proper partition", "statement": "Starting from a proper clustering state of n >= 2 observations (every label smaller than the number of clusters; every cluster's stored index set is exactly the set of observations carrying its label; its stored cardinality is the size of that set; no cluster is empty), a full allocation sweep of Neal2 or Neal3 neither throws, aborts nor performs an out-of-range access, and ends in a proper clustering state of the same n observations.", "quantifier": "for every dataset size n >= 2, every starting partition and every outcome of every random draw, any number of sweeps", "why_tests_cant": "The sweep is a history-dependent loop of removals, relabelings and insertions; a test sees one seed and one dataset.", "anchors": ["src/algorithms/neal2_algorithm.cc: Neal2Algorithm::sample_allocations", "src/algorithms/neal3_algorithm.h", "src/algorithms/marginal_algorithm.cc: MarginalAlgorithm::remove_singleton", "src/hierarchies/likelihoods/base_likelihood.h: add_datum/remove_datum"]}
{"id": "C02", "title": "Neal8 sweeps always leave a proper partition", "statement": "With at least one auxiliary component, an allocation sweep of Neal8 started from a proper clustering state of n >= 1 observations never errs and ends in a proper clustering state; auxiliary components never hold data. With zero auxiliary components, reallocating an observation that is alone in its cluster accesses a non-existing auxiliary component.", "quantifier": "for every n >= 1, every n_aux, every starting partition, every outcome of every draw", "why_tests_cant": "Needs all partitions and all draw sequences; the out-of-range access with n_aux = 0 needs a configuration no test uses.", "anchors": ["src/algorithms/neal8_algorithm.cc: Neal8Algorithm::sample_allocations, initialize, read_params_from_proto"]}
{"id": "C03", "title": "Split-merge sweeps always leave a proper partition", "statement": "A split-merge allocation update (any number of Metropolis-Hastings updates, restricted and full Gibbs scans) started from a proper clustering of n >= 2 observations never errs, whatever proposals are accepted, and ends in a proper clustering of the same observations.", "quantifier": "for every n >= 2, every starting partition, all iteration counts, every outcome of every draw", "why_tests_cant": "The accepted split and the accepted merge rewrite labels of many observations in an order-dependent loop; exhaustive testing is impossible.", "anchors": ["src/algorithms/split_and_merge_algorithm.cc: SplitAndMergeAlgorithm::sample_allocations, proposal_update_allocations, restricted_gs, full_gs"]}
{"id": "C04", "title": "Blocked Gibbs keeps labels and components consistent", "statement": "A blocked Gibbs allocation sweep keeps the number of components constant, gives every observation a label smaller than it, and keeps each component's stored observations and cardinality equal to the observations carrying its label (components may be empty).", "quantifier": "for every n, every number of components >= 1, every starting allocation, every outcome of every draw", "why_tests_cant": "All allocation histories are quantified.", "anchors": ["src/algorithms/blocked_gibbs_algorithm.cc: BlockedGibbsAlgorithm::sample_allocations"]}
{"id": "C05", "title": "Slice sampler keeps labels and components consistent", "statement": "Whenever each observation has at least one component whose weight exceeds its slice variable, a slice-sampler iteration (weights, slice, allocation) keeps every label in range and each component's stored observations equal to those carrying its label; trimming trailing components never discards a component that owns observations.", "quantifier": "for every n, every starting state, every weight/slice draw sequence satisfying the stated condition", "why_tests_cant": "Components are created and destroyed depending on real-valued draws.", "anchors": ["src/algorithms/slice_sampler.cc: SliceSampler::sample_weights, sample_allocations"]}
{"id": "C06", "title": "Initialisation establishes a proper partition exactly when the requested clusters do not exceed the data", "statement": "Algorithm initialisation with k initial clusters on n observations ends in a proper clustering with exactly k non-empty clusters when 1 <= k <= n (and with n singletons when the mixing leaves 0 components); when k > n it writes outside the allocation vector.", "quantifier": "for every n >= 1, every k, every outcome of the initial random allocations", "why_tests_cant": "Unbounded n and k, and the failing region is undefined behaviour that a test cannot detect reliably.", "anchors": ["src/algorithms/base_algorithm.cc: BaseAlgorithm::initialize"]}
{"id": "C07", "title": "A run saves exactly the post burn-in iterations, in order", "statement": "A completed run with maxiter and burnin saves exactly max(0, maxiter - burnin) states, the i-th of which is the state reached after burnin + i + 1 steps and carries iteration number burnin + i; with burnin >= maxiter nothing is saved.", "quantifier": "for every maxiter, burnin and every step function (any algorithm, any draws)", "why_tests_cant": "Loop over unbounded iteration counts.", "anchors": ["src/algorithms/base_algorithm.h: BaseAlgorithm::run, save_state", "src/collectors/base_collector.h"]}
{"id": "C08", "title": "Configuration validation is complete and ordered", "statement": "Initialisation throws for every ill-formed configuration (no data, no hierarchy, non-conjugate hierarchy with a conjugate-only algorithm, multi-column data with a univariate hierarchy, covariates given to a non-dependent hierarchy or mixing, covariate row count different from the data, missing mixing, marginal/conditional mismatch), before touching any allocation, and for no other configuration.", "quantifier": "for every combination of data shape, hierarchy, mixing, covariates and algorithm", "why_tests_cant": "The cross product of all flags and sizes is infinite and the order of the checks matters.", "anchors": ["src/algorithms/base_algorithm.cc: BaseAlgorithm::initialize lines 56-118"]}
{"id": "C09", "title": "Dropping an emptied cluster preserves co-clustering", "statement": "Removing an emptied cluster and shifting labels keeps exactly the same pairs of observations clustered together, keeps each remaining cluster's parameters attached to the same observations, and keeps labels contiguous.", "quantifier": "for every allocation vector, every cluster index without observations", "why_tests_cant": "All allocation vectors of all lengths.", "anchors": ["src/algorithms/marginal_algorithm.cc: MarginalAlgorithm::remove_singleton"]}
{"id": "C10", "title": "One observation: which marginal samplers are defined", "statement": "On a dataset with a single observation, Neal2 and Neal3 (and split-merge's full scan) dereference a non-existing first cluster while reallocating it, whatever is drawn; split-merge with at least one Metropolis-Hastings update throws while choosing the second observation; Neal8 is well defined.", "quantifier": "for every hierarchy, mixing, parameter state and draw sequence with n = 1", "why_tests_cant": "Undefined behaviour may silently pass a test.", "anchors": ["src/algorithms/neal2_algorithm.cc: sample_allocations, get_cluster_lpdf", "src/algorithms/split_and_merge_algorithm.cc: sample_allocations", "src/algorithms/neal8_algorithm.cc: sample_allocations"]}
{"id": "C11", "title": "Running the same algorithm object twice", "statement": "A second run on the same algorithm object, without setting the hierarchy again, starts from a state in which stored clusters and allocation labels disagree (clusters left over from the first run are kept); setting the hierarchy again before the second run restores the guarantee of C06.", "quantifier": "for every state left by the first run with at least one cluster", "why_tests_cant": "Requires the state after an arbitrary first run.", "anchors": ["src/algorithms/base_algorithm.cc: initialize", "src/algorithms/base_algorithm.h: run, set_hierarchy"]}
{"id": "C12", "title": "Parameter updates without cached posteriors use the cluster's own data, except for the first initial cluster", "statement": "In algorithms that do not keep cached posterior hyperparameters (Neal2, Neal8, blocked Gibbs, slice), every cluster created after initialisation redraws its parameters from the posterior of its current data; the cluster object created first by initialisation with a conjugate hierarchy instead keeps redrawing them from the prior as long as it lives.", "quantifier": "for every sequence of reallocations, parameter updates and draws", "why_tests_cant": "The distribution used is invisible to a test that only sees draws; the flag is set once and consulted arbitrarily later.", "anchors": ["src/hierarchies/base_hierarchy.h: initialize, clone, sample_full_cond", "src/hierarchies/updaters/semi_conjugate_updater.h: draw, get_posterior_hypers", "src/hierarchies/updaters/abstract_updater.h"]}
{"id": "C13", "title": "Cached posteriors are fresh whenever they are read in Neal3", "statement": "With fixed hierarchy hyperparameters, every time Neal3 evaluates a cluster's predictive density or draws its parameters, the cached posterior hyperparameters equal those computed from the cluster's current data; if the hierarchy hyperparameters are updated between sweeps the cache of untouched clusters is stale in the next sweep.", "quantifier": "for every allocation history and draw sequence", "why_tests_cant": "Freshness is an invariant over all histories.", "anchors": ["src/algorithms/neal3_algorithm.h", "src/algorithms/neal2_algorithm.cc", "src/hierarchies/base_hierarchy.h: add_datum/remove_datum/save_posterior_hypers", "src/algorithms/base_algorithm.cc: update_hierarchy_hypers"]}
{"id": "C14", "title": "Neal8 auxiliary parameters", "statement": "In each Neal8 reallocation, when the observation was a singleton its old parameters are offered as the first auxiliary component and only the others are refreshed from the prior, otherwise all are refreshed; a newly opened cluster receives exactly the parameters of the auxiliary component chosen.", "quantifier": "for every state, observation and outcome of draws", "why_tests_cant": "All states and draws.", "anchors": ["src/algorithms/neal8_algorithm.cc: sample_allocations"]}
{"id": "C15", "title": "Incremental sufficient statistics equal batch statistics", "statement": "After any sequence of datum insertions and removals performed through the hierarchy API, each cluster's stored sufficient statistics (normal: sum and sum of squares; multivariate normal: vector sum and sum of outer products; linear regression: X'X, X'y, y'y; factor analyser: sum) equal those computed from scratch from the data currently in the cluster.", "quantifier": "for every sequence of additions/removals of any length and every data values", "why_tests_cant": "All histories; tests use a handful of insertions.", "anchors": ["src/hierarchies/likelihoods/uni_norm_likelihood.cc", "src/hierarchies/likelihoods/multi_norm_likelihood.cc", "src/hierarchies/likelihoods/uni_lin_reg_likelihood.cc", "src/hierarchies/likelihoods/fa_likelihood.cc"]}
{"id": "C16", "title": "NNIG posterior hyperparameters satisfy Bayes' rule", "statement": "For every data list and every valid hyperparameters, prior log-density of (mean, variance) plus the data's normal log-likelihood minus the log-density under the computed posterior hyperparameters does not depend on (mean, variance), so the computed hyperparameters are those of the exact posterior.", "quantifier": "for every data list, hyperparameters with positive scale parameters and every parameter value with positive variance", "why_tests_cant": "Identity over reals with unbounded data.", "anchors": ["src/hierarchies/updaters/nnig_updater.cc: compute_posterior_hypers"]}
{"id": "C17", "title": "NNIG predictive density is the ratio prior x likelihood / posterior", "statement": "The marginal (Student-t) log-density returned for one observation equals log prior + log likelihood - log posterior-given-that-observation at every parameter value.", "quantifier": "for every observation, hyperparameters and parameter value (log-gamma function only assumed to satisfy its recurrence-free algebra, i.e. kept abstract)", "why_tests_cant": "Real identity in seven variables.", "anchors": ["src/hierarchies/nnig_hierarchy.h: marg_lpdf", "src/hierarchies/updaters/nnig_updater.cc"]}
{"id": "C18", "title": "Posterior hyperparameters stay valid", "statement": "Posterior hyperparameters computed from valid hyperparameters and any data are valid again: NNIG keeps precision factor, shape and scale positive; the multivariate version keeps the inverse scale matrix symmetric positive definite; linear regression keeps the scale positive and the precision matrix positive definite.", "quantifier": "for every data list and every valid hyperparameters", "why_tests_cant": "Requires a sum-of-squares inequality for all data.", "anchors": ["src/hierarchies/updaters/nnig_updater.cc", "src/hierarchies/updaters/nnw_updater.cc", "src/hierarchies/updaters/mnig_updater.cc"]}
{"id": "C19", "title": "NNIG updating is order independent and compositional", "statement": "Updating with two batches one after the other gives the same hyperparameters as updating with their concatenation, and permuting the data does not change them.", "quantifier": "for every pair of data lists and every valid hyperparameters", "why_tests_cant": "Universal over lists and reals.", "anchors": ["src/hierarchies/updaters/nnig_updater.cc"]}
{"id": "C20", "title": "NNxIG full conditionals", "statement": "The mean's full-conditional parameters computed by the semi-conjugate updater are the exact normal full conditional given the current variance, and the variance's inverse-gamma parameters are the exact full conditional given the current mean; but both are drawn from the same old state, so the variance is not conditioned on the newly drawn mean.", "quantifier": "for every data list, hyperparameters and current state", "why_tests_cant": "Real identities; a draw-based test cannot see which state was conditioned on.", "anchors": ["src/hierarchies/updaters/nnxig_updater.cc", "src/hierarchies/priors/nxig_prior_model.cc: sample"]}
{"id": "C21", "title": "Multivariate normal-Wishart update satisfies Bayes' rule (quadratic part)", "statement": "For every dimension, data list and valid hyperparameters, the exponent of prior x likelihood equals the exponent of the density with the computed posterior mean, scaling and inverse scale, for every mean vector and precision matrix.", "quantifier": "for every dimension d, every data list, mean vector and symmetric precision matrix", "why_tests_cant": "Matrix identity in every dimension.", "anchors": ["src/hierarchies/updaters/nnw_updater.cc"]}
{"id": "C22", "title": "Linear-regression update satisfies Bayes' rule", "statement": "For every dimension, covariates and responses, prior quadratic form plus residual sum of squares equals posterior quadratic form plus twice the computed increase of the scale.", "quantifier": "for every dimension, data list, coefficient vector, with invertible posterior precision", "why_tests_cant": "Matrix identity in every dimension.", "anchors": ["src/hierarchies/updaters/mnig_updater.cc"]}
{"id": "C23", "title": "Cluster log-density shortcut", "statement": "The closed-form cluster log-density of the univariate normal used in Metropolis updates equals the sum of the individual observations' log-densities.", "quantifier": "for every data list and state with positive variance", "why_tests_cant": "Universal over lists.", "anchors": ["src/hierarchies/likelihoods/uni_norm_likelihood.h: cluster_lpdf_from_unconstrained", "src/hierarchies/likelihoods/uni_norm_likelihood.cc: compute_lpdf"]}
{"id": "C24", "title": "Unconstrained parametrisation", "statement": "Converting a location-scale state to unconstrained coordinates and back is the identity, in both directions, and the log-determinant used is the logarithm of the derivative of the inverse map.", "quantifier": "for every state with positive variance and every unconstrained vector", "why_tests_cant": "Universal over reals.", "anchors": ["src/hierarchies/likelihoods/states/uni_ls_state.h"]}
{"id": "C25", "title": "Multivariate normal density and the Cholesky factor", "statement": "The multivariate normal log-density routine computes the density of the precision P when given any factor C with C C' = P; states whose factor was produced by the normal-Wishart prior satisfy C' C = P instead, and there are precision matrices for which the resulting density is wrong.", "quantifier": "for every dimension, point, mean and factor (positive part); witness for the negative part", "why_tests_cant": "Needs a non-diagonal precision and an independent density; the existing tests use the same routine on both sides.", "anchors": ["src/utils/distributions.cc: multi_normal_prec_lpdf", "src/hierarchies/priors/nw_prior_model.cc: write_prec_to_state", "src/hierarchies/likelihoods/states/multi_ls_state.h"]}
{"id": "C26", "title": "Woodbury evaluation", "statement": "The factor-analyser density routine's quadratic form equals that of the inverse of Psi + Lambda Lambda' for every invertible diagonal Psi and loadings, and its determinant formula equals the determinant of that covariance.", "quantifier": "for all dimensions p, q, every loading matrix and positive diagonal, every vector", "why_tests_cant": "Matrix identity in every dimension.", "anchors": ["src/utils/distributions.cc: compute_wood_chol_and_logdet, multi_normal_lpdf_woodbury_chol"]}
{"id": "C27", "title": "Factor-analyser variance update", "statement": "The inverse-gamma shape used for the residual variances adds half the number of observations rounded down, so it is the exact full conditional for every even cluster size and differs from it for every odd one; moreover evaluation after an update still uses the precision factors of the previous parameters.", "quantifier": "for every cluster size and every state", "why_tests_cant": "Tests use one cluster size.", "anchors": ["src/hierarchies/updaters/fa_updater.cc: sample_psi, draw"]}
{"id": "C28", "title": "NIG hyperprior on the mean", "statement": "With a normal hyperprior on the mean, the hyperparameter update uses the exact full-conditional mean and standard deviation given the clusters' parameters.", "quantifier": "for every list of cluster states and hyperprior parameters", "why_tests_cant": "Real identity over unbounded lists.", "anchors": ["src/hierarchies/priors/nig_prior_model.cc: update_hypers"]}
{"id": "C29", "title": "NIG normal-gamma-gamma hyperprior", "statement": "With the normal-gamma-gamma hyperprior the location parameter's conditional variance is computed correctly but passed where a standard deviation is expected, so the draw has the exact full-conditional spread iff that variance is one.", "quantifier": "for every list of cluster states and hyperprior parameters", "why_tests_cant": "A statistical test would need to know the exact conditional.", "anchors": ["src/hierarchies/priors/nig_prior_model.cc: update_hypers"]}
{"id": "C30", "title": "Metropolis updaters and the prior", "statement": "The acceptance rule used by the Metropolis updaters is reversible with respect to the cluster likelihood only; it is reversible with respect to the posterior iff the prior density of the two points agrees.", "quantifier": "for every proposal density, pair of points, likelihood and prior", "why_tests_cant": "Detailed balance is a statement about all pairs of states.", "anchors": ["src/hierarchies/updaters/metropolis_updater.h: draw", "src/hierarchies/updaters/random_walk_updater.h", "src/hierarchies/updaters/mala_updater.h"]}
{"id": "C31", "title": "Marginal mixing masses form a probability distribution", "statement": "For the Dirichlet process and Pitman-Yor mixings, normalised masses of the existing non-empty clusters plus that of a new cluster are all positive (new cluster: non-negative) and sum to one, for every parameter value accepted by initialisation.", "quantifier": "for every list of positive cluster sizes (possibly empty when the strength is positive), every accepted parameter", "why_tests_cant": "Unbounded lists and real parameters.", "anchors": ["src/mixings/dirichlet_mixing.cc: mass_existing_cluster, mass_new_cluster, initialize_state", "src/mixings/pityor_mixing.cc"]}
{"id": "C32", "title": "Sequential masses give an exchangeable partition law", "statement": "Multiplying the masses along any order of seating the observations gives a probability that depends only on the cluster sizes (the Ewens-Pitman formula), so the implied prior on partitions does not depend on the order of observations.", "quantifier": "for every allocation sequence, every permutation of the observations, every accepted parameter", "why_tests_cant": "Quantifies over all partitions and orders.", "anchors": ["src/mixings/dirichlet_mixing.cc", "src/mixings/pityor_mixing.cc"]}
{"id": "C33", "title": "Log and linear scale, normalised and proportional masses agree", "statement": "For every mixing, the logarithmic masses are the logarithms of the linear ones whenever positive (for the Dirichlet process: provided the cached logarithm is in sync), and proportional masses differ from normalised ones by one factor common to all clusters.", "quantifier": "for every argument and accepted parameter", "why_tests_cant": "Universal over reals.", "anchors": ["src/mixings/dirichlet_mixing.cc", "src/mixings/pityor_mixing.cc", "src/mixings/mixture_finite_mixing.cc"]}
{"id": "C34", "title": "Neal2/Neal3 reallocation weights are the exact full conditional", "statement": "The weight vector used to reallocate an observation is proportional to the joint density (partition prior x likelihood, collapsed for Neal3) of the clustering obtained by each choice.", "quantifier": "for every clustering, observation and data values; Dirichlet process and Pitman-Yor", "why_tests_cant": "Equality of densities for every state.", "anchors": ["src/algorithms/neal2_algorithm.cc: get_cluster_prior_mass, get_cluster_lpdf, sample_allocations", "src/algorithms/neal3_algorithm.h"]}
{"id": "C35", "title": "Gibbs reallocation leaves the posterior invariant", "statement": "Reallocating one observation with Neal3's probabilities, and hence a full sweep over all observations, leaves the posterior distribution over clusterings unchanged.", "quantifier": "for every number of observations and all data", "why_tests_cant": "Statement about a probability distribution over all partitions.", "anchors": ["src/algorithms/neal3_algorithm.h", "src/algorithms/neal2_algorithm.cc: sample_allocations"]}
{"id": "C36", "title": "Neal8 weights", "statement": "Neal8 assigns each existing cluster the mass times likelihood, and splits the new-cluster mass equally among the auxiliary components; the total auxiliary prior mass equals the new-cluster mass for every number of auxiliary components.", "quantifier": "for every state and n_aux >= 1", "why_tests_cant": "Universal over states.", "anchors": ["src/algorithms/neal8_algorithm.cc: get_cluster_prior_mass, get_cluster_lpdf"]}
{"id": "C37", "title": "Dirichlet process log total mass", "statement": "The log-scale mass of a new cluster uses a cached logarithm that is written only when a state is loaded from a message; after plain initialisation it has never been assigned, and after a total-mass update it keeps its old value. After loading a state it equals the logarithm of the total mass.", "quantifier": "for every history of initialise / load / update operations", "why_tests_cant": "Uninitialised reads can look right in a test; staleness depends on history.", "anchors": ["src/mixings/dirichlet_mixing.cc: initialize_state, update_state, set_state_from_proto, mass_new_cluster", "src/mixings/dirichlet_mixing.h"]}
{"id": "C38", "title": "Total-mass resampling under a gamma prior", "statement": "The auxiliary variable drawn when resampling the total mass is not confined to (0,1), so the rate passed to the next gamma draw is positive iff the auxiliary value is below exp(rate); otherwise the update throws.", "quantifier": "for every accepted hyperparameters and auxiliary draw", "why_tests_cant": "Depends on rare draws.", "anchors": ["src/mixings/dirichlet_mixing.cc: update_state"]}
{"id": "C39", "title": "Finite-mixture coefficient table bounds", "statement": "The mixture-of-finite-mixtures masses access the coefficient table within bounds iff the number of clusters is smaller than the table's size minus one, which fails when all observations of the conditioning set are singletons; and the table sized by the first call is reused for later calls with other sample sizes.", "quantifier": "for every sequence of calls (n, number of clusters)", "why_tests_cant": "Out-of-bounds reads are undefined behaviour and history dependent.", "anchors": ["src/mixings/mixture_finite_mixing.cc: get_V_t, init_V_and_C, compute_V_t"]}
{"id": "C40", "title": "Finite-mixture masses are normalised", "statement": "Whenever the coefficients are positive, the normalised masses of existing clusters and of the new cluster are positive and sum to one.", "quantifier": "for every list of cluster sizes, coefficients and accepted parameters", "why_tests_cant": "Unbounded lists and reals.", "anchors": ["src/mixings/mixture_finite_mixing.cc: mass_existing_cluster, mass_new_cluster"]}
{"id": "C41", "title": "Stick-breaking weights", "statement": "Weights computed from sticks equal stick times the product of the remaining parts; they are non-negative and their sum is one minus the product of all remaining parts, so they sum to one when the last stick is one.", "quantifier": "for every number of sticks and all stick values in (0,1) (last possibly 1)", "why_tests_cant": "Unbounded number of sticks.", "anchors": ["src/mixings/truncated_sb_mixing.cc: logweights_from_sticks"]}
{"id": "C42", "title": "Stick updates are the exact full conditional", "statement": "The Beta parameters used to redraw each stick are those of its exact full conditional given the allocation counts: the product of the weights of all allocated components as a function of the sticks is proportional to the product of the updated Beta densities over the prior ones.", "quantifier": "for every list of counts, sticks in (0,1) and prior shapes", "why_tests_cant": "Unbounded lists and reals.", "anchors": ["src/mixings/truncated_sb_mixing.cc: update_state"]}
{"id": "C43", "title": "Truncated mixing before its first update and growing sticks", "statement": "Right after initialisation the truncated mixing's weights sum to less than one (the last stick is its prior mean, strictly below one) whenever the prior's shape parameters are positive; accepted priors exist (unchecked last beta shape, negative Pitman-Yor strength) for which they do not. Asking for further sticks with explicitly listed beta priors always throws, leaving the stick vector longer than the number of components.", "quantifier": "for every accepted prior", "why_tests_cant": "Universal over priors; exception path leaves modified state.", "anchors": ["src/mixings/truncated_sb_mixing.cc: initialize_state, keep_breaking, get_beta_params"]}
{"id": "C44", "title": "Logit stick-breaking weights do not sum to one", "statement": "The logit stick-breaking weights are positive and their sum is strictly below one for every covariate and coefficients, because the last component is given a logistic fraction instead of all the remaining mass; the deficit is the product of all remaining parts.", "quantifier": "for every number of components, coefficients and covariates", "why_tests_cant": "Universal over reals.", "anchors": ["src/mixings/logit_sb_mixing.cc: mixing_weights"]}
{"id": "C45", "title": "Predictive density evaluation is a proper mixture", "statement": "For marginal algorithms, the predictive density reconstructed from a saved state has one column per cluster plus one for a new cluster, and its exponentiated weights sum to one for Dirichlet, Pitman-Yor and finite mixings; for conditional algorithms it has one column per component.", "quantifier": "for every saved state and grid", "why_tests_cant": "All saved states.", "anchors": ["src/algorithms/marginal_algorithm.cc: lpdf_from_state", "src/algorithms/conditional_algorithm.cc: lpdf_from_state"]}
{"id": "C46", "title": "Split-merge acceptance uses the right prior ratio for the Dirichlet process only", "statement": "The prior part of the split acceptance ratio equals the ratio of partition probabilities for the Dirichlet process; for Pitman-Yor with positive discount it is wrong unless exactly two clusters exist before the split (the number of clusters is hard-wired to two).", "quantifier": "for every clustering and split", "why_tests_cant": "Equality of ratios over all clusterings.", "anchors": ["src/algorithms/split_and_merge_algorithm.cc: compute_log_ratios"]}
{"id": "C47", "title": "Split-merge discards covariates", "statement": "When the hierarchy depends on covariates, the split-merge algorithm adds and removes data with an empty covariate row although the data set has covariates, so the statistics update combines rows of different lengths.", "quantifier": "for every dataset with at least one covariate column", "why_tests_cant": "No test runs split-merge with covariates.", "anchors": ["src/algorithms/split_and_merge_algorithm.cc", "src/hierarchies/likelihoods/uni_lin_reg_likelihood.cc: update_sum_stats"]}
{"id": "C48", "title": "File collector: round trip and crash safety", "statement": "Reading back a finished collection returns exactly the saved states in order; if the file is cut at any byte, reading returns a prefix of the saved states and never a state that was not saved.", "quantifier": "for every list of states (any byte contents, any sizes), every crash point", "why_tests_cant": "Every truncation point of every file.", "anchors": ["src/collectors/file_collector.cc: collect, next_state, populate_buffer, read_one"]}
{"id": "C49", "title": "Chunk size is unobservable", "statement": "The sequence of states obtained by repeatedly asking for the next state, and by reading in chunks, is the same for every positive buffer/chunk size.", "quantifier": "for every stored chain and every pair of positive chunk sizes", "why_tests_cant": "All chain lengths and chunk sizes.", "anchors": ["src/collectors/file_collector.cc: next_state, populate_buffer", "src/collectors/base_collector.h: get_chunk, get_whole_chain"]}
{"id": "C50", "title": "Memory collector", "statement": "A memory collector yields exactly the collected states in order, then reports the end until reset, any number of times; after loading a chain from file it adds nothing to a size it does not reset, so loading into a collector that is not empty makes reading run past the end.", "quantifier": "for every history of collect / next / reset / load operations", "why_tests_cant": "All histories.", "anchors": ["src/collectors/memory_collector.cc", "src/collectors/memory_collector.h"]}
{"id": "C51", "title": "Python reader of saved chains", "statement": "The Python reader returns exactly the saved messages for every intact file; on a file cut inside a length prefix it fails with an index error, and on a file cut inside a message it may return a message that was never saved.", "quantifier": "for every list of messages and every truncation", "why_tests_cant": "All files.", "anchors": ["python/bayesmixpy/io_utils.py: read_many_protos_from_file"]}
{"id": "C52", "title": "Parallel density evaluation", "statement": "Parallel evaluation returns the same rows as sequential evaluation up to a permutation that depends only on the number of states and jobs; the order is the chain order iff the round-robin interleave is trivial (one job or at most as many states as jobs).", "quantifier": "for every chain length and number of jobs >= 1", "why_tests_cant": "All chain lengths; tests compare a single size.", "anchors": ["src/utils/eval_like.cc: eval_lpdf_parallel_fullmemory", "src/utils/eval_like.h: gen_even_slices"]}
{"id": "C53", "title": "Stacking and grids", "statement": "Stacking matrices row-wise keeps all rows in order and fails on inconsistent column counts; stacking an empty list is an out-of-range access; building a 2-d grid lists all pairs in every row exactly when the axes have equal length, the first has at most one point or the second is empty; it writes outside the result exactly when the first axis is longer than a non-empty second one.", "quantifier": "for every list of matrices and every pair of grids", "why_tests_cant": "All shapes.", "anchors": ["src/utils/eigen_utils.cc: vstack, append_by_row, get_2d_grid", "src/utils/eigen_utils.h: stack_vectors"]}
{"id": "C54", "title": "Matrix messages round trip", "statement": "Writing a vector or matrix to a message and reading it back returns the same object, for both storage orders handled by the reader, except that a matrix with no rows or no columns loses its shape; a message with fewer values than its shape says is read out of range.", "quantifier": "for every matrix of every shape", "why_tests_cant": "All shapes and contents.", "anchors": ["src/utils/proto_utils.cc: to_proto, to_eigen"]}
{"id": "C55", "title": "CSV reader", "statement": "Reading a rectangular text matrix returns the cells in place; a row longer than the first one writes out of range, and a shorter one leaves exactly its missing cells unwritten.", "quantifier": "for every file contents", "why_tests_cant": "All files.", "anchors": ["src/utils/io_utils.cc: read_eigen_matrix"]}
{"id": "C56", "title": "Posterior similarity and point estimate", "statement": "The posterior similarity of two observations is the fraction of saved iterations in which they share a cluster, is invariant under relabeling of each iteration, and the cluster estimate minimises the sum of squared differences between an iteration's co-clustering indicators and the similarity whenever its error accumulator starts from zero.", "quantifier": "for every matrix of saved allocations", "why_tests_cant": "All matrices.", "anchors": ["src/utils/cluster_utils.cc: posterior_similarity, cluster_estimate"]}
{"id": "C57", "title": "Covariate lookup", "statement": "The covariate getter returns an empty row without covariates, the single row for all observations when one row is given, and the observation's own row otherwise; out-of-range only if an observation index exceeds the rows.", "quantifier": "for every covariate matrix and index", "why_tests_cant": "All shapes.", "anchors": ["src/utils/covariates_getter.h"]}
{"id": "C58", "title": "Factory", "statement": "An object factory returns the object of the first builder registered for an identifier whatever later registrations do, and throws for an identifier never registered; lookup by an unknown name uses an indeterminate identifier and may create any registered object.", "quantifier": "for every registration history", "why_tests_cant": "All histories.", "anchors": ["src/runtime/factory.h: add_builder, create_object"]}
{"id": "C59", "title": "Semi-HDP relabeling", "statement": "The semi-HDP relabel step removes exactly the unused atoms, keeps every table pointing to the same atom parameters, and keeps observations' table assignments consistent.", "quantifier": "for every reachable sampler state", "why_tests_cant": "All states.", "anchors": ["src/algorithms/semihdp_sampler.cc: relabel"]}
{"id": "C60", "title": "Semi-HDP table counts", "statement": "Opening a private table appends the table's count twice, so afterwards the count vector and the table parameters have different lengths; opening a shared one keeps them equal.", "quantifier": "for every sampler state and draw choosing a new table", "why_tests_cant": "Depends on a random branch.", "anchors": ["src/algorithms/semihdp_sampler.cc: update_table_allocs"]}
{"id": "C61", "title": "Semi-HDP initialisation", "statement": "Initialisation creates five tables per group and assigns the first five observations one each, which is in range iff every group has at least five observations.", "quantifier": "for every group-size vector", "why_tests_cant": "Undefined behaviour below the bound.", "anchors": ["src/algorithms/semihdp_sampler.cc: initialize"]}
{"id": "C62", "title": "Clones share prior hyperparameters", "statement": "Shallow-cloned hierarchies share the prior hyperparameters object, so loading hyperparameters through any clone (as predictive evaluation does) changes those of all clusters; deep clones do not share, but their hyperparameters are reset to the initial prior ones.", "quantifier": "for every sequence of clone / load operations", "why_tests_cant": "Aliasing over all histories.", "anchors": ["src/hierarchies/base_hierarchy.h: clone, deep_clone", "src/hierarchies/priors/base_prior_model.h", "src/algorithms/marginal_algorithm.cc: lpdf_from_state"]}
{"id": "C63", "title": "Gaussian mixture distance", "statement": "The squared L2 distance between two Gaussian mixtures is evaluated with the closed-form overlap integral whose second argument must be a standard deviation; the code passes the sum of variances, so a term is right iff that sum equals one or the means are one special distance apart, and the computed distance of two valid mixtures can be negative. The multivariate version is the integral of the squared difference.", "quantifier": "for every pair of univariate mixtures (component-wise), every pair of multivariate mixtures", "why_tests_cant": "Needs an independent closed form.", "anchors": ["src/utils/distributions.cc: gaussian_mixture_dist"]}
{"id": "C64", "title": "Slice sampler candidate set", "statement": "After the slice step every observation's own component is a candidate unless its weight is at most 1e-16. Components not represented after the weights step can never have a weight above any slice variable that step has read, so with these truncation loses no candidate; but the allocation step uses slice variables drawn afterwards, for which candidates can be lost.", "quantifier": "for every weights and slice variables", "why_tests_cant": "Universal over infinite weight sequences.", "anchors": ["src/algorithms/slice_sampler.cc: sample_weights, sample_allocations"]}
{"id": "C65", "title": "Pitman-Yor sticks of the truncated mixing are shifted by one", "statement": "With a Pitman-Yor prior the k-th stick (k = 1, 2, ...) gets shapes (1-d, strength+(k-1)d), while the Pitman-Yor process has (1-d, strength+k d); the first weight therefore has prior mean (1-d)/(1-d+strength) instead of (1-d)/(1+strength).", "quantifier": "for every strength, discount and stick index; witness for the mismatch", "why_tests_cant": "Both versions yield plausible weights; only the law of the weights differs.", "anchors": ["src/mixings/truncated_sb_mixing.cc: get_beta_params"]}
{"id": "C66", "title": "Logit stick-breaking full conditional and gradient", "statement": "The function called the full conditional of one regression vector equals, up to a constant, the log-probability of the allocations under the mixing's own weights plus the Gaussian log-prior; and the gradient function is its exact gradient.", "quantifier": "for every number of components, coefficient vectors, covariates and allocations", "why_tests_cant": "Universal over reals; a numerical check of a gradient covers finitely many points.", "anchors": ["src/mixings/logit_sb_mixing.cc: full_cond_lpdf, grad_full_cond_lpdf, mixing_weights"]}
{"id": "C67", "title": "Logit stick-breaking acceptance ratio", "statement": "The acceptance ratio of the gradient-based update evaluates the reverse proposal with the forward proposal's mean, so it is the Metropolis-Hastings ratio exactly when the two means are equally distant from the current value, which fails in general.", "quantifier": "for every full conditional, step size, current and proposed value; witness for the mismatch", "why_tests_cant": "The chain still moves plausibly; only its stationary law is wrong.", "anchors": ["src/mixings/logit_sb_mixing.cc: update_state"]}
{"id": "C68", "title": "Finite-mixture coefficient series", "statement": "The loop that computes a coefficient of the mixture of finite mixtures terminates for every accepted parameter, and returns a positive value: a partial sum of Miller and Harrison's series, scaled by exp(-C), whose last term is below the tolerance relative to the previous sum.", "quantifier": "for every rate, Dirichlet parameter, number of clusters below 2^32 and sample size", "why_tests_cant": "Termination for all reals cannot be tested.", "anchors": ["src/mixings/mixture_finite_mixing.cc: compute_V_t"]}
{"id": "C69", "title": "Finite-mixture masses give an exchangeable law", "statement": "With coefficients truncated at a common number of terms, multiplying the normalised masses along any seating order gives the Gibbs-type partition probability, so the order of the observations does not matter.", "quantifier": "for every order, permutation, truncation at least the number of observations, parameters", "why_tests_cant": "Quantifies over all partitions and orders.", "anchors": ["src/mixings/mixture_finite_mixing.cc: mass_existing_cluster, mass_new_cluster"]}
{"id": "C70", "title": "The Laplace hierarchy cannot be updated by MALA", "statement": "Every draw of a Laplace / normal x inverse-gamma cluster with its default updater throws, because the updater evaluates the prior in unconstrained coordinates and that prior model does not provide the evaluation.", "quantifier": "for every data set, hyperparameters, state, step size and generator", "why_tests_cant": "A test would have to exercise the hierarchy's draw; none does.", "anchors": ["src/hierarchies/updaters/mala_updater.h, src/hierarchies/updaters/target_lpdf_unconstrained.h, src/hierarchies/priors/nxig_prior_model.h, src/hierarchies/priors/prior_model_internal.h"]}
{"id": "C71", "title": "Draws from the univariate priors follow the prior density", "statement": "Sampling from the normal-inverse-gamma and normal x inverse-gamma priors makes exactly the draws whose log-densities add up to the log-density the same class reports for the sampled state; with posterior hyperparameters this makes the conjugate draw exact (C16).", "quantifier": "for every generator, generator state and hyperparameters", "why_tests_cant": "A test sees a few draws, not their law.", "anchors": ["src/hierarchies/priors/nig_prior_model.cc: sample, lpdf; src/hierarchies/priors/nxig_prior_model.cc: sample, lpdf"]}
{"id": "C72", "title": "Accepted normal-inverse-gamma priors are valid and stay valid", "statement": "Hyperparameters accepted at initialisation have positive precision factor, shape and scale, and hyperparameter updates keep them so; but the variance of a normal prior on the mean is not checked, so an accepted configuration can have a conditional draw with negative variance.", "quantifier": "for every prior configuration, list of cluster states and generator with positive gamma draws; witness for the negative part", "why_tests_cant": "Every configuration and every history.", "anchors": ["src/hierarchies/priors/nig_prior_model.cc: initialize_hypers, update_hypers"]}
{"id": "C73", "title": "Multivariate predictive densities are the marginal likelihoods", "statement": "The prior predictive density of the normal-Wishart and linear regression hierarchies is the marginal likelihood of one observation, and the conditional predictive density of a cluster times the marginal likelihood of its data is that of the enlarged data set; grid evaluation returns the same values row by row.", "quantifier": "for every dimension, valid hyperparameters, data list and new observation", "why_tests_cant": "Identity over reals for every dimension.", "anchors": ["src/hierarchies/nnw_hierarchy.h: marg_lpdf; src/hierarchies/lin_reg_uni_hierarchy.h: marg_lpdf; src/utils/distributions.cc: multi_student_t_invscale_lpdf"]}
{"id": "C74", "title": "Factor-analyser full conditionals", "statement": "The draws of the factor scores and of the loading rows follow their exact full conditionals; the draw of the mean does exactly when prior variance times the diffusion parameter is one, while the prior uses that parameter as a variance, so it is exact only for parameter one.", "quantifier": "for all dimensions, data lists, scores and positive variances; witness for the mismatch", "why_tests_cant": "Statement about densities at all real arguments.", "anchors": ["src/hierarchies/updaters/fa_updater.cc, src/hierarchies/priors/fa_prior_model.cc"]}
{"id": "C75", "title": "Factor-analyser states drawn from the prior cannot be evaluated", "statement": "A factor-analyser state drawn from the prior leaves the cached inverse variances and factors unset, so evaluating its likelihood or updating a non-empty cluster from it reads unset data; the initial state and every state read from a message have consistent caches and evaluate to the exact density.", "quantifier": "for every generator, hyperparameters, data and dimensions", "why_tests_cant": "Uninitialised members may happen to look valid in a test.", "anchors": ["src/hierarchies/priors/fa_prior_model.cc: sample; src/hierarchies/likelihoods/states/fa_state.h; src/hierarchies/likelihoods/fa_likelihood.cc; src/hierarchies/fa_hierarchy.h: initialize_state"]}
{"id": "C76", "title": "Accepted multivariate priors", "statement": "Exactly the normal-Wishart configurations with positive scaling, degrees of freedom above d-1 and positive definite scale are accepted (regression: positive definite precision, positive shape and scale); accepted hyperparameters are valid and stay valid under hyperparameter updates.", "quantifier": "for every dimension, configuration, list of cluster states and generator with positive gamma draws", "why_tests_cant": "Every configuration and every history.", "anchors": ["src/hierarchies/priors/nw_prior_model.cc: initialize_hypers, update_hypers; src/hierarchies/priors/mnig_prior_model.cc: initialize_hypers"]}
{"id": "C77", "title": "Normal-Wishart hyperparameter updates", "statement": "The updates of the prior mean and of the scale matrix draw from exact full conditionals; the update of the scaling adds half the number of clusters to the shape, which is exact only in dimension one or without clusters.", "quantifier": "for every dimension and list of cluster states; witness for the mismatch", "why_tests_cant": "Statement about densities at all real arguments and all dimensions.", "anchors": ["src/hierarchies/priors/nw_prior_model.cc: update_hypers"]}
{"id": "C78", "title": "Multivariate generators are affine images of standard normals", "statement": "The generators written in the library return mean plus A times independent standard normal draws, with A A' equal to the requested covariance (diagonal version) or to the inverse of the requested precision.", "quantifier": "for every dimension, mean, positive definite precision or positive diagonal, generator and generator state", "why_tests_cant": "A test sees finitely many draws.", "anchors": ["src/utils/distributions.cc: multi_normal_diag_rng, multi_normal_prec_chol_rng"]}
{"id": "C79", "title": "File collector closes a descriptor it does not own", "statement": "Finishing a collection closes, besides the file opened at the start, the descriptor held in a member that was never set; the set of open descriptors is what it was before only when that member happens not to name one.", "quantifier": "for every set of open descriptors and member value; witness closing a foreign descriptor", "why_tests_cant": "Depends on an uninitialised member.", "anchors": ["src/collectors/file_collector.cc: start_collecting, finish_collecting"]}
{"id": "C80", "title": "Density evaluation leaves traces in the mixing object", "statement": "Evaluating a predictive density does not change how the same algorithm object samples afterwards. Refuted: for a Dirichlet process with mass M a new cluster weighs 1 before and M after an evaluation; for finite mixtures the coefficient table is never recomputed, so that after sampling the evaluation uses coefficients of one observation less or reads past its end.", "quantifier": "for every mass, saved state and grid; witness mass 2", "why_tests_cant": "Needs two runs around an evaluation.", "anchors": ["src/mixings/dirichlet_mixing.cc: set_state_from_proto", "src/mixings/mixture_finite_mixing.cc: get_V, set_state_from_proto", "src/algorithms/marginal_algorithm.cc: lpdf_from_state"]}
{"id": "C81", "title": "A split move and its merge are mutually reverse and balance", "statement": "From the state a split proposes, the update with the same two data and the same random numbers for the launch state proposes to merge back to the original clustering, with the same proposal probability and the reciprocal acceptance ratio; posterior weight times proposal times acceptance agrees in both directions for the Dirichlet process, and for Pitman-Yor exactly when the discount is zero or two clusters existed before the split.", "quantifier": "for every sampler state, pair of data, number of restricted scans and random numbers", "why_tests_cant": "Detailed balance of a probabilistic move over all states.", "anchors": ["src/algorithms/split_and_merge_algorithm.cc: sample_allocations, split_or_merge, restricted_gs, compute_log_ratios"]}
{"id": "C82", "title": "Semi-HDP iterations are safe", "statement": "With univariate data, non-empty groups, random numbers in range, a platform that defines the conversion of minus infinity to an integer and pseudo-prior chains of the same positive length, an iteration from a well-formed state neither throws nor reads out of range and ends in a well-formed state without empty tables or unused shared atoms and with exact counts; hence a whole run from construction completes, and it collects every iteration if the number of iterations is a multiple of the thinning and none otherwise. Shared atoms are written once per group.", "quantifier": "for every data set, parameters, random numbers and numbers of iterations", "why_tests_cant": "Memory safety of a pointer-heavy sampler over all random executions.", "anchors": ["src/algorithms/semihdp_sampler.h: step, run", "src/algorithms/semihdp_sampler.cc: get_state_as_proto"]}
{"id": "C83", "title": "Semi-HDP: logarithm of an empty table's count", "statement": "update_table_allocs stores the logarithm of every table's count in an integer; for an empty table or an unused shared atom this converts minus infinity, which the language leaves undefined, and every run with at least one adaptation iteration does it.", "quantifier": "for every well-formed state with an empty table; every run with adaptation", "why_tests_cant": "Undefined behaviour hidden by a platform's habits.", "anchors": ["src/algorithms/semihdp_sampler.cc: update_table_allocs"]}
{"id": "C84", "title": "Semi-HDP: table weights are truncated", "statement": "The weight of an existing table is exp of the integer part of the logarithm of its count, so it is at most the count and more than a third of it, but in general not the count.", "quantifier": "for every count", "why_tests_cant": "Numerical identity over all counts.", "anchors": ["src/algorithms/semihdp_sampler.cc: update_table_allocs"]}
{"id": "C85", "title": "Semi-HDP: leaving a shared table", "statement": "Taking an observation off a table that serves a shared atom decrements the number of tables that serve the atom although the table may stay, and replaces the atom's log-weight by the logarithm of the atom's index.", "quantifier": "for every state and observation at a shared table", "why_tests_cant": "Silent mis-weighting.", "anchors": ["src/algorithms/semihdp_sampler.cc: update_table_allocs"]}
{"id": "C86", "title": "Semi-HDP: tables moved to another shared atom", "statement": "update_to_shared changes which shared atom a table serves but not the table's object, so until the next update of the atoms the table's likelihood is that of its former atom; the update of the atoms restores agreement.", "quantifier": "for every well-formed state", "why_tests_cant": "Aliasing of shared objects.", "anchors": ["src/algorithms/semihdp_sampler.cc: update_to_shared, update_unique_vals"]}
{"id": "C87", "title": "Semi-HDP: atoms drawn given their data", "statement": "update_unique_vals draws every private atom given exactly the observations at its table and every shared atom given exactly the observations at all tables that serve it (from the prior when there are none), and afterwards every table holds its atom.", "quantifier": "for every well-formed state and random numbers", "why_tests_cant": "Aliasing and data routing over all states.", "anchors": ["src/algorithms/semihdp_sampler.cc: update_unique_vals"]}
{"id": "C88", "title": "Semi-HDP: a sampler runs once", "statement": "Calling run on a sampler that has already been run appends tables to the old ones without extending the maps, and the first update reads out of range.", "quantifier": "for every well-formed state and run arguments", "why_tests_cant": "Object reuse.", "anchors": ["src/algorithms/semihdp_sampler.h: run", "src/algorithms/semihdp_sampler.cc: initialize"]}
{"id": "C89", "title": "Semi-HDP: univariate data only", "statement": "The group sizes are numbers of matrix entries, so with two or more columns the first update of the atoms reads rows out of range.", "quantifier": "for every non-empty multivariate data set", "why_tests_cant": "Undefined behaviour.", "anchors": ["src/algorithms/semihdp_sampler.cc: SemiHdpSampler, update_unique_vals"]}
{"id": "C90", "title": "Semi-HDP: collecting a state", "statement": "get_state_as_proto passes atoms a message of another type than they cast it to, so every run that collects anything is undefined.", "quantifier": "for every run with a positive number of iterations divisible by the thinning", "why_tests_cant": "Undefined cast.", "anchors": ["src/algorithms/semihdp_sampler.cc: get_state_as_proto", "src/hierarchies/likelihoods/base_likelihood.h: downcast_state, write_state_to_proto"]}
{"id": "C91", "title": "Semi-HDP: private or shared", "statement": "Whether a new table is private is decided with the prior weight, not with its posterior given the observation that opened the table.", "quantifier": "exists a state, observation and random number", "why_tests_cant": "Wrong conditional distribution.", "anchors": ["src/algorithms/semihdp_sampler.cc: update_table_allocs"]}
{"id": "C92", "title": "Semi-HDP: unknown reallocation mode", "statement": "With a rest_allocs_update other than the three known ones, groups never change restaurant and the state is left as it is.", "quantifier": "for every well-formed state", "why_tests_cant": "Silent misconfiguration.", "anchors": ["src/algorithms/semihdp_sampler.cc: update_rest_allocs"]}
{"id": "C93", "title": "Semi-HDP: empty tables when a group moves", "statement": "When a group moves, an empty table of its new restaurant is given a larger weight than a table with one observation.", "quantifier": "for every non-positive count", "why_tests_cant": "Wrong guard value on the log scale.", "anchors": ["src/algorithms/semihdp_sampler.cc: reassign_group"]}
{"id": "C94", "title": "Mesh of a two-dimensional density plot", "statement": "to_mesh returns the rows of the grid cell by cell exactly when the leading run of equal first coordinates has length k with rows = k*k; it throws when k does not divide the rows and is undefined otherwise, so product grids work only with as many points in both directions (at least two).", "quantifier": "for every grid and values", "why_tests_cant": "Out-of-range reads and writes on rectangular grids.", "anchors": ["src/plots/plot_utils.cc: to_mesh"]}
{"id": "C95", "title": "Bar chart of the number of clusters", "statement": "For one non-empty column the heights are the relative frequencies of every integer between smallest and largest value and sum to one; empty input and more than one column are undefined.", "quantifier": "for every column of integers and number of columns", "why_tests_cant": "Loop bound counts all cells, data has one column.", "anchors": ["src/plots/plot_utils.cc: num_clus_bar"]}
{"id": "C96", "title": "Plotted density", "statement": "The plotted density is the mean over iterations of the densities (its logarithm in two dimensions); mismatched sizes throw, other dimensions plot nothing.", "quantifier": "for every non-empty matrix of log densities", "why_tests_cant": "Averaging on the log scale.", "anchors": ["executables/plot_mcmc.cc: main", "src/plots/plot_utils.cc: density_plot_2d"]}
{"id": "C97", "title": "Reading a chain from R", "statement": "The R reader returns the written messages when none is empty; an empty message is replaced by a parse of two other bytes or dropped when last, and a cut file is padded with zero bytes.", "quantifier": "for every message type with a round trip and every list of messages", "why_tests_cant": "Ranges n:(n-1) count down; reads past the end give zero bytes.", "anchors": ["R/bayesmixr/R/utils.R: read_many_proto_from_file", "R/bayesmixr/R/decoder.R: VarintDecoder"]}
{"id": "C98", "title": "Cluster output of the main program", "statement": "The output loop returns allocations and number of cluster states of every stored state, in order, for both collectors; with a state too large to be written it is undefined.", "quantifier": "for every chain and every number of data rows", "why_tests_cant": "The counted size and the stored chain can differ.", "anchors": ["executables/run_mcmc.cc: main", "src/collectors/file_collector.cc: collect"]}
{"id": "C99", "title": "Reported number of clusters", "statement": "Under samplers that keep proper partitions the reported number is the number of distinct labels; under blocked Gibbs it is the number of components, which can be larger.", "quantifier": "for every run", "why_tests_cant": "Empty components are counted as clusters.", "anchors": ["executables/run_mcmc.cc: main", "src/algorithms/base_algorithm.cc: get_state_as_proto"]}
{"id": "C100", "title": "Command line of the main program", "statement": "Given pairs of known options and values, each option once, the parser stores every value, gives the documented default to the optional ones left out, refuses missing, unknown, repeated and stray words, and takes dashed numbers for values exactly when they follow the documented grammar.", "quantifier": "for every list of words", "why_tests_cant": "A default stored with another type than the one it is read with; a last option without value passes for its default.", "anchors": ["lib/argparse/argparse.h: ArgumentParser::parse_args", "executables/run_mcmc.cc: main"]}
{"id": "C101", "title": "Files of the main program", "statement": "A run that ends with status 0 has written chain, density, numbers of clusters, allocations and best clustering computed from the inputs as they were at the start, and no other file is changed however the run ends.", "quantifier": "for every command line, file system and sampler", "why_tests_cant": "Outputs are opened before the inputs are read.", "anchors": ["executables/run_mcmc.cc: main", "executables/run_mcmc.cc: check_args", "src/utils/io_utils.cc: check_file_is_writeable"]}
{"id": "C102", "title": "Python wrapper", "statement": "The wrapper writes data, grid and parameters, starts the program once with twelve well-formed options and reads back the results that were asked for; a failure of the program is reported.", "quantifier": "for every request, directory and program", "why_tests_cant": "The exit status is not looked at; the command is split at blanks.", "anchors": ["python/bayesmixpy/run.py: run_mcmc", "python/bayesmixpy/shell_utils.py: run_shell", "python/bayesmixpy/io_utils.py: maybe_print_proto_to_file"]}
{"id": "C103", "title": "R wrapper", "statement": "The shell hands the program the same twelve options as Python does, results are returned only after a run with status 0, and files of the caller survive a failed run.", "quantifier": "for every request, directory and program", "why_tests_cant": "The whole directory is deleted after a failure.", "anchors": ["R/bayesmixr/R/run_mcmc.R: run_mcmc", "R/bayesmixr/R/utils.R: maybe_print_proto_to_file"]}
{"id": "C104", "title": "Wrappers end to end", "statement": "The answer of a wrapper consists of what the sampler, the density evaluation and the cluster estimate compute from the data, grid and parameters of the request.", "quantifier": "for every request, directory and sampler", "why_tests_cant": "Names and contents of files pass through three programs.", "anchors": ["R/bayesmixr/R/run_mcmc.R: run_mcmc", "python/bayesmixpy/run.py: run_mcmc", "executables/run_mcmc.cc: main"]}
{"id": "C105", "title": "Univariate densities and marginal likelihoods are integrals", "statement": "The priors, likelihoods and prior predictive density of the univariate hierarchies have total mass one, and the marginal likelihood and predictive density of the conjugate hierarchy are the integrals of likelihood times prior.", "quantifier": "for all valid hyperparameters, all data lists and all points; log-gamma is the logarithm of Euler's integral", "why_tests_cant": "Samplers that integrate the cluster parameters out are only right if the closed forms are those integrals.", "anchors": ["src/hierarchies/nnig_hierarchy.h: marg_lpdf", "src/hierarchies/priors/nig_prior_model.cc: lpdf", "src/hierarchies/priors/nxig_prior_model.cc: lpdf", "src/hierarchies/likelihoods/laplace_likelihood.cc: compute_lpdf"]}
{"id": "C106", "title": "Evaluated univariate densities have mass one", "statement": "The function evaluated on a grid from a saved state is a probability density: it integrates to one.", "quantifier": "for every saved state with positive variances, every mixing and every grid", "why_tests_cant": "Density estimates averaged over a chain are densities only if each one is.", "anchors": ["src/algorithms/marginal_algorithm.cc: lpdf_from_state", "src/algorithms/conditional_algorithm.cc: lpdf_from_state", "src/algorithms/neal8_algorithm.cc: lpdf_marginal_component", "src/mixings/truncated_sb_mixing.cc: logweights_from_sticks"]}
{"id": "C107", "title": "Multivariate and regression densities and marginal likelihoods are integrals", "statement": "The Wishart, Normal-Wishart and Normal-Inverse-Gamma priors, the likelihoods and the predictive densities have total mass one; marginal likelihoods and predictive densities are the integrals of likelihood times prior; the factor analyser's likelihood is the integral over the latent scores.", "quantifier": "for all dimensions, all valid hyperparameters, all data lists and all points; integrals over positive definite matrices are iterated along Schur complements", "why_tests_cant": "Samplers that integrate the cluster parameters out are only right if the closed forms are those integrals.", "anchors": ["src/hierarchies/nnw_hierarchy.h: marg_lpdf", "src/hierarchies/priors/nw_prior_model.cc: lpdf", "src/hierarchies/lin_reg_uni_hierarchy.h: marg_lpdf", "src/hierarchies/priors/mnig_prior_model.cc: lpdf", "src/hierarchies/likelihoods/fa_likelihood.cc: compute_lpdf"]}
{"id": "C108", "title": "Evaluated multivariate and regression densities have mass one", "statement": "The function evaluated on a grid from a saved state integrates to one, over the vectors or over the response for given covariates.", "quantifier": "for every saved state written by the code, every mixing, every dimension and every grid", "why_tests_cant": "Density estimates averaged over a chain are densities only if each one is.", "anchors": ["src/algorithms/marginal_algorithm.cc: lpdf_from_state", "src/algorithms/conditional_algorithm.cc: lpdf_from_state", "src/algorithms/neal8_algorithm.cc: lpdf_marginal_component", "src/hierarchies/nnw_hierarchy.h: marg_lpdf"]}
{"id": "C109", "title": "The example gamma hierarchy is conjugate", "statement": "Prior times likelihood equals posterior times marginal likelihood, the marginal likelihood is the integral over the rate, statistics depend only on the data left, parameters are accepted iff valid, and messages are read back.", "quantifier": "for all data, rates and hyperparameters, every order of additions and removals", "why_tests_cant": "The example shows users how to write their own hierarchy; its update is exact only if these hold.", "anchors": ["examples/gamma_hierarchy/gammagamma_hierarchy.h", "examples/gamma_hierarchy/gamma_likelihood.h", "examples/gamma_hierarchy/gamma_prior_model.h", "examples/gamma_hierarchy/gammagamma_updater.h"]}
{"id": "C110", "title": "The example program samples clusterings with positive rates", "statement": "Every state the program saves is a clustering of its data with cardinalities, shape and total mass as configured and positive rates, and its evaluated density integrates to one.", "quantifier": "for every generator, every starting labelling, every number of iterations", "why_tests_cant": "The program is the template for stand-alone use of the library.", "anchors": ["examples/gamma_hierarchy/run_gamma_gamma.cc: main", "src/algorithms/neal8_algorithm.cc"]}
{"id": "C111", "title": "Update of the total mass of the Dirichlet process", "statement": "Given the auxiliary variable, the total mass is drawn from its full conditional under the joint law whose margin is prior times probability of the partition; the auxiliary variable itself is drawn from its full conditional.", "quantifier": "for all gamma priors, all partitions, all values of the total mass and of the auxiliary variable", "why_tests_cant": "Without it the chain does not target the posterior of the total mass.", "anchors": ["src/mixings/dirichlet_mixing.cc: update_state"]}
{"id": "C112", "title": "Programs on univariate data keep every saved state in its space", "statement": "A run of Neal's algorithms 2, 3 and 8 with a univariate hierarchy and a Dirichlet or Pitman-Yor mixing ends normally or throws; every saved state has positive variances, hyperparameters and mixing parameters in their ranges and cardinalities that match the labels; the density evaluated from it integrates to one.", "quantifier": "for all datasets of at least two observations, all accepted priors, all generators, all numbers of iterations", "why_tests_cant": "Without it a later evaluation could divide by zero or take the logarithm of a negative number.", "anchors": ["src/algorithms/marginal_algorithm.cc: sample_unique_values", "src/hierarchies/nnig_hierarchy.h: NNIGHierarchy", "src/hierarchies/nnxig_hierarchy.h: NNxIGHierarchy", "src/hierarchies/lapnig_hierarchy.h: LapNIGHierarchy"]}
{"id": "C113", "title": "Logit stick breaking: initialisation, weights, update, acceptance rates and storage", "statement": "Initialisation accepts exactly the valid priors; the weights are those of a stick-breaking process with logistic sticks; the update proposes each column of coefficients along the gradient of the log-posterior, accepts by a threshold and counts acceptances; rates are fractions; a stored state gives back the same weights.", "quantifier": "for all priors, covariates, allocations and generators", "why_tests_cant": "Without it the covariate-dependent weights follow no model.", "anchors": ["src/mixings/logit_sb_mixing.cc: update_state", "src/mixings/logit_sb_mixing.cc: initialize_state", "src/mixings/logit_sb_mixing.cc: mixing_weights", "src/mixings/logit_sb_mixing.h: get_acceptance_rates"]}
{"id": "C114", "title": "Programs of the blocked Gibbs algorithm complete with saved states in their space", "statement": "A run of the blocked Gibbs algorithm with truncated stick breaking completes for one to as many components as observations; every saved state has positive variances, weights above zero that sum to one and cardinalities that match the labels; the function evaluated from it integrates to one. With logit stick breaking it completes and the mass is the sum of the weights.", "quantifier": "for all datasets, accepted priors, generators, numbers of components and iterations", "why_tests_cant": "Without it the conditional algorithms end in undefined behaviour or report functions that are not densities.", "anchors": ["src/algorithms/blocked_gibbs_algorithm.cc: sample_allocations", "src/algorithms/conditional_algorithm.h: step", "src/mixings/truncated_sb_mixing.cc: update_state", "src/mixings/logit_sb_mixing.cc: update_state"]}
{"id": "C115", "title": "Programs of the slice sampler: saved states, termination and outcome", "statement": "A completed run of the slice sampler saves states with positive variances, weights above zero, weights of occupied components above the slice bound and the hyperparameters of the start; the evaluated function has as mass the sum of the weights. With stick lengths bounded below every run ends; with lengths above the smallest uniform it completes.", "quantifier": "for all datasets, accepted priors, generators, numbers of iterations and of loop steps", "why_tests_cant": "Without it the loop that breaks sticks may run for ever or an allocation may have no candidate.", "anchors": ["src/algorithms/slice_sampler.cc: sample_weights", "src/algorithms/slice_sampler.cc: sample_allocations", "src/algorithms/slice_sampler.cc: sample_slice", "src/mixings/truncated_sb_mixing.cc: update_state"]}
{"id": "C116", "title": "Hyperparameters start at the centres of their priors", "statement": "Initialisation sets each hyperparameter with a prior to the mean or the mode of that prior and each fixed one to the given value; the total mass of a Dirichlet process with a gamma prior starts at the mean of the prior.", "quantifier": "for all accepted priors", "why_tests_cant": "Without it the chain starts from a point that the prior does not support.", "anchors": ["src/hierarchies/priors/nig_prior_model.cc: initialize_hypers", "src/hierarchies/priors/nw_prior_model.cc: initialize_hypers", "src/hierarchies/priors/nxig_prior_model.cc: initialize_hypers", "src/mixings/dirichlet_mixing.cc: initialize_state"]}
{"id": "C117", "title": "Programs on multivariate data and regressions keep every saved state valid", "statement": "Every state saved by a program of a marginal algorithm with a normal-Wishart or linear regression hierarchy holds a clustering, parameters in their space (positive definite precisions, positive variances) and an admissible mixing state; the density evaluated from it integrates to one over the observation space.", "quantifier": "for all data, dimensions, accepted priors, generators with the stated ranges, numbers of iterations", "why_tests_cant": "Without it a chain can hold matrices that are not precisions and the saved densities mean nothing.", "anchors": ["src/algorithms/base_algorithm.h: run", "src/algorithms/base_algorithm.cc: initialize", "src/hierarchies/nnw_hierarchy.h: NNWHierarchy", "src/hierarchies/lin_reg_uni_hierarchy.h: LinRegUniHierarchy", "src/hierarchies/priors/nw_prior_model.cc: update_hypers"]}
{"id": "C118", "title": "Blocked Gibbs programs on multivariate data and regressions keep every saved state valid", "statement": "Every state saved by a blocked Gibbs program with a truncated stick-breaking mixing and a normal-Wishart or linear regression hierarchy holds labels of existing components, parameters in their space and weights that sum to one; the density evaluated from it integrates to one.", "quantifier": "for all data, dimensions, accepted priors, generators with the stated ranges, numbers of iterations", "why_tests_cant": "Without it the saved densities of conditional algorithms mean nothing in several dimensions.", "anchors": ["src/algorithms/blocked_gibbs_algorithm.cc: initialize", "src/algorithms/blocked_gibbs_algorithm.cc: sample_allocations", "src/mixings/truncated_sb_mixing.cc: update_state"]}
{"id": "C119", "title": "Programs of the split-merge algorithm", "statement": "A program of the split-merge algorithm with the conjugate normal hierarchy on at least two observations ends normally or throws, never has undefined behaviour, and every state it saves holds a clustering and parameters in their space; with a single observation it cannot complete an iteration.", "quantifier": "for all data, starting clusterings, numbers of restricted scans, moves, full scans and iterations, generators with the stated ranges", "why_tests_cant": "Without it the most intricate of the samplers can leave observations without a cluster or fail silently.", "anchors": ["src/algorithms/split_and_merge_algorithm.cc: initialize", "src/algorithms/split_and_merge_algorithm.cc: sample_allocations", "src/algorithms/base_algorithm.h: run"]}
{"id": "C120", "title": "Programs of the split-merge algorithm on multivariate data and regressions", "statement": "The same for the normal-Wishart hierarchy in every dimension; for the linear regression a program that proposes at least one move has undefined behaviour whatever the covariates.", "quantifier": "for all data, dimensions, starting clusterings, numbers of restricted scans, moves, full scans and iterations, generators with the stated ranges", "why_tests_cant": "Without it the split-merge algorithm is only known to work on one-dimensional data.", "anchors": ["src/algorithms/split_and_merge_algorithm.cc: initialize", "src/algorithms/split_and_merge_algorithm.cc: sample_allocations", "src/hierarchies/nnw_hierarchy.h: NNWHierarchy"]}
{"id": "C121", "title": "Programs with a mixture of finite mixtures", "statement": "A program of a marginal algorithm with a mixture of finite mixtures either completes, with every saved state a proper clustering with parameters in their space, or has undefined behaviour; the latter happens exactly when an observation is reallocated while all others are alone in their clusters, hence always when it starts with one cluster per observation or has at most two observations, and for some draws from every start. The lazily filled table of coefficients does not influence results.", "quantifier": "for all hierarchies meeting the interface, data, covariates, starting clusterings, iterations and generators", "why_tests_cant": "Without it a user of this mixing does not know that the coefficient table is read past its end at the first iteration of the default start.", "anchors": ["src/mixings/mixture_finite_mixing.cc: mass_existing_cluster", "src/mixings/mixture_finite_mixing.cc: mass_new_cluster", "src/mixings/mixture_finite_mixing.cc: get_V_t, init_V_and_C", "src/algorithms/base_algorithm.cc: initialize"]}
{"id": "C122", "title": "Reallocation under a mixture of finite mixtures", "statement": "When other observations share a cluster, the weights Neal2 and Neal3 draw from are proportional to the partition law of the mixture of finite mixtures (coefficient times rising factorials of the cluster sizes) times the likelihood of the resulting clustering.", "quantifier": "for all hierarchies meeting the interface, data, states and observations", "why_tests_cant": "Without it the sampler could target another partition law than the one its coefficients define.", "anchors": ["src/mixings/mixture_finite_mixing.cc: mass_existing_cluster", "src/algorithms/neal3_algorithm.cc: get_cluster_lpdf", "src/algorithms/neal2_algorithm.cc: sample_allocations"]}
{"id": "C123", "title": "Neal3 converges to the posterior distribution of the clustering", "statement": "With fixed hyperparameters and fixed mixing parameters, the law of the clustering after k iterations of Neal3 is within a geometrically decreasing distance of the posterior distribution, uniformly over the starting states and all other draws; the posterior is the only invariant law, and every clustering has positive probability after one iteration.", "quantifier": "for all conjugate hierarchies meeting the interface, at least two observations, all starting states; for the normal, multivariate normal and regression programs from every accepted configuration", "why_tests_cant": "Without it the sampler could leave the posterior invariant and still never approach it.", "anchors": ["src/algorithms/neal2_algorithm.cc: sample_allocations", "src/algorithms/neal3_algorithm.cc: get_cluster_lpdf", "src/algorithms/base_algorithm.h: step"]}
{"id": "C124", "title": "The blocked Gibbs algorithm draws its blocks from their conditional laws", "statement": "From the second iteration on, the labels are drawn from their joint conditional law given weights and parameters, the sticks from their conditional law given labels, and the parameters of every component from their conditional law given the labels and the hyperparameters, except those of the first component: when it has observations they are drawn from the prior with the initial hyperparameters, which is not their conditional law.", "quantifier": "for all univariate data, accepted priors of the normal hierarchy, stick-breaking priors with positive shapes, generators with the stated ranges, iterations", "why_tests_cant": "Without it the algorithm need not leave the posterior distribution invariant.", "anchors": ["src/algorithms/blocked_gibbs_algorithm.cc: sample_allocations", "src/algorithms/blocked_gibbs_algorithm.cc: sample_unique_values", "src/mixings/truncated_sb_mixing.cc: update_state", "src/hierarchies/base_hierarchy.h: sample_full_cond"]}
{"id": "C125", "title": "The state a cluster starts with is a mode of its prior", "statement": "Before any draw, a cluster of a hierarchy whose mean and variance are independent a priori starts at the only mode of the prior density; for the normal-inverse-gamma prior and its regression analogue the variance is the mode of its marginal prior and the location the mode of its conditional prior; for the factor-analytic hierarchy every block is the mode of its prior; for the normal-Wishart hierarchy the mean is the mode of its conditional prior.", "quantifier": "for all hyperparameters accepted by the prior, all dimensions", "why_tests_cant": "Without it the chain could start at a value the prior excludes.", "anchors": ["src/hierarchies/nnig_hierarchy.h: initialize_state", "src/hierarchies/nnxig_hierarchy.h: initialize_state", "src/hierarchies/lapnig_hierarchy.h: initialize_state", "src/hierarchies/lin_reg_uni_hierarchy.h: initialize_state", "src/hierarchies/fa_hierarchy.h: initialize_state", "src/hierarchies/nnw_hierarchy.h: initialize_state"]}
{"id": "C126", "title": "The plotting program draws what it is asked to draw", "statement": "A run of the plotting program that ends with status 0 has written, from the inputs as they were at its start, the trace of the numbers of clusters, the bar chart of their relative frequencies and the averaged density on a grid of dimension one or two, each exactly when it is asked for together with its data; no other file changes, refused arguments change nothing, a plot that cannot be written ends the program, and well-formed inputs are drawn without an error. After a run of the sampler the bar chart shows the frequencies of the numbers of clusters among the saved states.", "quantifier": "for all arguments given once each in any order, file contents, readers and renderers; plots with names of their own", "why_tests_cant": "Without it a plot could show other numbers than those of the chain.", "anchors": ["executables/plot_mcmc.cc: main", "src/plots/plot_utils.cc: num_clus_trace", "src/plots/plot_utils.cc: num_clus_bar", "src/plots/plot_utils.cc: density_plot_1d, density_plot_2d", "lib/argparse/argparse.h: parse_args"]}
{"id": "C127", "title": "The draws of the semi-hierarchical sampler", "statement": "The mixing weight is drawn from the beta law given the numbers of private and shared tables, the concentrations from the Dirichlet law given the numbers of groups per restaurant; a group changes restaurant with the probabilities its mode names (full conditional, uniform Metropolis, distance-based Metropolis); an observation is seated, a table is given a dish, a new table is private or shared, and the pseudo-prior is drawn, with the stated weights at every call.", "quantifier": "for all numbers of groups and observations, parameters, well-formed states, generators; atoms and densities abstract", "why_tests_cant": "Without it the sampler could draw from weights other than those of the model it is meant to fit.", "anchors": ["src/algorithms/semihdp_sampler.cc: update_semihdp_weight, update_table_allocs", "src/algorithms/semihdp_sampler.cc: update_rest_allocs, sample_pseudo_prior", "src/algorithms/semihdp_sampler.cc: lpdf_for_group, update_unique_vals"]}
{"id": "C128", "title": "Numbers in the files that are read and written", "statement": "A cell of a data file is read as the number of single precision nearest to the decimal or hexadecimal number it starts with; a cell that starts with no number and numbers beyond single precision end the reading, integers up to 2^24 are read exactly. A double is written as the nearest number of six significant digits, ties to even, within a relative error of 5e-6; writing and reading a table gives back its shape and every entry within 5.1e-6, and a table of integers exactly. The bar chart drawn from the files of a run is that of its chain.", "quantifier": "for all digit strings, exponents and characters that follow, tables of any size, doubles between 2^-125 and 2^127 or zero, chains with at most 2^24 clusters", "why_tests_cant": "Without it results that are computed from files could differ from those of the numbers the user supplied.", "anchors": ["src/utils/io_utils.cc: read_eigen_matrix", "src/utils/io_utils.cc: write_matrix_to_file", "executables/plot_mcmc.cc: main"]}
{"id": "C129", "title": "Neal8 leaves the posterior distribution invariant", "statement": "Given the parameters on offer (fresh draws from the prior, the observation's own parameters first when it is alone), one reallocation of Neal8 draws the cluster and parameters of the observation with probabilities proportional to the law of the clustering times the likelihood; averaged over the fresh draws, the conditional law of the observation's cluster and parameters given everything else is left unchanged.", "quantifier": "for all hierarchies meeting the interface, data, states, observations, numbers of auxiliary clusters at least one; Pitman-Yor and Dirichlet processes, mixtures of finite mixtures; invariance for every exchangeable law of the fresh draws", "why_tests_cant": "Without it the algorithm for non-conjugate models need not target the posterior distribution.", "anchors": ["src/algorithms/neal8_algorithm.cc: sample_allocations", "src/algorithms/neal8_algorithm.cc: get_cluster_prior_mass, get_cluster_lpdf", "src/algorithms/neal8_algorithm.cc: initialize"]}
{"id": "C130", "title": "Unconstrained representations of regression and multivariate states", "statement": "Writing a state as an unconstrained vector and reading it back gives the same state; every vector of an admissible length represents exactly one state with positive variance or positive definite precision; the reported log-determinant is that of the Jacobian matrix. For multivariate states the lengths are d(d+3)/2, other lengths fail an assertion, and the log-determinant cannot be computed.", "quantifier": "for all dimensions, coefficients, variances, means, precisions and vectors", "why_tests_cant": "Without it the gradient-based and random-walk updaters cannot be used with these states.", "anchors": ["src/hierarchies/likelihoods/states/uni_lin_reg_ls_state.h: get_unconstrained, set_from_unconstrained", "src/hierarchies/likelihoods/states/multi_ls_state.h: multi_ls_to_constrained, multi_ls_to_unconstrained", "src/hierarchies/likelihoods/states/multi_ls_state.h: multi_ls_log_det_jac"]}
{"id": "C131", "title": "What one iteration draws, and in which order", "statement": "One iteration draws, in this order and from one stream of random numbers: the allocations; the parameters of every cluster, each from its full conditional under the current hyperparameters and exactly the observations assigned to it (the prior for an empty component); the hyperparameters given the parameters of the clusters; the state of the mixing given the parameters and cardinalities. No draw uses the random numbers of another and nothing else of the state changes.", "quantifier": "for all hierarchies meeting the interface, data, covariates, numbers of iterations, initial states and random streams; Neal2, Neal3, Neal8, split-merge with at least one full scan, blocked Gibbs and the slice sampler", "why_tests_cant": "Without it an iteration need not be the composition of conditional draws of which the samplers are made.", "anchors": ["src/algorithms/base_algorithm.h: step", "src/algorithms/marginal_algorithm.h, conditional_algorithm.cc: sample_unique_values", "src/algorithms/base_algorithm.cc: update_hierarchy_hypers", "src/algorithms/neal3_algorithm.cc: sample_allocations", "src/algorithms/slice_sampler.cc: step"]}
{"id": "C132", "title": "The binary form of the messages", "statement": "Every well-formed message of every type in src/proto is read back with the same fields, bit by bit for doubles, and is written again with the same bytes; the allocations and the number of clusters of a state are unchanged; a chain of messages on file is read back by the file collector and by Python; fields that the reader does not know are skipped.", "quantifier": "for all 56 message types, all well-formed messages of less than 2^31 bytes, all chains, chunk sizes and sequences of reads", "why_tests_cant": "Without it a stored chain would not be the chain that was sampled.", "anchors": ["src/proto/*.proto", "src/collectors/file_collector.cc: collect, next_state", "python/bayesmixpy/io_utils.py: read_many_protos_from_file"]}
{"id": "C133", "title": "The text form of the configuration files", "statement": "A configuration file whose words spell a message of a type of src/proto, whatever its blanks, comments, line breaks, separators, brackets and order of fields, is read as exactly that message without a complaint, and all configuration files of the repository are read without a complaint; a field that the type does not have, a second value of a singular field, a second member of a oneof and a bracket closed by another kind are reported, and what precedes the mistake is kept.", "quantifier": "for all message types of src/proto, all messages with every singular field written once, all layouts; the files under resources/ and examples/", "why_tests_cant": "Without it the settings of a run would not be those in its configuration files.", "anchors": ["src/utils/proto_utils.cc: read_proto_from_file", "resources/tutorial/*.asciipb", "resources/algo_*_settings.asciipb", "examples/fa_hierarchy/in/*.asciipb"]}
{"id": "C134", "title": "The settings that a run takes from its configuration files", "statement": "The settings of the algorithm, the prior of the mixing and the prior of the hierarchy are the numbers and names that the files give, zero for numbers that are not given; a prior that is not given, or a positive number left out, stops the program with an exception; the program of the tutorial on any data ends with an exception or with a thousand saved states, each a clustering with parameters in their space and with a probability density.", "quantifier": "for all configuration files of algorithms, of DP, PY and MFM mixings and of the NNIG and NNxIG hierarchies in any layout; all data of at least three rows and all random streams for the tutorial", "why_tests_cant": "Without it a run could be governed by other settings than those requested.", "anchors": ["src/algorithms/base_algorithm.h: read_params_from_proto", "src/algorithms/neal8_algorithm.h, split_and_merge_algorithm.h: read_params_from_proto", "src/mixings/*_mixing.cc: initialize_state", "src/hierarchies/priors/nig_prior_model.cc, nxig_prior_model.cc: initialize_hypers", "src/run_mcmc.cc: main"]}
{"id": "C135", "title": "From the configuration files to the files that a run leaves behind", "statement": "A run of the program that ends well has run the sampler that its configuration files name, with the prior, the mixing, the seed, the number of iterations and the burn-in in those files, on the column of numbers in its data file; its chain file is read back by Python as one message for every iteration after the burn-in, with that iteration's number, labels, parameters and sizes of the clusters, hyperparameters and state of the mixing, each a clustering with parameters in their space; the files of the numbers of clusters and of the labels hold those of the same states. The program does end well when its files name a sampler and accepted priors, its outputs can be written and the sampler ends well.", "quantifier": "for all configuration and data files, arguments and random streams; the algorithms Neal2, Neal3 and Neal8, the hierarchies NNIG and NNxIG, the mixings DP and PY; two to 2^23 observations", "why_tests_cant": "Without it correct parts could be put together into a program that answers another question than the one in its files.", "anchors": ["executables/run_mcmc.cc: main", "src/algorithms/base_algorithm.cc: get_state_as_proto, initialize", "src/algorithms/base_algorithm.h: run", "src/collectors/file_collector.cc", "src/hierarchies/priors/nig_prior_model.cc, nxig_prior_model.cc: get_hypers_proto", "src/mixings/dirichlet_mixing.cc, pityor_mixing.cc: get_state_proto"]}
{"id": "C136", "title": "Priors with vectors and matrices are those in the configuration files", "statement": "The hyperparameters of the multivariate, regression and factor hierarchies and the parameters of the stick-breaking and logit stick-breaking mixings are the numbers written in the configuration file: vectors in the order of their data, matrices by columns or by rows as the file says, the beta distributions in their order; the program's checks then accept or refuse them. A vector with fewer numbers than its size is read beyond its end. Leaving the vectors out ends the program for the multivariate and the regression hierarchy, but not for the factor hierarchy, as in the shipped example; the file shipped for the Laplace hierarchy is refused in part, yet the program goes on; a list of no beta distributions is read beyond its end.", "quantifier": "for all texts of the format and all messages in which each field is given at most once; finite numbers", "why_tests_cant": "Without it a prior could be transposed or its parameters exchanged without notice, and every result would answer another question.", "anchors": ["src/utils/proto_utils.cc: to_eigen", "src/hierarchies/priors/nw_prior_model.cc, mnig_prior_model.cc, fa_prior_model.cc: initialize_hypers", "src/mixings/truncated_sb_mixing.cc, logit_sb_mixing.cc: initialize_state", "src/proto/matrix.proto, hierarchy_prior.proto, mixing_prior.proto", "resources/tutorial/nnw_ngiw.asciipb, lapnig_fixed.asciipb", "examples/fa_hierarchy/in/fa.asciipb"]}
{"id": "C137", "title": "The density file of a run holds the log-densities of its states, and the best clustering is one of them", "statement": "A run of the main program with a grid leaves a density file with one row for every kept state and one column for every point of the grid. A row holds the logarithms, at these points, of the mixture density of its state as it was written to the chain: the clusters weighted by their sizes, and a new cluster weighted by the mixing, whose density is the prior predictive for Neal2 and Neal3 and the average over the auxiliary draws for Neal8; it is a probability density. The rows come dealt into four blocks, so they are in the order of the iterations only for at most four states. The best clustering is the first kept clustering with the least number of disagreements. Such a run ends well when its files are good.", "quantifier": "for all command lines, files, generators, data, grids and settings in range; numbers as the doubles written for them, provided these are still in their ranges", "why_tests_cant": "Without it a density could belong to another state or be no density, and a user who pairs rows of the density file with rows of the clusterings would be misled.", "anchors": ["executables/run_mcmc.cc: main", "src/utils/eval_like.cc: eval_lpdf_parallel", "src/algorithms/marginal_algorithm.cc: lpdf_from_state", "src/algorithms/neal2_algorithm.cc, neal8_algorithm.cc: lpdf_marginal_component", "src/hierarchies/likelihoods/states/uni_ls_state.h", "src/mixings/dirichlet_mixing.cc, pityor_mixing.cc", "src/utils/cluster_utils.cc: cluster_estimate"]}
{"id": "C138", "title": "The Python and R functions answer with the run that was asked for", "statement": "An answer of the R function run_mcmc, and an answer of the Python function after the program has ended well, belongs to the request: the parameters given as texts or as names of files are the settings of the sampler, the sampler runs on the numbers in the data, and the parts of the answer that were asked for are what the reader makes of the kept states, their numbers of clusters, their clusterings, the best of these and the log-densities of the states at the points of the grid; the parts that were not asked for are absent.", "quantifier": "for all requests whose names are plain words, for all files, generators and settings in range; the readers of numeric tables are parameters", "why_tests_cant": "Without it a user of the packages could be given results of another model or of other settings.", "anchors": ["python/bayesmixpy/run.py: run_mcmc", "python/bayesmixpy/io_utils.py, shell_utils.py", "R/bayesmixr/R/run_mcmc.R", "executables/run_mcmc.cc: main"]}
{"id": "C139", "title": "Hyperparameters of the factor hierarchy can be taken from the data", "statement": "For a factor prior without vectors, set_fa_hyperparams_from_data takes as mean of the centering distribution the point around which the deviations of the data sum to zero, and as scales of the unique variances the numbers for which the mean of the inverse-gamma distribution of variable j is the variance that the best linear fit of column j from the other columns leaves. It throws exactly when the shape is 1, has no defined answer exactly when some combination of the columns is constant, leaves a prior with vectors alone and does nothing on a second call; the prior's own checks accept the outcome exactly when the shape exceeds 1.", "quantifier": "for all data matrices, dimensions and priors that pass the checks of initialize_hypers", "why_tests_cant": "Without it the prior of the example shipped with the factor hierarchy, which leaves its vectors out, could be centred elsewhere or have other scales than the data suggest.", "anchors": ["src/hierarchies/fa_hierarchy.h: set_fa_hyperparams_from_data, initialize_state", "src/hierarchies/priors/fa_prior_model.cc: set_hypers_from_proto, initialize_hypers, sample"]}
{"id": "C140", "title": "A run from Python or R calls the program that was built last", "statement": "In R, after the installation of the package and any builds, runs, attaching and detaching and new sessions, a run calls the program of the last build whose commands ended well, with its own library path, and stops before there is one; a build answers exactly when its commands end well, and otherwise leaves the file of the package as it was. In Python the first run of a process calls the program of the last build whose commands were found, and the process keeps to it.", "quantifier": "for all sequences of such steps, all exit statuses of the commands and all environments that do not name the program themselves", "why_tests_cant": "Without it a user would run an old program, or none, after having built a new one.", "anchors": ["python/bayesmixpy/build_bayesmix.py", "python/bayesmixpy/shell_utils.py: run_shell", "python/bayesmixpy/run.py: run_mcmc", "R/bayesmixr/R/build_bayesmix.R", "R/bayesmixr/R/zzz.R", "R/bayesmixr/R/run_mcmc.R"]}
{"id": "C141", "title": "The benchmarked Gaussian densities agree and the helpers hand out precisions", "statement": "The matrices of the test helper are symmetric positive definite and the multivariate hierarchy built on them initializes. The density from a covariance, the one from the precision and the one from a factor C of the precision C C^T are the same on every row; the upper factor that the benchmarks pass gives that density exactly when the precision is diagonal, and the function called fully optimized exceeds the others by d ln(2 pi) / 4.", "quantifier": "for all random matrices, all precisions, means and grids of points of any size", "why_tests_cant": "The benchmark times four functions as ways to one density; two of them compute another one.", "anchors": ["benchmarks/lpd_grid.cc", "src/utils/testing_utils.cc: get_spd_matrix, get_multivariate_nnw_hierarchy", "src/utils/distributions.cc: multi_normal_prec_lpdf"]}
