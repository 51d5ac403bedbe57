#!/usr/bin/env python3
"""Writes /verif/properties.jsonl (one JSON object per line)."""
import json, os
P = []
def p(id, title, statement, quantifier, why, *anchors):
    P.append(dict(id=id, title=title, statement=statement, quantifier=quantifier,
                  why_tests_cant=why, anchors=list(anchors)))

# ---------------------------------------------------------------- partitions
p("C01", "Neal2/Neal3 sweeps always leave a proper partition",
  "Starting from a proper clustering state of n >= 2 observations (every label smaller than the number of clusters; every cluster's stored index set is exactly the set of observations carrying its label; its stored cardinality is the size of that set; no cluster is empty), a full allocation sweep of Neal2 or Neal3 neither throws, aborts nor performs an out-of-range access, and ends in a proper clustering state of the same n observations.",
  "for every dataset size n >= 2, every starting partition and every outcome of every random draw, any number of sweeps",
  "The sweep is a history-dependent loop of removals, relabelings and insertions; a test sees one seed and one dataset.",
  "src/algorithms/neal2_algorithm.cc: Neal2Algorithm::sample_allocations", "src/algorithms/neal3_algorithm.h", "src/algorithms/marginal_algorithm.cc: MarginalAlgorithm::remove_singleton", "src/hierarchies/likelihoods/base_likelihood.h: add_datum/remove_datum")
p("C02", "Neal8 sweeps always leave a proper partition",
  "With at least one auxiliary component, an allocation sweep of Neal8 started from a proper clustering state of n >= 1 observations never errs and ends in a proper clustering state; auxiliary components never hold data. With zero auxiliary components, reallocating an observation that is alone in its cluster accesses a non-existing auxiliary component.",
  "for every n >= 1, every n_aux, every starting partition, every outcome of every draw",
  "Needs all partitions and all draw sequences; the out-of-range access with n_aux = 0 needs a configuration no test uses.",
  "src/algorithms/neal8_algorithm.cc: Neal8Algorithm::sample_allocations, initialize, read_params_from_proto")
p("C03", "Split-merge sweeps always leave a proper partition",
  "A split-merge allocation update (any number of Metropolis-Hastings updates, restricted and full Gibbs scans) started from a proper clustering of n >= 2 observations never errs, whatever proposals are accepted, and ends in a proper clustering of the same observations.",
  "for every n >= 2, every starting partition, all iteration counts, every outcome of every draw",
  "The accepted split and the accepted merge rewrite labels of many observations in an order-dependent loop; exhaustive testing is impossible.",
  "src/algorithms/split_and_merge_algorithm.cc: SplitAndMergeAlgorithm::sample_allocations, proposal_update_allocations, restricted_gs, full_gs")
p("C04", "Blocked Gibbs keeps labels and components consistent",
  "A blocked Gibbs allocation sweep keeps the number of components constant, gives every observation a label smaller than it, and keeps each component's stored observations and cardinality equal to the observations carrying its label (components may be empty).",
  "for every n, every number of components >= 1, every starting allocation, every outcome of every draw",
  "All allocation histories are quantified.",
  "src/algorithms/blocked_gibbs_algorithm.cc: BlockedGibbsAlgorithm::sample_allocations")
p("C05", "Slice sampler keeps labels and components consistent",
  "Whenever each observation has at least one component whose weight exceeds its slice variable, a slice-sampler iteration (weights, slice, allocation) keeps every label in range and each component's stored observations equal to those carrying its label; trimming trailing components never discards a component that owns observations.",
  "for every n, every starting state, every weight/slice draw sequence satisfying the stated condition",
  "Components are created and destroyed depending on real-valued draws.",
  "src/algorithms/slice_sampler.cc: SliceSampler::sample_weights, sample_allocations")
p("C06", "Initialisation establishes a proper partition exactly when the requested clusters do not exceed the data",
  "Algorithm initialisation with k initial clusters on n observations ends in a proper clustering with exactly k non-empty clusters when 1 <= k <= n (and with n singletons when the mixing leaves 0 components); when k > n it writes outside the allocation vector.",
  "for every n >= 1, every k, every outcome of the initial random allocations",
  "Unbounded n and k, and the failing region is undefined behaviour that a test cannot detect reliably.",
  "src/algorithms/base_algorithm.cc: BaseAlgorithm::initialize")
p("C07", "A run saves exactly the post burn-in iterations, in order",
  "A completed run with maxiter and burnin saves exactly max(0, maxiter - burnin) states, the i-th of which is the state reached after burnin + i + 1 steps and carries iteration number burnin + i; with burnin >= maxiter nothing is saved.",
  "for every maxiter, burnin and every step function (any algorithm, any draws)",
  "Loop over unbounded iteration counts.",
  "src/algorithms/base_algorithm.h: BaseAlgorithm::run, save_state", "src/collectors/base_collector.h")
p("C08", "Configuration validation is complete and ordered",
  "Initialisation throws for every ill-formed configuration (no data, no hierarchy, non-conjugate hierarchy with a conjugate-only algorithm, multi-column data with a univariate hierarchy, covariates given to a non-dependent hierarchy or mixing, covariate row count different from the data, missing mixing, marginal/conditional mismatch), before touching any allocation, and for no other configuration.",
  "for every combination of data shape, hierarchy, mixing, covariates and algorithm",
  "The cross product of all flags and sizes is infinite and the order of the checks matters.",
  "src/algorithms/base_algorithm.cc: BaseAlgorithm::initialize lines 56-118")
p("C09", "Dropping an emptied cluster preserves co-clustering",
  "Removing an emptied cluster and shifting labels keeps exactly the same pairs of observations clustered together, keeps each remaining cluster's parameters attached to the same observations, and keeps labels contiguous.",
  "for every allocation vector, every cluster index without observations",
  "All allocation vectors of all lengths.",
  "src/algorithms/marginal_algorithm.cc: MarginalAlgorithm::remove_singleton")
p("C10", "One observation: which marginal samplers are defined",
  "On a dataset with a single observation, Neal2 and Neal3 (and split-merge's full scan) dereference a non-existing first cluster while reallocating it, whatever is drawn; split-merge with at least one Metropolis-Hastings update throws while choosing the second observation; Neal8 is well defined.",
  "for every hierarchy, mixing, parameter state and draw sequence with n = 1",
  "Undefined behaviour may silently pass a test.",
  "src/algorithms/neal2_algorithm.cc: sample_allocations, get_cluster_lpdf", "src/algorithms/split_and_merge_algorithm.cc: sample_allocations", "src/algorithms/neal8_algorithm.cc: sample_allocations")
p("C11", "Running the same algorithm object twice",
  "A second run on the same algorithm object, without setting the hierarchy again, starts from a state in which stored clusters and allocation labels disagree (clusters left over from the first run are kept); setting the hierarchy again before the second run restores the guarantee of C06.",
  "for every state left by the first run with at least one cluster",
  "Requires the state after an arbitrary first run.",
  "src/algorithms/base_algorithm.cc: initialize", "src/algorithms/base_algorithm.h: run, set_hierarchy")
# ---------------------------------------------------------------- posterior caches
p("C12", "Parameter updates without cached posteriors use the cluster's own data, except for the first initial cluster",
  "In algorithms that do not keep cached posterior hyperparameters (Neal2, Neal8, blocked Gibbs, slice), every cluster created after initialisation redraws its parameters from the posterior of its current data; the cluster object created first by initialisation with a conjugate hierarchy instead keeps redrawing them from the prior as long as it lives.",
  "for every sequence of reallocations, parameter updates and draws",
  "The distribution used is invisible to a test that only sees draws; the flag is set once and consulted arbitrarily later.",
  "src/hierarchies/base_hierarchy.h: initialize, clone, sample_full_cond", "src/hierarchies/updaters/semi_conjugate_updater.h: draw, get_posterior_hypers", "src/hierarchies/updaters/abstract_updater.h")
p("C13", "Cached posteriors are fresh whenever they are read in Neal3",
  "With fixed hierarchy hyperparameters, every time Neal3 evaluates a cluster's predictive density or draws its parameters, the cached posterior hyperparameters equal those computed from the cluster's current data; if the hierarchy hyperparameters are updated between sweeps the cache of untouched clusters is stale in the next sweep.",
  "for every allocation history and draw sequence",
  "Freshness is an invariant over all histories.",
  "src/algorithms/neal3_algorithm.h", "src/algorithms/neal2_algorithm.cc", "src/hierarchies/base_hierarchy.h: add_datum/remove_datum/save_posterior_hypers", "src/algorithms/base_algorithm.cc: update_hierarchy_hypers")
p("C14", "Neal8 auxiliary parameters",
  "In each Neal8 reallocation, when the observation was a singleton its old parameters are offered as the first auxiliary component and only the others are refreshed from the prior, otherwise all are refreshed; a newly opened cluster receives exactly the parameters of the auxiliary component chosen.",
  "for every state, observation and outcome of draws",
  "All states and draws.",
  "src/algorithms/neal8_algorithm.cc: sample_allocations")
# ---------------------------------------------------------------- sufficient statistics, conjugacy
p("C15", "Incremental sufficient statistics equal batch statistics",
  "After any sequence of datum insertions and removals performed through the hierarchy API, each cluster's stored sufficient statistics (normal: sum and sum of squares; multivariate normal: vector sum and sum of outer products; linear regression: X'X, X'y, y'y; factor analyser: sum) equal those computed from scratch from the data currently in the cluster.",
  "for every sequence of additions/removals of any length and every data values",
  "All histories; tests use a handful of insertions.",
  "src/hierarchies/likelihoods/uni_norm_likelihood.cc", "src/hierarchies/likelihoods/multi_norm_likelihood.cc", "src/hierarchies/likelihoods/uni_lin_reg_likelihood.cc", "src/hierarchies/likelihoods/fa_likelihood.cc")
p("C16", "NNIG posterior hyperparameters satisfy Bayes' rule",
  "For every data list and every valid hyperparameters, prior log-density of (mean, variance) plus the data's normal log-likelihood minus the log-density under the computed posterior hyperparameters does not depend on (mean, variance), so the computed hyperparameters are those of the exact posterior.",
  "for every data list, hyperparameters with positive scale parameters and every parameter value with positive variance",
  "Identity over reals with unbounded data.",
  "src/hierarchies/updaters/nnig_updater.cc: compute_posterior_hypers")
p("C17", "NNIG predictive density is the ratio prior x likelihood / posterior",
  "The marginal (Student-t) log-density returned for one observation equals log prior + log likelihood - log posterior-given-that-observation at every parameter value.",
  "for every observation, hyperparameters and parameter value (log-gamma function only assumed to satisfy its recurrence-free algebra, i.e. kept abstract)",
  "Real identity in seven variables.",
  "src/hierarchies/nnig_hierarchy.h: marg_lpdf", "src/hierarchies/updaters/nnig_updater.cc")
p("C18", "Posterior hyperparameters stay valid",
  "Posterior hyperparameters computed from valid hyperparameters and any data are valid again: NNIG keeps precision factor, shape and scale positive; the multivariate version keeps the inverse scale matrix symmetric positive definite; linear regression keeps the scale positive and the precision matrix positive definite.",
  "for every data list and every valid hyperparameters",
  "Requires a sum-of-squares inequality for all data.",
  "src/hierarchies/updaters/nnig_updater.cc", "src/hierarchies/updaters/nnw_updater.cc", "src/hierarchies/updaters/mnig_updater.cc")
p("C19", "NNIG updating is order independent and compositional",
  "Updating with two batches one after the other gives the same hyperparameters as updating with their concatenation, and permuting the data does not change them.",
  "for every pair of data lists and every valid hyperparameters",
  "Universal over lists and reals.",
  "src/hierarchies/updaters/nnig_updater.cc")
p("C20", "NNxIG full conditionals",
  "The mean's full-conditional parameters computed by the semi-conjugate updater are the exact normal full conditional given the current variance, and the variance's inverse-gamma parameters are the exact full conditional given the current mean; but both are drawn from the same old state, so the variance is not conditioned on the newly drawn mean.",
  "for every data list, hyperparameters and current state",
  "Real identities; a draw-based test cannot see which state was conditioned on.",
  "src/hierarchies/updaters/nnxig_updater.cc", "src/hierarchies/priors/nxig_prior_model.cc: sample")
p("C21", "Multivariate normal-Wishart update satisfies Bayes' rule (quadratic part)",
  "For every dimension, data list and valid hyperparameters, the exponent of prior x likelihood equals the exponent of the density with the computed posterior mean, scaling and inverse scale, for every mean vector and precision matrix.",
  "for every dimension d, every data list, mean vector and symmetric precision matrix",
  "Matrix identity in every dimension.",
  "src/hierarchies/updaters/nnw_updater.cc")
p("C22", "Linear-regression update satisfies Bayes' rule",
  "For every dimension, covariates and responses, prior quadratic form plus residual sum of squares equals posterior quadratic form plus twice the computed increase of the scale.",
  "for every dimension, data list, coefficient vector, with invertible posterior precision",
  "Matrix identity in every dimension.",
  "src/hierarchies/updaters/mnig_updater.cc")
p("C23", "Cluster log-density shortcut",
  "The closed-form cluster log-density of the univariate normal used in Metropolis updates equals the sum of the individual observations' log-densities.",
  "for every data list and state with positive variance",
  "Universal over lists.",
  "src/hierarchies/likelihoods/uni_norm_likelihood.h: cluster_lpdf_from_unconstrained", "src/hierarchies/likelihoods/uni_norm_likelihood.cc: compute_lpdf")
p("C24", "Unconstrained parametrisation",
  "Converting a location-scale state to unconstrained coordinates and back is the identity, in both directions, and the log-determinant used is the logarithm of the derivative of the inverse map.",
  "for every state with positive variance and every unconstrained vector",
  "Universal over reals.",
  "src/hierarchies/likelihoods/states/uni_ls_state.h")
p("C25", "Multivariate normal density and the Cholesky factor",
  "The multivariate normal log-density routine computes the density of the precision P when given any factor C with C C' = P; states whose factor was produced by the normal-Wishart prior satisfy C' C = P instead, and there are precision matrices for which the resulting density is wrong.",
  "for every dimension, point, mean and factor (positive part); witness for the negative part",
  "Needs a non-diagonal precision and an independent density; the existing tests use the same routine on both sides.",
  "src/utils/distributions.cc: multi_normal_prec_lpdf", "src/hierarchies/priors/nw_prior_model.cc: write_prec_to_state", "src/hierarchies/likelihoods/states/multi_ls_state.h")
p("C26", "Woodbury evaluation",
  "The factor-analyser density routine's quadratic form equals that of the inverse of Psi + Lambda Lambda' for every invertible diagonal Psi and loadings, and its determinant formula equals the determinant of that covariance.",
  "for all dimensions p, q, every loading matrix and positive diagonal, every vector",
  "Matrix identity in every dimension.",
  "src/utils/distributions.cc: compute_wood_chol_and_logdet, multi_normal_lpdf_woodbury_chol")
p("C27", "Factor-analyser variance update",
  "The inverse-gamma shape used for the residual variances adds half the number of observations rounded down, so it is the exact full conditional for every even cluster size and differs from it for every odd one; moreover evaluation after an update still uses the precision factors of the previous parameters.",
  "for every cluster size and every state",
  "Tests use one cluster size.",
  "src/hierarchies/updaters/fa_updater.cc: sample_psi, draw")
p("C28", "NIG hyperprior on the mean",
  "With a normal hyperprior on the mean, the hyperparameter update uses the exact full-conditional mean and standard deviation given the clusters' parameters.",
  "for every list of cluster states and hyperprior parameters",
  "Real identity over unbounded lists.",
  "src/hierarchies/priors/nig_prior_model.cc: update_hypers")
p("C29", "NIG normal-gamma-gamma hyperprior",
  "With the normal-gamma-gamma hyperprior the location parameter's conditional variance is computed correctly but passed where a standard deviation is expected, so the draw has the exact full-conditional spread iff that variance is one.",
  "for every list of cluster states and hyperprior parameters",
  "A statistical test would need to know the exact conditional.",
  "src/hierarchies/priors/nig_prior_model.cc: update_hypers")
p("C30", "Metropolis updaters and the prior",
  "The acceptance rule used by the Metropolis updaters is reversible with respect to the cluster likelihood only; it is reversible with respect to the posterior iff the prior density of the two points agrees.",
  "for every proposal density, pair of points, likelihood and prior",
  "Detailed balance is a statement about all pairs of states.",
  "src/hierarchies/updaters/metropolis_updater.h: draw", "src/hierarchies/updaters/random_walk_updater.h", "src/hierarchies/updaters/mala_updater.h")
# ---------------------------------------------------------------- mixings
p("C31", "Marginal mixing masses form a probability distribution",
  "For the Dirichlet process and Pitman-Yor mixings, normalised masses of the existing non-empty clusters plus that of a new cluster are all positive (new cluster: non-negative) and sum to one, for every parameter value accepted by initialisation.",
  "for every list of positive cluster sizes (possibly empty when the strength is positive), every accepted parameter",
  "Unbounded lists and real parameters.",
  "src/mixings/dirichlet_mixing.cc: mass_existing_cluster, mass_new_cluster, initialize_state", "src/mixings/pityor_mixing.cc")
p("C32", "Sequential masses give an exchangeable partition law",
  "Multiplying the masses along any order of seating the observations gives a probability that depends only on the cluster sizes (the Ewens-Pitman formula), so the implied prior on partitions does not depend on the order of observations.",
  "for every allocation sequence, every permutation of the observations, every accepted parameter",
  "Quantifies over all partitions and orders.",
  "src/mixings/dirichlet_mixing.cc", "src/mixings/pityor_mixing.cc")
p("C33", "Log and linear scale, normalised and proportional masses agree",
  "For every mixing, the logarithmic masses are the logarithms of the linear ones whenever positive (for the Dirichlet process: provided the cached logarithm is in sync), and proportional masses differ from normalised ones by one factor common to all clusters.",
  "for every argument and accepted parameter",
  "Universal over reals.",
  "src/mixings/dirichlet_mixing.cc", "src/mixings/pityor_mixing.cc", "src/mixings/mixture_finite_mixing.cc")
p("C34", "Neal2/Neal3 reallocation weights are the exact full conditional",
  "The weight vector used to reallocate an observation is proportional to the joint density (partition prior x likelihood, collapsed for Neal3) of the clustering obtained by each choice.",
  "for every clustering, observation and data values; Dirichlet process and Pitman-Yor",
  "Equality of densities for every state.",
  "src/algorithms/neal2_algorithm.cc: get_cluster_prior_mass, get_cluster_lpdf, sample_allocations", "src/algorithms/neal3_algorithm.h")
p("C35", "Gibbs reallocation leaves the posterior invariant",
  "Reallocating one observation with Neal3's probabilities, and hence a full sweep over all observations, leaves the posterior distribution over clusterings unchanged.",
  "for every number of observations and all data",
  "Statement about a probability distribution over all partitions.",
  "src/algorithms/neal3_algorithm.h", "src/algorithms/neal2_algorithm.cc: sample_allocations")
p("C36", "Neal8 weights",
  "Neal8 assigns each existing cluster the mass times likelihood, and splits the new-cluster mass equally among the auxiliary components; the total auxiliary prior mass equals the new-cluster mass for every number of auxiliary components.",
  "for every state and n_aux >= 1",
  "Universal over states.",
  "src/algorithms/neal8_algorithm.cc: get_cluster_prior_mass, get_cluster_lpdf")
p("C37", "Dirichlet process log total mass",
  "The log-scale mass of a new cluster uses a cached logarithm that is written only when a state is loaded from a message; after plain initialisation it has never been assigned, and after a total-mass update it keeps its old value. After loading a state it equals the logarithm of the total mass.",
  "for every history of initialise / load / update operations",
  "Uninitialised reads can look right in a test; staleness depends on history.",
  "src/mixings/dirichlet_mixing.cc: initialize_state, update_state, set_state_from_proto, mass_new_cluster", "src/mixings/dirichlet_mixing.h")
p("C38", "Total-mass resampling under a gamma prior",
  "The auxiliary variable drawn when resampling the total mass is not confined to (0,1), so the rate passed to the next gamma draw is positive iff the auxiliary value is below exp(rate); otherwise the update throws.",
  "for every accepted hyperparameters and auxiliary draw",
  "Depends on rare draws.",
  "src/mixings/dirichlet_mixing.cc: update_state")
p("C39", "Finite-mixture coefficient table bounds",
  "The mixture-of-finite-mixtures masses access the coefficient table within bounds iff the number of clusters is smaller than the table's size minus one, which fails when all observations of the conditioning set are singletons; and the table sized by the first call is reused for later calls with other sample sizes.",
  "for every sequence of calls (n, number of clusters)",
  "Out-of-bounds reads are undefined behaviour and history dependent.",
  "src/mixings/mixture_finite_mixing.cc: get_V_t, init_V_and_C, compute_V_t")
p("C40", "Finite-mixture masses are normalised",
  "Whenever the coefficients are positive, the normalised masses of existing clusters and of the new cluster are positive and sum to one.",
  "for every list of cluster sizes, coefficients and accepted parameters",
  "Unbounded lists and reals.",
  "src/mixings/mixture_finite_mixing.cc: mass_existing_cluster, mass_new_cluster")
p("C41", "Stick-breaking weights",
  "Weights computed from sticks equal stick times the product of the remaining parts; they are non-negative and their sum is one minus the product of all remaining parts, so they sum to one when the last stick is one.",
  "for every number of sticks and all stick values in (0,1) (last possibly 1)",
  "Unbounded number of sticks.",
  "src/mixings/truncated_sb_mixing.cc: logweights_from_sticks")
p("C42", "Stick updates are the exact full conditional",
  "The Beta parameters used to redraw each stick are those of its exact full conditional given the allocation counts: the product of the weights of all allocated components as a function of the sticks is proportional to the product of the updated Beta densities over the prior ones.",
  "for every list of counts, sticks in (0,1) and prior shapes",
  "Unbounded lists and reals.",
  "src/mixings/truncated_sb_mixing.cc: update_state")
p("C43", "Truncated mixing before its first update and growing sticks",
  "Right after initialisation the truncated mixing's weights sum to less than one (the last stick is its prior mean, strictly below one) whenever the prior's shape parameters are positive; accepted priors exist (unchecked last beta shape, negative Pitman-Yor strength) for which they do not. Asking for further sticks with explicitly listed beta priors always throws, leaving the stick vector longer than the number of components.",
  "for every accepted prior",
  "Universal over priors; exception path leaves modified state.",
  "src/mixings/truncated_sb_mixing.cc: initialize_state, keep_breaking, get_beta_params")
p("C44", "Logit stick-breaking weights do not sum to one",
  "The logit stick-breaking weights are positive and their sum is strictly below one for every covariate and coefficients, because the last component is given a logistic fraction instead of all the remaining mass; the deficit is the product of all remaining parts.",
  "for every number of components, coefficients and covariates",
  "Universal over reals.",
  "src/mixings/logit_sb_mixing.cc: mixing_weights")
p("C45", "Predictive density evaluation is a proper mixture",
  "For marginal algorithms, the predictive density reconstructed from a saved state has one column per cluster plus one for a new cluster, and its exponentiated weights sum to one for Dirichlet, Pitman-Yor and finite mixings; for conditional algorithms it has one column per component.",
  "for every saved state and grid",
  "All saved states.",
  "src/algorithms/marginal_algorithm.cc: lpdf_from_state", "src/algorithms/conditional_algorithm.cc: lpdf_from_state")
p("C46", "Split-merge acceptance uses the right prior ratio for the Dirichlet process only",
  "The prior part of the split acceptance ratio equals the ratio of partition probabilities for the Dirichlet process; for Pitman-Yor with positive discount it is wrong unless exactly two clusters exist before the split (the number of clusters is hard-wired to two).",
  "for every clustering and split",
  "Equality of ratios over all clusterings.",
  "src/algorithms/split_and_merge_algorithm.cc: compute_log_ratios")
p("C47", "Split-merge discards covariates",
  "When the hierarchy depends on covariates, the split-merge algorithm adds and removes data with an empty covariate row although the data set has covariates, so the statistics update combines rows of different lengths.",
  "for every dataset with at least one covariate column",
  "No test runs split-merge with covariates.",
  "src/algorithms/split_and_merge_algorithm.cc", "src/hierarchies/likelihoods/uni_lin_reg_likelihood.cc: update_sum_stats")
# ---------------------------------------------------------------- collectors, io
p("C48", "File collector: round trip and crash safety",
  "Reading back a finished collection returns exactly the saved states in order; if the file is cut at any byte, reading returns a prefix of the saved states and never a state that was not saved.",
  "for every list of states (any byte contents, any sizes), every crash point",
  "Every truncation point of every file.",
  "src/collectors/file_collector.cc: collect, next_state, populate_buffer, read_one")
p("C49", "Chunk size is unobservable",
  "The sequence of states obtained by repeatedly asking for the next state, and by reading in chunks, is the same for every positive buffer/chunk size.",
  "for every stored chain and every pair of positive chunk sizes",
  "All chain lengths and chunk sizes.",
  "src/collectors/file_collector.cc: next_state, populate_buffer", "src/collectors/base_collector.h: get_chunk, get_whole_chain")
p("C50", "Memory collector",
  "A memory collector yields exactly the collected states in order, then reports the end until reset, any number of times; after loading a chain from file it adds nothing to a size it does not reset, so loading into a collector that is not empty makes reading run past the end.",
  "for every history of collect / next / reset / load operations",
  "All histories.",
  "src/collectors/memory_collector.cc", "src/collectors/memory_collector.h")
p("C51", "Python reader of saved chains",
  "The Python reader returns exactly the saved messages for every intact file; on a file cut inside a length prefix it fails with an index error, and on a file cut inside a message it may return a message that was never saved.",
  "for every list of messages and every truncation",
  "All files.",
  "python/bayesmixpy/io_utils.py: read_many_protos_from_file")
p("C52", "Parallel density evaluation",
  "Parallel evaluation returns the same rows as sequential evaluation up to a permutation that depends only on the number of states and jobs; the order is the chain order iff the round-robin interleave is trivial (one job or at most as many states as jobs).",
  "for every chain length and number of jobs >= 1",
  "All chain lengths; tests compare a single size.",
  "src/utils/eval_like.cc: eval_lpdf_parallel_fullmemory", "src/utils/eval_like.h: gen_even_slices")
p("C53", "Stacking and grids",
  "Stacking matrices row-wise keeps all rows in order and fails on inconsistent column counts; stacking an empty list is an out-of-range access; building a 2-d grid lists all pairs in every row exactly when the axes have equal length, the first has at most one point or the second is empty; it writes outside the result exactly when the first axis is longer than a non-empty second one.",
  "for every list of matrices and every pair of grids",
  "All shapes.",
  "src/utils/eigen_utils.cc: vstack, append_by_row, get_2d_grid", "src/utils/eigen_utils.h: stack_vectors")
p("C54", "Matrix messages round trip",
  "Writing a vector or matrix to a message and reading it back returns the same object, for both storage orders handled by the reader, except that a matrix with no rows or no columns loses its shape; a message with fewer values than its shape says is read out of range.",
  "for every matrix of every shape",
  "All shapes and contents.",
  "src/utils/proto_utils.cc: to_proto, to_eigen")
p("C55", "CSV reader",
  "Reading a rectangular text matrix returns the cells in place; a row longer than the first one writes out of range, and a shorter one leaves exactly its missing cells unwritten.",
  "for every file contents",
  "All files.",
  "src/utils/io_utils.cc: read_eigen_matrix")
p("C56", "Posterior similarity and point estimate",
  "The posterior similarity of two observations is the fraction of saved iterations in which they share a cluster, is invariant under relabeling of each iteration, and the cluster estimate minimises the sum of squared differences between an iteration's co-clustering indicators and the similarity whenever its error accumulator starts from zero.",
  "for every matrix of saved allocations",
  "All matrices.",
  "src/utils/cluster_utils.cc: posterior_similarity, cluster_estimate")
p("C57", "Covariate lookup",
  "The covariate getter returns an empty row without covariates, the single row for all observations when one row is given, and the observation's own row otherwise; out-of-range only if an observation index exceeds the rows.",
  "for every covariate matrix and index",
  "All shapes.",
  "src/utils/covariates_getter.h")
p("C58", "Factory",
  "An object factory returns the object of the first builder registered for an identifier whatever later registrations do, and throws for an identifier never registered; lookup by an unknown name uses an indeterminate identifier and may create any registered object.",
  "for every registration history",
  "All histories.",
  "src/runtime/factory.h: add_builder, create_object")
# ---------------------------------------------------------------- semi-HDP and misc
p("C59", "Semi-HDP relabeling",
  "The semi-HDP relabel step removes exactly the unused atoms, keeps every table pointing to the same atom parameters, and keeps observations' table assignments consistent.",
  "for every reachable sampler state",
  "All states.",
  "src/algorithms/semihdp_sampler.cc: relabel")
p("C60", "Semi-HDP table counts",
  "Opening a private table appends the table's count twice, so afterwards the count vector and the table parameters have different lengths; opening a shared one keeps them equal.",
  "for every sampler state and draw choosing a new table",
  "Depends on a random branch.",
  "src/algorithms/semihdp_sampler.cc: update_table_allocs")
p("C61", "Semi-HDP initialisation",
  "Initialisation creates five tables per group and assigns the first five observations one each, which is in range iff every group has at least five observations.",
  "for every group-size vector",
  "Undefined behaviour below the bound.",
  "src/algorithms/semihdp_sampler.cc: initialize")
p("C62", "Clones share prior hyperparameters",
  "Shallow-cloned hierarchies share the prior hyperparameters object, so loading hyperparameters through any clone (as predictive evaluation does) changes those of all clusters; deep clones do not share, but their hyperparameters are reset to the initial prior ones.",
  "for every sequence of clone / load operations",
  "Aliasing over all histories.",
  "src/hierarchies/base_hierarchy.h: clone, deep_clone", "src/hierarchies/priors/base_prior_model.h", "src/algorithms/marginal_algorithm.cc: lpdf_from_state")
p("C63", "Gaussian mixture distance",
  "The squared L2 distance between two Gaussian mixtures is evaluated with the closed-form overlap integral whose second argument must be a standard deviation; the code passes the sum of variances, so a term is right iff that sum equals one or the means are one special distance apart, and the computed distance of two valid mixtures can be negative. The multivariate version is the integral of the squared difference.",
  "for every pair of univariate mixtures (component-wise), every pair of multivariate mixtures",
  "Needs an independent closed form.",
  "src/utils/distributions.cc: gaussian_mixture_dist")
p("C64", "Slice sampler candidate set",
  "After the slice step every observation's own component is a candidate unless its weight is at most 1e-16. Components not represented after the weights step can never have a weight above any slice variable that step has read, so with these truncation loses no candidate; but the allocation step uses slice variables drawn afterwards, for which candidates can be lost.",
  "for every weights and slice variables",
  "Universal over infinite weight sequences.",
  "src/algorithms/slice_sampler.cc: sample_weights, sample_allocations")
p("C65", "Pitman-Yor sticks of the truncated mixing are shifted by one",
  "With a Pitman-Yor prior the k-th stick (k = 1, 2, ...) gets shapes (1-d, strength+(k-1)d), while the Pitman-Yor process has (1-d, strength+k d); the first weight therefore has prior mean (1-d)/(1-d+strength) instead of (1-d)/(1+strength).",
  "for every strength, discount and stick index; witness for the mismatch",
  "Both versions yield plausible weights; only the law of the weights differs.",
  "src/mixings/truncated_sb_mixing.cc: get_beta_params")

p("C66", "Logit stick-breaking full conditional and gradient",
  "The function called the full conditional of one regression vector equals, up to a constant, the log-probability of the allocations under the mixing's own weights plus the Gaussian log-prior; and the gradient function is its exact gradient.",
  "for every number of components, coefficient vectors, covariates and allocations",
  "Universal over reals; a numerical check of a gradient covers finitely many points.",
  "src/mixings/logit_sb_mixing.cc: full_cond_lpdf, grad_full_cond_lpdf, mixing_weights")
p("C67", "Logit stick-breaking acceptance ratio",
  "The acceptance ratio of the gradient-based update evaluates the reverse proposal with the forward proposal's mean, so it is the Metropolis-Hastings ratio exactly when the two means are equally distant from the current value, which fails in general.",
  "for every full conditional, step size, current and proposed value; witness for the mismatch",
  "The chain still moves plausibly; only its stationary law is wrong.",
  "src/mixings/logit_sb_mixing.cc: update_state")
p("C68", "Finite-mixture coefficient series",
  "The loop that computes a coefficient of the mixture of finite mixtures terminates for every accepted parameter, and returns a positive value: a partial sum of Miller and Harrison's series, scaled by exp(-C), whose last term is below the tolerance relative to the previous sum.",
  "for every rate, Dirichlet parameter, number of clusters below 2^32 and sample size",
  "Termination for all reals cannot be tested.",
  "src/mixings/mixture_finite_mixing.cc: compute_V_t")
p("C69", "Finite-mixture masses give an exchangeable law",
  "With coefficients truncated at a common number of terms, multiplying the normalised masses along any seating order gives the Gibbs-type partition probability, so the order of the observations does not matter.",
  "for every order, permutation, truncation at least the number of observations, parameters",
  "Quantifies over all partitions and orders.",
  "src/mixings/mixture_finite_mixing.cc: mass_existing_cluster, mass_new_cluster")

p("C70", "The Laplace hierarchy cannot be updated by MALA",
  "Every draw of a Laplace / normal x inverse-gamma cluster with its default updater throws, because the updater evaluates the prior in unconstrained coordinates and that prior model does not provide the evaluation.",
  "for every data set, hyperparameters, state, step size and generator",
  "A test would have to exercise the hierarchy's draw; none does.",
  "src/hierarchies/updaters/mala_updater.h, src/hierarchies/updaters/target_lpdf_unconstrained.h, src/hierarchies/priors/nxig_prior_model.h, src/hierarchies/priors/prior_model_internal.h")
p("C71", "Draws from the univariate priors follow the prior density",
  "Sampling from the normal-inverse-gamma and normal x inverse-gamma priors makes exactly the draws whose log-densities add up to the log-density the same class reports for the sampled state; with posterior hyperparameters this makes the conjugate draw exact (C16).",
  "for every generator, generator state and hyperparameters",
  "A test sees a few draws, not their law.",
  "src/hierarchies/priors/nig_prior_model.cc: sample, lpdf; src/hierarchies/priors/nxig_prior_model.cc: sample, lpdf")
p("C72", "Accepted normal-inverse-gamma priors are valid and stay valid",
  "Hyperparameters accepted at initialisation have positive precision factor, shape and scale, and hyperparameter updates keep them so; but the variance of a normal prior on the mean is not checked, so an accepted configuration can have a conditional draw with negative variance.",
  "for every prior configuration, list of cluster states and generator with positive gamma draws; witness for the negative part",
  "Every configuration and every history.",
  "src/hierarchies/priors/nig_prior_model.cc: initialize_hypers, update_hypers")

p("C73", "Multivariate predictive densities are the marginal likelihoods",
  "The prior predictive density of the normal-Wishart and linear regression hierarchies is the marginal likelihood of one observation, and the conditional predictive density of a cluster times the marginal likelihood of its data is that of the enlarged data set; grid evaluation returns the same values row by row.",
  "for every dimension, valid hyperparameters, data list and new observation",
  "Identity over reals for every dimension.",
  "src/hierarchies/nnw_hierarchy.h: marg_lpdf; src/hierarchies/lin_reg_uni_hierarchy.h: marg_lpdf; src/utils/distributions.cc: multi_student_t_invscale_lpdf")
p("C74", "Factor-analyser full conditionals",
  "The draws of the factor scores and of the loading rows follow their exact full conditionals; the draw of the mean does exactly when prior variance times the diffusion parameter is one, while the prior uses that parameter as a variance, so it is exact only for parameter one.",
  "for all dimensions, data lists, scores and positive variances; witness for the mismatch",
  "Statement about densities at all real arguments.",
  "src/hierarchies/updaters/fa_updater.cc, src/hierarchies/priors/fa_prior_model.cc")
p("C75", "Factor-analyser states drawn from the prior cannot be evaluated",
  "A factor-analyser state drawn from the prior leaves the cached inverse variances and factors unset, so evaluating its likelihood or updating a non-empty cluster from it reads unset data; the initial state and every state read from a message have consistent caches and evaluate to the exact density.",
  "for every generator, hyperparameters, data and dimensions",
  "Uninitialised members may happen to look valid in a test.",
  "src/hierarchies/priors/fa_prior_model.cc: sample; src/hierarchies/likelihoods/states/fa_state.h; src/hierarchies/likelihoods/fa_likelihood.cc; src/hierarchies/fa_hierarchy.h: initialize_state")
p("C76", "Accepted multivariate priors",
  "Exactly the normal-Wishart configurations with positive scaling, degrees of freedom above d-1 and positive definite scale are accepted (regression: positive definite precision, positive shape and scale); accepted hyperparameters are valid and stay valid under hyperparameter updates.",
  "for every dimension, configuration, list of cluster states and generator with positive gamma draws",
  "Every configuration and every history.",
  "src/hierarchies/priors/nw_prior_model.cc: initialize_hypers, update_hypers; src/hierarchies/priors/mnig_prior_model.cc: initialize_hypers")
p("C77", "Normal-Wishart hyperparameter updates",
  "The updates of the prior mean and of the scale matrix draw from exact full conditionals; the update of the scaling adds half the number of clusters to the shape, which is exact only in dimension one or without clusters.",
  "for every dimension and list of cluster states; witness for the mismatch",
  "Statement about densities at all real arguments and all dimensions.",
  "src/hierarchies/priors/nw_prior_model.cc: update_hypers")
p("C78", "Multivariate generators are affine images of standard normals",
  "The generators written in the library return mean plus A times independent standard normal draws, with A A' equal to the requested covariance (diagonal version) or to the inverse of the requested precision.",
  "for every dimension, mean, positive definite precision or positive diagonal, generator and generator state",
  "A test sees finitely many draws.",
  "src/utils/distributions.cc: multi_normal_diag_rng, multi_normal_prec_chol_rng")

p("C79", "File collector closes a descriptor it does not own",
  "Finishing a collection closes, besides the file opened at the start, the descriptor held in a member that was never set; the set of open descriptors is what it was before only when that member happens not to name one.",
  "for every set of open descriptors and member value; witness closing a foreign descriptor",
  "Depends on an uninitialised member.",
  "src/collectors/file_collector.cc: start_collecting, finish_collecting")

p("C80", "Density evaluation leaves traces in the mixing object",
  "Evaluating a predictive density does not change how the same algorithm object samples afterwards. Refuted: for a Dirichlet process with mass M a new cluster weighs 1 before and M after an evaluation; for finite mixtures the coefficient table is never recomputed, so that after sampling the evaluation uses coefficients of one observation less or reads past its end.",
  "for every mass, saved state and grid; witness mass 2",
  "Needs two runs around an evaluation.",
  "src/mixings/dirichlet_mixing.cc: set_state_from_proto", "src/mixings/mixture_finite_mixing.cc: get_V, set_state_from_proto", "src/algorithms/marginal_algorithm.cc: lpdf_from_state")

p("C81", "A split move and its merge are mutually reverse and balance",
  "From the state a split proposes, the update with the same two data and the same random numbers for the launch state proposes to merge back to the original clustering, with the same proposal probability and the reciprocal acceptance ratio; posterior weight times proposal times acceptance agrees in both directions for the Dirichlet process, and for Pitman-Yor exactly when the discount is zero or two clusters existed before the split.",
  "for every sampler state, pair of data, number of restricted scans and random numbers",
  "Detailed balance of a probabilistic move over all states.",
  "src/algorithms/split_and_merge_algorithm.cc: sample_allocations, split_or_merge, restricted_gs, compute_log_ratios")

p("C82", "Semi-HDP iterations are safe",
  "With univariate data, non-empty groups, random numbers in range, a platform that defines the conversion of minus infinity to an integer and pseudo-prior chains of the same positive length, an iteration from a well-formed state neither throws nor reads out of range and ends in a well-formed state without empty tables or unused shared atoms and with exact counts; hence a whole run from construction completes, and it collects every iteration if the number of iterations is a multiple of the thinning and none otherwise. Shared atoms are written once per group.",
  "for every data set, parameters, random numbers and numbers of iterations",
  "Memory safety of a pointer-heavy sampler over all random executions.",
  "src/algorithms/semihdp_sampler.h: step, run", "src/algorithms/semihdp_sampler.cc: get_state_as_proto")
p("C83", "Semi-HDP: logarithm of an empty table's count",
  "update_table_allocs stores the logarithm of every table's count in an integer; for an empty table or an unused shared atom this converts minus infinity, which the language leaves undefined, and every run with at least one adaptation iteration does it.",
  "for every well-formed state with an empty table; every run with adaptation",
  "Undefined behaviour hidden by a platform's habits.",
  "src/algorithms/semihdp_sampler.cc: update_table_allocs")
p("C84", "Semi-HDP: table weights are truncated",
  "The weight of an existing table is exp of the integer part of the logarithm of its count, so it is at most the count and more than a third of it, but in general not the count.",
  "for every count",
  "Numerical identity over all counts.",
  "src/algorithms/semihdp_sampler.cc: update_table_allocs")
p("C85", "Semi-HDP: leaving a shared table",
  "Taking an observation off a table that serves a shared atom decrements the number of tables that serve the atom although the table may stay, and replaces the atom's log-weight by the logarithm of the atom's index.",
  "for every state and observation at a shared table",
  "Silent mis-weighting.",
  "src/algorithms/semihdp_sampler.cc: update_table_allocs")
p("C86", "Semi-HDP: tables moved to another shared atom",
  "update_to_shared changes which shared atom a table serves but not the table's object, so until the next update of the atoms the table's likelihood is that of its former atom; the update of the atoms restores agreement.",
  "for every well-formed state",
  "Aliasing of shared objects.",
  "src/algorithms/semihdp_sampler.cc: update_to_shared, update_unique_vals")
p("C87", "Semi-HDP: atoms drawn given their data",
  "update_unique_vals draws every private atom given exactly the observations at its table and every shared atom given exactly the observations at all tables that serve it (from the prior when there are none), and afterwards every table holds its atom.",
  "for every well-formed state and random numbers",
  "Aliasing and data routing over all states.",
  "src/algorithms/semihdp_sampler.cc: update_unique_vals")
p("C88", "Semi-HDP: a sampler runs once",
  "Calling run on a sampler that has already been run appends tables to the old ones without extending the maps, and the first update reads out of range.",
  "for every well-formed state and run arguments",
  "Object reuse.",
  "src/algorithms/semihdp_sampler.h: run", "src/algorithms/semihdp_sampler.cc: initialize")
p("C89", "Semi-HDP: univariate data only",
  "The group sizes are numbers of matrix entries, so with two or more columns the first update of the atoms reads rows out of range.",
  "for every non-empty multivariate data set",
  "Undefined behaviour.",
  "src/algorithms/semihdp_sampler.cc: SemiHdpSampler, update_unique_vals")
p("C90", "Semi-HDP: collecting a state",
  "get_state_as_proto passes atoms a message of another type than they cast it to, so every run that collects anything is undefined.",
  "for every run with a positive number of iterations divisible by the thinning",
  "Undefined cast.",
  "src/algorithms/semihdp_sampler.cc: get_state_as_proto", "src/hierarchies/likelihoods/base_likelihood.h: downcast_state, write_state_to_proto")
p("C91", "Semi-HDP: private or shared",
  "Whether a new table is private is decided with the prior weight, not with its posterior given the observation that opened the table.",
  "exists a state, observation and random number",
  "Wrong conditional distribution.",
  "src/algorithms/semihdp_sampler.cc: update_table_allocs")
p("C92", "Semi-HDP: unknown reallocation mode",
  "With a rest_allocs_update other than the three known ones, groups never change restaurant and the state is left as it is.",
  "for every well-formed state",
  "Silent misconfiguration.",
  "src/algorithms/semihdp_sampler.cc: update_rest_allocs")
p("C93", "Semi-HDP: empty tables when a group moves",
  "When a group moves, an empty table of its new restaurant is given a larger weight than a table with one observation.",
  "for every non-positive count",
  "Wrong guard value on the log scale.",
  "src/algorithms/semihdp_sampler.cc: reassign_group")
p("C94", "Mesh of a two-dimensional density plot",
  "to_mesh returns the rows of the grid cell by cell exactly when the leading run of equal first coordinates has length k with rows = k*k; it throws when k does not divide the rows and is undefined otherwise, so product grids work only with as many points in both directions (at least two).",
  "for every grid and values",
  "Out-of-range reads and writes on rectangular grids.",
  "src/plots/plot_utils.cc: to_mesh")
p("C95", "Bar chart of the number of clusters",
  "For one non-empty column the heights are the relative frequencies of every integer between smallest and largest value and sum to one; empty input and more than one column are undefined.",
  "for every column of integers and number of columns",
  "Loop bound counts all cells, data has one column.",
  "src/plots/plot_utils.cc: num_clus_bar")
p("C96", "Plotted density",
  "The plotted density is the mean over iterations of the densities (its logarithm in two dimensions); mismatched sizes throw, other dimensions plot nothing.",
  "for every non-empty matrix of log densities",
  "Averaging on the log scale.",
  "executables/plot_mcmc.cc: main", "src/plots/plot_utils.cc: density_plot_2d")
p("C97", "Reading a chain from R",
  "The R reader returns the written messages when none is empty; an empty message is replaced by a parse of two other bytes or dropped when last, and a cut file is padded with zero bytes.",
  "for every message type with a round trip and every list of messages",
  "Ranges n:(n-1) count down; reads past the end give zero bytes.",
  "R/bayesmixr/R/utils.R: read_many_proto_from_file", "R/bayesmixr/R/decoder.R: VarintDecoder")
p("C98", "Cluster output of the main program",
  "The output loop returns allocations and number of cluster states of every stored state, in order, for both collectors; with a state too large to be written it is undefined.",
  "for every chain and every number of data rows",
  "The counted size and the stored chain can differ.",
  "executables/run_mcmc.cc: main", "src/collectors/file_collector.cc: collect")
p("C99", "Reported number of clusters",
  "Under samplers that keep proper partitions the reported number is the number of distinct labels; under blocked Gibbs it is the number of components, which can be larger.",
  "for every run",
  "Empty components are counted as clusters.",
  "executables/run_mcmc.cc: main", "src/algorithms/base_algorithm.cc: get_state_as_proto")
p("C100", "Command line of the main program",
  "Given pairs of known options and values, each option once, the parser stores every value, gives the documented default to the optional ones left out, refuses missing, unknown, repeated and stray words, and takes dashed numbers for values exactly when they follow the documented grammar.",
  "for every list of words",
  "A default stored with another type than the one it is read with; a last option without value passes for its default.",
  "lib/argparse/argparse.h: ArgumentParser::parse_args", "executables/run_mcmc.cc: main")
p("C101", "Files of the main program",
  "A run that ends with status 0 has written chain, density, numbers of clusters, allocations and best clustering computed from the inputs as they were at the start, and no other file is changed however the run ends.",
  "for every command line, file system and sampler",
  "Outputs are opened before the inputs are read.",
  "executables/run_mcmc.cc: main", "executables/run_mcmc.cc: check_args", "src/utils/io_utils.cc: check_file_is_writeable")
p("C102", "Python wrapper",
  "The wrapper writes data, grid and parameters, starts the program once with twelve well-formed options and reads back the results that were asked for; a failure of the program is reported.",
  "for every request, directory and program",
  "The exit status is not looked at; the command is split at blanks.",
  "python/bayesmixpy/run.py: run_mcmc", "python/bayesmixpy/shell_utils.py: run_shell", "python/bayesmixpy/io_utils.py: maybe_print_proto_to_file")
p("C103", "R wrapper",
  "The shell hands the program the same twelve options as Python does, results are returned only after a run with status 0, and files of the caller survive a failed run.",
  "for every request, directory and program",
  "The whole directory is deleted after a failure.",
  "R/bayesmixr/R/run_mcmc.R: run_mcmc", "R/bayesmixr/R/utils.R: maybe_print_proto_to_file")
p("C104", "Wrappers end to end",
  "The answer of a wrapper consists of what the sampler, the density evaluation and the cluster estimate compute from the data, grid and parameters of the request.",
  "for every request, directory and sampler",
  "Names and contents of files pass through three programs.",
  "R/bayesmixr/R/run_mcmc.R: run_mcmc", "python/bayesmixpy/run.py: run_mcmc", "executables/run_mcmc.cc: main")

p("C105", "Univariate densities and marginal likelihoods are integrals",
  "The priors, likelihoods and prior predictive density of the univariate hierarchies have total mass one, and the marginal likelihood and predictive density of the conjugate hierarchy are the integrals of likelihood times prior.",
  "for all valid hyperparameters, all data lists and all points; log-gamma is the logarithm of Euler's integral",
  "Samplers that integrate the cluster parameters out are only right if the closed forms are those integrals.",
  "src/hierarchies/nnig_hierarchy.h: marg_lpdf", "src/hierarchies/priors/nig_prior_model.cc: lpdf", "src/hierarchies/priors/nxig_prior_model.cc: lpdf", "src/hierarchies/likelihoods/laplace_likelihood.cc: compute_lpdf")

p("C106", "Evaluated univariate densities have mass one",
  "The function evaluated on a grid from a saved state is a probability density: it integrates to one.",
  "for every saved state with positive variances, every mixing and every grid",
  "Density estimates averaged over a chain are densities only if each one is.",
  "src/algorithms/marginal_algorithm.cc: lpdf_from_state", "src/algorithms/conditional_algorithm.cc: lpdf_from_state", "src/algorithms/neal8_algorithm.cc: lpdf_marginal_component", "src/mixings/truncated_sb_mixing.cc: logweights_from_sticks")

p("C107", "Multivariate and regression densities and marginal likelihoods are integrals",
  "The Wishart, Normal-Wishart and Normal-Inverse-Gamma priors, the likelihoods and the predictive densities have total mass one; marginal likelihoods and predictive densities are the integrals of likelihood times prior; the factor analyser's likelihood is the integral over the latent scores.",
  "for all dimensions, all valid hyperparameters, all data lists and all points; integrals over positive definite matrices are iterated along Schur complements",
  "Samplers that integrate the cluster parameters out are only right if the closed forms are those integrals.",
  "src/hierarchies/nnw_hierarchy.h: marg_lpdf", "src/hierarchies/priors/nw_prior_model.cc: lpdf", "src/hierarchies/lin_reg_uni_hierarchy.h: marg_lpdf", "src/hierarchies/priors/mnig_prior_model.cc: lpdf", "src/hierarchies/likelihoods/fa_likelihood.cc: compute_lpdf")

p("C108", "Evaluated multivariate and regression densities have mass one",
  "The function evaluated on a grid from a saved state integrates to one, over the vectors or over the response for given covariates.",
  "for every saved state written by the code, every mixing, every dimension and every grid",
  "Density estimates averaged over a chain are densities only if each one is.",
  "src/algorithms/marginal_algorithm.cc: lpdf_from_state", "src/algorithms/conditional_algorithm.cc: lpdf_from_state", "src/algorithms/neal8_algorithm.cc: lpdf_marginal_component", "src/hierarchies/nnw_hierarchy.h: marg_lpdf")

p("C109", "The example gamma hierarchy is conjugate",
  "Prior times likelihood equals posterior times marginal likelihood, the marginal likelihood is the integral over the rate, statistics depend only on the data left, parameters are accepted iff valid, and messages are read back.",
  "for all data, rates and hyperparameters, every order of additions and removals",
  "The example shows users how to write their own hierarchy; its update is exact only if these hold.",
  "examples/gamma_hierarchy/gammagamma_hierarchy.h", "examples/gamma_hierarchy/gamma_likelihood.h", "examples/gamma_hierarchy/gamma_prior_model.h", "examples/gamma_hierarchy/gammagamma_updater.h")
p("C110", "The example program samples clusterings with positive rates",
  "Every state the program saves is a clustering of its data with cardinalities, shape and total mass as configured and positive rates, and its evaluated density integrates to one.",
  "for every generator, every starting labelling, every number of iterations",
  "The program is the template for stand-alone use of the library.",
  "examples/gamma_hierarchy/run_gamma_gamma.cc: main", "src/algorithms/neal8_algorithm.cc")
p("C111", "Update of the total mass of the Dirichlet process",
  "Given the auxiliary variable, the total mass is drawn from its full conditional under the joint law whose margin is prior times probability of the partition; the auxiliary variable itself is drawn from its full conditional.",
  "for all gamma priors, all partitions, all values of the total mass and of the auxiliary variable",
  "Without it the chain does not target the posterior of the total mass.",
  "src/mixings/dirichlet_mixing.cc: update_state")
p("C112", "Programs on univariate data keep every saved state in its space",
  "A run of Neal's algorithms 2, 3 and 8 with a univariate hierarchy and a Dirichlet or Pitman-Yor mixing ends normally or throws; every saved state has positive variances, hyperparameters and mixing parameters in their ranges and cardinalities that match the labels; the density evaluated from it integrates to one.",
  "for all datasets of at least two observations, all accepted priors, all generators, all numbers of iterations",
  "Without it a later evaluation could divide by zero or take the logarithm of a negative number.",
  "src/algorithms/marginal_algorithm.cc: sample_unique_values", "src/hierarchies/nnig_hierarchy.h: NNIGHierarchy",
  "src/hierarchies/nnxig_hierarchy.h: NNxIGHierarchy", "src/hierarchies/lapnig_hierarchy.h: LapNIGHierarchy")
p("C113", "Logit stick breaking: initialisation, weights, update, acceptance rates and storage",
  "Initialisation accepts exactly the valid priors; the weights are those of a stick-breaking process with logistic sticks; the update proposes each column of coefficients along the gradient of the log-posterior, accepts by a threshold and counts acceptances; rates are fractions; a stored state gives back the same weights.",
  "for all priors, covariates, allocations and generators",
  "Without it the covariate-dependent weights follow no model.",
  "src/mixings/logit_sb_mixing.cc: update_state", "src/mixings/logit_sb_mixing.cc: initialize_state",
  "src/mixings/logit_sb_mixing.cc: mixing_weights", "src/mixings/logit_sb_mixing.h: get_acceptance_rates")
p("C114", "Programs of the blocked Gibbs algorithm complete with saved states in their space",
  "A run of the blocked Gibbs algorithm with truncated stick breaking completes for one to as many components as observations; every saved state has positive variances, weights above zero that sum to one and cardinalities that match the labels; the function evaluated from it integrates to one. With logit stick breaking it completes and the mass is the sum of the weights.",
  "for all datasets, accepted priors, generators, numbers of components and iterations",
  "Without it the conditional algorithms end in undefined behaviour or report functions that are not densities.",
  "src/algorithms/blocked_gibbs_algorithm.cc: sample_allocations", "src/algorithms/conditional_algorithm.h: step",
  "src/mixings/truncated_sb_mixing.cc: update_state", "src/mixings/logit_sb_mixing.cc: update_state")
p("C115", "Programs of the slice sampler: saved states, termination and outcome",
  "A completed run of the slice sampler saves states with positive variances, weights above zero, weights of occupied components above the slice bound and the hyperparameters of the start; the evaluated function has as mass the sum of the weights. With stick lengths bounded below every run ends; with lengths above the smallest uniform it completes.",
  "for all datasets, accepted priors, generators, numbers of iterations and of loop steps",
  "Without it the loop that breaks sticks may run for ever or an allocation may have no candidate.",
  "src/algorithms/slice_sampler.cc: sample_weights", "src/algorithms/slice_sampler.cc: sample_allocations",
  "src/algorithms/slice_sampler.cc: sample_slice", "src/mixings/truncated_sb_mixing.cc: update_state")
p("C116", "Hyperparameters start at the centres of their priors",
  "Initialisation sets each hyperparameter with a prior to the mean or the mode of that prior and each fixed one to the given value; the total mass of a Dirichlet process with a gamma prior starts at the mean of the prior.",
  "for all accepted priors",
  "Without it the chain starts from a point that the prior does not support.",
  "src/hierarchies/priors/nig_prior_model.cc: initialize_hypers", "src/hierarchies/priors/nw_prior_model.cc: initialize_hypers",
  "src/hierarchies/priors/nxig_prior_model.cc: initialize_hypers", "src/mixings/dirichlet_mixing.cc: initialize_state")

p("C117", "Programs on multivariate data and regressions keep every saved state valid",
  "Every state saved by a program of a marginal algorithm with a normal-Wishart or linear regression hierarchy holds a clustering, parameters in their space (positive definite precisions, positive variances) and an admissible mixing state; the density evaluated from it integrates to one over the observation space.",
  "for all data, dimensions, accepted priors, generators with the stated ranges, numbers of iterations",
  "Without it a chain can hold matrices that are not precisions and the saved densities mean nothing.",
  "src/algorithms/base_algorithm.h: run", "src/algorithms/base_algorithm.cc: initialize", "src/hierarchies/nnw_hierarchy.h: NNWHierarchy",
  "src/hierarchies/lin_reg_uni_hierarchy.h: LinRegUniHierarchy", "src/hierarchies/priors/nw_prior_model.cc: update_hypers")
p("C118", "Blocked Gibbs programs on multivariate data and regressions keep every saved state valid",
  "Every state saved by a blocked Gibbs program with a truncated stick-breaking mixing and a normal-Wishart or linear regression hierarchy holds labels of existing components, parameters in their space and weights that sum to one; the density evaluated from it integrates to one.",
  "for all data, dimensions, accepted priors, generators with the stated ranges, numbers of iterations",
  "Without it the saved densities of conditional algorithms mean nothing in several dimensions.",
  "src/algorithms/blocked_gibbs_algorithm.cc: initialize", "src/algorithms/blocked_gibbs_algorithm.cc: sample_allocations", "src/mixings/truncated_sb_mixing.cc: update_state")
p("C119", "Programs of the split-merge algorithm",
  "A program of the split-merge algorithm with the conjugate normal hierarchy on at least two observations ends normally or throws, never has undefined behaviour, and every state it saves holds a clustering and parameters in their space; with a single observation it cannot complete an iteration.",
  "for all data, starting clusterings, numbers of restricted scans, moves, full scans and iterations, generators with the stated ranges",
  "Without it the most intricate of the samplers can leave observations without a cluster or fail silently.",
  "src/algorithms/split_and_merge_algorithm.cc: initialize", "src/algorithms/split_and_merge_algorithm.cc: sample_allocations", "src/algorithms/base_algorithm.h: run")
p("C120", "Programs of the split-merge algorithm on multivariate data and regressions",
  "The same for the normal-Wishart hierarchy in every dimension; for the linear regression a program that proposes at least one move has undefined behaviour whatever the covariates.",
  "for all data, dimensions, starting clusterings, numbers of restricted scans, moves, full scans and iterations, generators with the stated ranges",
  "Without it the split-merge algorithm is only known to work on one-dimensional data.",
  "src/algorithms/split_and_merge_algorithm.cc: initialize", "src/algorithms/split_and_merge_algorithm.cc: sample_allocations", "src/hierarchies/nnw_hierarchy.h: NNWHierarchy")
p("C121", "Programs with a mixture of finite mixtures",
  "A program of a marginal algorithm with a mixture of finite mixtures either completes, with every saved state a proper clustering with parameters in their space, or has undefined behaviour; the latter happens exactly when an observation is reallocated while all others are alone in their clusters, hence always when it starts with one cluster per observation or has at most two observations, and for some draws from every start. The lazily filled table of coefficients does not influence results.",
  "for all hierarchies meeting the interface, data, covariates, starting clusterings, iterations and generators",
  "Without it a user of this mixing does not know that the coefficient table is read past its end at the first iteration of the default start.",
  "src/mixings/mixture_finite_mixing.cc: mass_existing_cluster", "src/mixings/mixture_finite_mixing.cc: mass_new_cluster", "src/mixings/mixture_finite_mixing.cc: get_V_t, init_V_and_C", "src/algorithms/base_algorithm.cc: initialize")
p("C122", "Reallocation under a mixture of finite mixtures",
  "When other observations share a cluster, the weights Neal2 and Neal3 draw from are proportional to the partition law of the mixture of finite mixtures (coefficient times rising factorials of the cluster sizes) times the likelihood of the resulting clustering.",
  "for all hierarchies meeting the interface, data, states and observations",
  "Without it the sampler could target another partition law than the one its coefficients define.",
  "src/mixings/mixture_finite_mixing.cc: mass_existing_cluster", "src/algorithms/neal3_algorithm.cc: get_cluster_lpdf", "src/algorithms/neal2_algorithm.cc: sample_allocations")
p("C123", "Neal3 converges to the posterior distribution of the clustering",
  "With fixed hyperparameters and fixed mixing parameters, the law of the clustering after k iterations of Neal3 is within a geometrically decreasing distance of the posterior distribution, uniformly over the starting states and all other draws; the posterior is the only invariant law, and every clustering has positive probability after one iteration.",
  "for all conjugate hierarchies meeting the interface, at least two observations, all starting states; for the normal, multivariate normal and regression programs from every accepted configuration",
  "Without it the sampler could leave the posterior invariant and still never approach it.",
  "src/algorithms/neal2_algorithm.cc: sample_allocations", "src/algorithms/neal3_algorithm.cc: get_cluster_lpdf", "src/algorithms/base_algorithm.h: step")
p("C124", "The blocked Gibbs algorithm draws its blocks from their conditional laws",
  "From the second iteration on, the labels are drawn from their joint conditional law given weights and parameters, the sticks from their conditional law given labels, and the parameters of every component from their conditional law given the labels and the hyperparameters, except those of the first component: when it has observations they are drawn from the prior with the initial hyperparameters, which is not their conditional law.",
  "for all univariate data, accepted priors of the normal hierarchy, stick-breaking priors with positive shapes, generators with the stated ranges, iterations",
  "Without it the algorithm need not leave the posterior distribution invariant.",
  "src/algorithms/blocked_gibbs_algorithm.cc: sample_allocations", "src/algorithms/blocked_gibbs_algorithm.cc: sample_unique_values", "src/mixings/truncated_sb_mixing.cc: update_state", "src/hierarchies/base_hierarchy.h: sample_full_cond")
p("C125", "The state a cluster starts with is a mode of its prior",
  "Before any draw, a cluster of a hierarchy whose mean and variance are independent a priori starts at the only mode of the prior density; for the normal-inverse-gamma prior and its regression analogue the variance is the mode of its marginal prior and the location the mode of its conditional prior; for the factor-analytic hierarchy every block is the mode of its prior; for the normal-Wishart hierarchy the mean is the mode of its conditional prior.",
  "for all hyperparameters accepted by the prior, all dimensions",
  "Without it the chain could start at a value the prior excludes.",
  "src/hierarchies/nnig_hierarchy.h: initialize_state", "src/hierarchies/nnxig_hierarchy.h: initialize_state", "src/hierarchies/lapnig_hierarchy.h: initialize_state", "src/hierarchies/lin_reg_uni_hierarchy.h: initialize_state", "src/hierarchies/fa_hierarchy.h: initialize_state", "src/hierarchies/nnw_hierarchy.h: initialize_state")
p("C126", "The plotting program draws what it is asked to draw",
  "A run of the plotting program that ends with status 0 has written, from the inputs as they were at its start, the trace of the numbers of clusters, the bar chart of their relative frequencies and the averaged density on a grid of dimension one or two, each exactly when it is asked for together with its data; no other file changes, refused arguments change nothing, a plot that cannot be written ends the program, and well-formed inputs are drawn without an error. After a run of the sampler the bar chart shows the frequencies of the numbers of clusters among the saved states.",
  "for all arguments given once each in any order, file contents, readers and renderers; plots with names of their own",
  "Without it a plot could show other numbers than those of the chain.",
  "executables/plot_mcmc.cc: main", "src/plots/plot_utils.cc: num_clus_trace", "src/plots/plot_utils.cc: num_clus_bar", "src/plots/plot_utils.cc: density_plot_1d, density_plot_2d", "lib/argparse/argparse.h: parse_args")
p("C127", "The draws of the semi-hierarchical sampler",
  "The mixing weight is drawn from the beta law given the numbers of private and shared tables, the concentrations from the Dirichlet law given the numbers of groups per restaurant; a group changes restaurant with the probabilities its mode names (full conditional, uniform Metropolis, distance-based Metropolis); an observation is seated, a table is given a dish, a new table is private or shared, and the pseudo-prior is drawn, with the stated weights at every call.",
  "for all numbers of groups and observations, parameters, well-formed states, generators; atoms and densities abstract",
  "Without it the sampler could draw from weights other than those of the model it is meant to fit.",
  "src/algorithms/semihdp_sampler.cc: update_semihdp_weight, update_table_allocs", "src/algorithms/semihdp_sampler.cc: update_rest_allocs, sample_pseudo_prior", "src/algorithms/semihdp_sampler.cc: lpdf_for_group, update_unique_vals")
p("C128", "Numbers in the files that are read and written",
  "A cell of a data file is read as the number of single precision nearest to the decimal or hexadecimal number it starts with; a cell that starts with no number and numbers beyond single precision end the reading, integers up to 2^24 are read exactly. A double is written as the nearest number of six significant digits, ties to even, within a relative error of 5e-6; writing and reading a table gives back its shape and every entry within 5.1e-6, and a table of integers exactly. The bar chart drawn from the files of a run is that of its chain.",
  "for all digit strings, exponents and characters that follow, tables of any size, doubles between 2^-125 and 2^127 or zero, chains with at most 2^24 clusters",
  "Without it results that are computed from files could differ from those of the numbers the user supplied.",
  "src/utils/io_utils.cc: read_eigen_matrix", "src/utils/io_utils.cc: write_matrix_to_file", "executables/plot_mcmc.cc: main")
p("C129", "Neal8 leaves the posterior distribution invariant",
  "Given the parameters on offer (fresh draws from the prior, the observation's own parameters first when it is alone), one reallocation of Neal8 draws the cluster and parameters of the observation with probabilities proportional to the law of the clustering times the likelihood; averaged over the fresh draws, the conditional law of the observation's cluster and parameters given everything else is left unchanged.",
  "for all hierarchies meeting the interface, data, states, observations, numbers of auxiliary clusters at least one; Pitman-Yor and Dirichlet processes, mixtures of finite mixtures; invariance for every exchangeable law of the fresh draws",
  "Without it the algorithm for non-conjugate models need not target the posterior distribution.",
  "src/algorithms/neal8_algorithm.cc: sample_allocations", "src/algorithms/neal8_algorithm.cc: get_cluster_prior_mass, get_cluster_lpdf", "src/algorithms/neal8_algorithm.cc: initialize")
p("C130", "Unconstrained representations of regression and multivariate states",
  "Writing a state as an unconstrained vector and reading it back gives the same state; every vector of an admissible length represents exactly one state with positive variance or positive definite precision; the reported log-determinant is that of the Jacobian matrix. For multivariate states the lengths are d(d+3)/2, other lengths fail an assertion, and the log-determinant cannot be computed.",
  "for all dimensions, coefficients, variances, means, precisions and vectors",
  "Without it the gradient-based and random-walk updaters cannot be used with these states.",
  "src/hierarchies/likelihoods/states/uni_lin_reg_ls_state.h: get_unconstrained, set_from_unconstrained", "src/hierarchies/likelihoods/states/multi_ls_state.h: multi_ls_to_constrained, multi_ls_to_unconstrained", "src/hierarchies/likelihoods/states/multi_ls_state.h: multi_ls_log_det_jac")
p("C131", "What one iteration draws, and in which order",
  "One iteration draws, in this order and from one stream of random numbers: the allocations; the parameters of every cluster, each from its full conditional under the current hyperparameters and exactly the observations assigned to it (the prior for an empty component); the hyperparameters given the parameters of the clusters; the state of the mixing given the parameters and cardinalities. No draw uses the random numbers of another and nothing else of the state changes.",
  "for all hierarchies meeting the interface, data, covariates, numbers of iterations, initial states and random streams; Neal2, Neal3, Neal8, split-merge with at least one full scan, blocked Gibbs and the slice sampler",
  "Without it an iteration need not be the composition of conditional draws of which the samplers are made.",
  "src/algorithms/base_algorithm.h: step", "src/algorithms/marginal_algorithm.h, conditional_algorithm.cc: sample_unique_values", "src/algorithms/base_algorithm.cc: update_hierarchy_hypers", "src/algorithms/neal3_algorithm.cc: sample_allocations", "src/algorithms/slice_sampler.cc: step")
p("C132", "The binary form of the messages",
  "Every well-formed message of every type in src/proto is read back with the same fields, bit by bit for doubles, and is written again with the same bytes; the allocations and the number of clusters of a state are unchanged; a chain of messages on file is read back by the file collector and by Python; fields that the reader does not know are skipped.",
  "for all 56 message types, all well-formed messages of less than 2^31 bytes, all chains, chunk sizes and sequences of reads",
  "Without it a stored chain would not be the chain that was sampled.",
  "src/proto/*.proto", "src/collectors/file_collector.cc: collect, next_state", "python/bayesmixpy/io_utils.py: read_many_protos_from_file")
p("C133", "The text form of the configuration files",
  "A configuration file whose words spell a message of a type of src/proto, whatever its blanks, comments, line breaks, separators, brackets and order of fields, is read as exactly that message without a complaint, and all configuration files of the repository are read without a complaint; a field that the type does not have, a second value of a singular field, a second member of a oneof and a bracket closed by another kind are reported, and what precedes the mistake is kept.",
  "for all message types of src/proto, all messages with every singular field written once, all layouts; the files under resources/ and examples/",
  "Without it the settings of a run would not be those in its configuration files.",
  "src/utils/proto_utils.cc: read_proto_from_file", "resources/tutorial/*.asciipb", "resources/algo_*_settings.asciipb", "examples/fa_hierarchy/in/*.asciipb")
p("C134", "The settings that a run takes from its configuration files",
  "The settings of the algorithm, the prior of the mixing and the prior of the hierarchy are the numbers and names that the files give, zero for numbers that are not given; a prior that is not given, or a positive number left out, stops the program with an exception; the program of the tutorial on any data ends with an exception or with a thousand saved states, each a clustering with parameters in their space and with a probability density.",
  "for all configuration files of algorithms, of DP, PY and MFM mixings and of the NNIG and NNxIG hierarchies in any layout; all data of at least three rows and all random streams for the tutorial",
  "Without it a run could be governed by other settings than those requested.",
  "src/algorithms/base_algorithm.h: read_params_from_proto", "src/algorithms/neal8_algorithm.h, split_and_merge_algorithm.h: read_params_from_proto", "src/mixings/*_mixing.cc: initialize_state", "src/hierarchies/priors/nig_prior_model.cc, nxig_prior_model.cc: initialize_hypers", "src/run_mcmc.cc: main")
p("C135", "From the configuration files to the files that a run leaves behind",
  "A run of the program that ends well has run the sampler that its configuration files name, with the prior, the mixing, the seed, the number of iterations and the burn-in in those files, on the column of numbers in its data file; its chain file is read back by Python as one message for every iteration after the burn-in, with that iteration's number, labels, parameters and sizes of the clusters, hyperparameters and state of the mixing, each a clustering with parameters in their space; the files of the numbers of clusters and of the labels hold those of the same states. The program does end well when its files name a sampler and accepted priors, its outputs can be written and the sampler ends well.",
  "for all configuration and data files, arguments and random streams; the algorithms Neal2, Neal3 and Neal8, the hierarchies NNIG and NNxIG, the mixings DP and PY; two to 2^23 observations",
  "Without it correct parts could be put together into a program that answers another question than the one in its files.",
  "executables/run_mcmc.cc: main", "src/algorithms/base_algorithm.cc: get_state_as_proto, initialize", "src/algorithms/base_algorithm.h: run", "src/collectors/file_collector.cc", "src/hierarchies/priors/nig_prior_model.cc, nxig_prior_model.cc: get_hypers_proto", "src/mixings/dirichlet_mixing.cc, pityor_mixing.cc: get_state_proto")
p("C136", "Priors with vectors and matrices are those in the configuration files",
  "The hyperparameters of the multivariate, regression and factor hierarchies and the parameters of the stick-breaking and logit stick-breaking mixings are the numbers written in the configuration file: vectors in the order of their data, matrices by columns or by rows as the file says, the beta distributions in their order; the program's checks then accept or refuse them. A vector with fewer numbers than its size is read beyond its end. Leaving the vectors out ends the program for the multivariate and the regression hierarchy, but not for the factor hierarchy, as in the shipped example; the file shipped for the Laplace hierarchy is refused in part, yet the program goes on; a list of no beta distributions is read beyond its end.",
  "for all texts of the format and all messages in which each field is given at most once; finite numbers",
  "Without it a prior could be transposed or its parameters exchanged without notice, and every result would answer another question.",
  "src/utils/proto_utils.cc: to_eigen", "src/hierarchies/priors/nw_prior_model.cc, mnig_prior_model.cc, fa_prior_model.cc: initialize_hypers", "src/mixings/truncated_sb_mixing.cc, logit_sb_mixing.cc: initialize_state", "src/proto/matrix.proto, hierarchy_prior.proto, mixing_prior.proto", "resources/tutorial/nnw_ngiw.asciipb, lapnig_fixed.asciipb", "examples/fa_hierarchy/in/fa.asciipb")
p("C137", "The density file of a run holds the log-densities of its states, and the best clustering is one of them",
  "A run of the main program with a grid leaves a density file with one row for every kept state and one column for every point of the grid. A row holds the logarithms, at these points, of the mixture density of its state as it was written to the chain: the clusters weighted by their sizes, and a new cluster weighted by the mixing, whose density is the prior predictive for Neal2 and Neal3 and the average over the auxiliary draws for Neal8; it is a probability density. The rows come dealt into four blocks, so they are in the order of the iterations only for at most four states. The best clustering is the first kept clustering with the least number of disagreements. Such a run ends well when its files are good.",
  "for all command lines, files, generators, data, grids and settings in range; numbers as the doubles written for them, provided these are still in their ranges",
  "Without it a density could belong to another state or be no density, and a user who pairs rows of the density file with rows of the clusterings would be misled.",
  "executables/run_mcmc.cc: main", "src/utils/eval_like.cc: eval_lpdf_parallel", "src/algorithms/marginal_algorithm.cc: lpdf_from_state", "src/algorithms/neal2_algorithm.cc, neal8_algorithm.cc: lpdf_marginal_component", "src/hierarchies/likelihoods/states/uni_ls_state.h", "src/mixings/dirichlet_mixing.cc, pityor_mixing.cc", "src/utils/cluster_utils.cc: cluster_estimate")
p("C138", "The Python and R functions answer with the run that was asked for",
  "An answer of the R function run_mcmc, and an answer of the Python function after the program has ended well, belongs to the request: the parameters given as texts or as names of files are the settings of the sampler, the sampler runs on the numbers in the data, and the parts of the answer that were asked for are what the reader makes of the kept states, their numbers of clusters, their clusterings, the best of these and the log-densities of the states at the points of the grid; the parts that were not asked for are absent.",
  "for all requests whose names are plain words, for all files, generators and settings in range; the readers of numeric tables are parameters",
  "Without it a user of the packages could be given results of another model or of other settings.",
  "python/bayesmixpy/run.py: run_mcmc", "python/bayesmixpy/io_utils.py, shell_utils.py", "R/bayesmixr/R/run_mcmc.R", "executables/run_mcmc.cc: main")
p("C139", "Hyperparameters of the factor hierarchy can be taken from the data",
  "For a factor prior without vectors, set_fa_hyperparams_from_data takes as mean of the centering distribution the point around which the deviations of the data sum to zero, and as scales of the unique variances the numbers for which the mean of the inverse-gamma distribution of variable j is the variance that the best linear fit of column j from the other columns leaves. It throws exactly when the shape is 1, has no defined answer exactly when some combination of the columns is constant, leaves a prior with vectors alone and does nothing on a second call; the prior's own checks accept the outcome exactly when the shape exceeds 1.",
  "for all data matrices, dimensions and priors that pass the checks of initialize_hypers",
  "Without it the prior of the example shipped with the factor hierarchy, which leaves its vectors out, could be centred elsewhere or have other scales than the data suggest.",
  "src/hierarchies/fa_hierarchy.h: set_fa_hyperparams_from_data, initialize_state", "src/hierarchies/priors/fa_prior_model.cc: set_hypers_from_proto, initialize_hypers, sample")
p("C140", "A run from Python or R calls the program that was built last",
  "In R, after the installation of the package and any builds, runs, attaching and detaching and new sessions, a run calls the program of the last build whose commands ended well, with its own library path, and stops before there is one; a build answers exactly when its commands end well, and otherwise leaves the file of the package as it was. In Python the first run of a process calls the program of the last build whose commands were found, and the process keeps to it.",
  "for all sequences of such steps, all exit statuses of the commands and all environments that do not name the program themselves",
  "Without it a user would run an old program, or none, after having built a new one.",
  "python/bayesmixpy/build_bayesmix.py", "python/bayesmixpy/shell_utils.py: run_shell", "python/bayesmixpy/run.py: run_mcmc", "R/bayesmixr/R/build_bayesmix.R", "R/bayesmixr/R/zzz.R", "R/bayesmixr/R/run_mcmc.R")
p("C141", "The benchmarked Gaussian densities agree and the helpers hand out precisions",
  "The matrices of the test helper are symmetric positive definite and the multivariate hierarchy built on them initializes. The density from a covariance, the one from the precision and the one from a factor C of the precision C C^T are the same on every row; the upper factor that the benchmarks pass gives that density exactly when the precision is diagonal, and the function called fully optimized exceeds the others by d ln(2 pi) / 4.",
  "for all random matrices, all precisions, means and grids of points of any size",
  "The benchmark times four functions as ways to one density; two of them compute another one.",
  "benchmarks/lpd_grid.cc", "src/utils/testing_utils.cc: get_spd_matrix, get_multivariate_nnw_hierarchy", "src/utils/distributions.cc: multi_normal_prec_lpdf")

out = os.path.join(os.path.dirname(os.path.abspath(__file__)), "..", "properties.jsonl")
with open(out, "w") as f:
    for q in P:
        f.write(json.dumps(q) + "\n")
assert len({q["id"] for q in P}) == len(P)
print(len(P), "properties")
