STATUS = {
"C01": ("proved", "For every interface satisfying the hypotheses `laws` (index draws in range, statistics insertions and removals cancel and commute); masses of the mixing assumed defined up to n-1 clusters (true of DP and PY; see C39 for the exception). Neal3 for conjugate hierarchies only, as enforced by initialize."),
"C02": ("proved", "Positive part for n_aux >= 1; with n_aux = 0, reallocating an observation that is alone in its cluster is UB."),
"C06": ("proved", "Both directions: proper with k clusters for k <= n; UB for k > n."),
"C07": ("proved", ""),
"C08": ("proved", ""),
"C09": ("proved", ""),
"C03": ("proved", "Conjugate hierarchies without covariates (split-merge requires conjugacy; covariates: see C47). Mixing masses assumed defined, as for C01, plus those with two clusters that the code asks for."),
"C10": ("proved", "Neal2, Neal3: UB. Split-merge: throws when at least one MH update is requested (categorical over zero elements), UB if only full scans. Neal8: C02 theorems hold for n >= 1."),
"C11": ("proved", "Leftover clusters make labels and clusters inconsistent; set_hierarchy gives a one-element vector, for which C06_init_proper applies."),
"C12": ("proved", "Conjugate-style updaters (other_draw = None). Neal2, Neal8: at most one cluster holds a saved posterior, which is the initial prior. Blocked Gibbs and slice: exactly component 0, when the hierarchy is conjugate."),
"C04": ("proved", "For every interface satisfying `laws`; the mixing must return one log-weight per component."),
"C05": ("proved", "The stick-breaking loop of the weights step has a fuel argument; None = not ended, about which nothing is claimed. Over the reals C05_slice_step_completes says when an iteration can fail."),
"C41": ("proved", "Over the reals."),
"C42": ("proved", "Densities up to normalising constants; with a finite mixture the last drawn stick is then replaced by one."),
"C43": ("proved", "With the positivity hypothesis; C43_accepted_prior_refuted gives accepted priors violating it."),
"C64": ("proved", "True for the slices read by the weights step, refuted for those the allocation step uses (C64_truncation_for_slices_used_refuted)."),
"C65": ("proved", "Characterisation of the shapes used plus a refutation of the Pitman-Yor value."),
"C13": ("proved", "Freshness within sweeps for all prefixes; witness of staleness after a hyperparameter update."),
"C47": ("proved", "Hypothesis: the statistics reject an empty covariate row for the data at hand; the outcome is UB (Eigen assertion or out-of-range). Instance: demo_cov."),
"C14": ("proved", ""),
"C31": ("proved", ""),
"C32": ("proved", ""),
"C33": ("proved", "Dirichlet process: iff the cached logarithm is in sync (see C37)."),
"C37": ("proved", "Characterisation over all histories; C37_dp_log_mass_refuted: the intended value fails after initialisation."),
"C38": ("proved", "The generator's value is a parameter; the support (0, inf) of the auxiliary draw is gamma_rng's."),
"C39": ("proved", "Hypothesis: the series value is not negative (proved in C68 for the loop)."),
"C40": ("proved", ""),
"C44": ("proved", ""),
"C66": ("proved", ""),
"C67": ("proved", "Scalar coefficient; iff-characterisation and refutation of the Metropolis-Hastings ratio."),
"C68": ("proved", ""),
"C69": ("proved", "Common truncation K of the coefficients; the code truncates each coefficient separately (C68)."),
"C34": ("proved", "Neal3: weights proportional to partition prior times marginal likelihood; Neal2: with the current parameters. For Dirichlet and Pitman-Yor masses; `py_masses`, `marginal_likelihood` are discharged for the real NNIG program by C35_nnig_sweep_invariant's proof."),
"C35": ("proved", "The sweep's law is computed from the categorical weights; with the factory-built Dirichlet mixing the invariant law has total mass 1 (C35_factory_dirichlet), the configured mass is refuted."),
"C36": ("proved", "Choices of a new cluster use the parameters of the auxiliary components."),
"C16": ("proved", "The log-gamma function is arbitrary; with the true one the constant is the integral of likelihood times prior, see C105."),
"C17": ("proved", ""),
"C18": ("proved", ""),
"C19": ("proved", ""),
"C20": ("proved", ""),
"C23": ("proved", ""),
"C24": ("proved", ""),
"C28": ("proved", "The hyperprior variance is taken positive; it is not checked by the code (C72)."),
"C29": ("proved", "Iff-characterisation and refutation of exactness."),
"C30": ("proved", "Iff-characterisation, effect of the uninitialised accumulators, and a refutation for posterior reversibility."),
"C70": ("proved", ""),
"C71": ("proved", ""),
"C72": ("proved", "Positive part proved for all priors; negative part refuted with a witness."),
"C21": ("proved", "Also with all normalising constants (log-gamma arbitrary)."),
"C22": ("proved", "Also with all normalising constants."),
"C25": ("proved", "Iff-characterisation and a refutation for sampled states."),
"C26": ("proved", "Whole log density."),
"C27": ("proved", "Iff-characterisation, staleness for every draw and a refutation."),
"C73": ("proved", "Normal-Wishart part for dimension at least one."),
"C74": ("proved", "Iff-characterisation and refutation for the mean."),
"C75": ("proved", ""),
"C76": ("proved", ""),
"C77": ("proved", "Iff-characterisation and refutation for the scaling."),
"C78": ("proved", ""),
    "C15": ("proved", "Any sequence of additions, removals, draws and posterior computations of one cluster, for an arbitrary lawful hierarchy and spelled out as sums for the four likelihoods."),
"C48": ("proved", "For every message type whose parser inverts its serialiser; messages larger than the protobuf limit are skipped by the writer model as by the code. After the end, the next read starts again from the first state."),
"C49": ("proved", "Chunk size 0 is undefined in the collector and diverges in the chunked evaluation loop."),
"C50": ("proved", "Loading into a non-empty collector is characterised and refuted."),
"C51": ("proved", "Complete characterisation of cut files and refutation of the prefix property."),
"C79": ("proved", "Characterised and refuted."),
"C45": ("proved", "Mixture density with explicit normalised weights for the three marginal mixings, the auxiliary component of Neal 8 and the conditional algorithms."),
"C52": ("proved", "Sequential, low-memory and full-memory evaluation; order characterised and refuted. The object-independence hypothesis is proved for Dirichlet and Pitman-Yor mixings."),
"C53": ("proved", "Grid characterised and refuted."),
"C54": ("proved", "Shape of empty matrices refuted."),
"C55": ("proved", "For an abstract number parser; ragged files characterised."),
"C56": ("proved", "Uninitialised accumulators: any iteration can be returned (refuted)."),
"C57": ("proved", ""),
"C58": ("proved", "Lookup by unknown name refuted."),
"C80": ("proved", "Characterised and refuted."),
"C46": ("proved", "Ratio computed exactly for Dirichlet and Pitman-Yor mixings with the normal model; equality with the posterior ratio iff discount 0 or two clusters; refuted for Pitman-Yor with a witness. The proposal probability in the ratio is the product of the probabilities of the draws of the scan."),
"C81": ("proved", "Generic over conjugate hierarchies; detailed balance for the normal model."),
"C59": ("proved", "Univariate data."),
"C60": ("proved", "Per table and per sweep."),
"C61": ("proved", ""),
"C82": ("proved", "Univariate data, conversion of minus infinity defined."),
"C83": ("proved", "Empty tables and unused shared atoms; every run with adaptation."),
"C84": ("proved", "Bounds and refutation of equality."),
"C85": ("proved", "Characterised; exactness of the counts refuted."),
"C86": ("proved", "Refuted with a witness; restoration proved."),
"C87": ("proved", ""),
"C88": ("proved", ""),
"C89": ("proved", ""),
"C90": ("proved", "The cast between unrelated message types is modelled as undefined."),
"C91": ("proved", "Refuted with a witness."),
"C92": ("proved", ""),
"C93": ("proved", ""),
"C62": ("proved", "Histories of any prior model; the claim that a deep clone copies the hyperparameters is refuted."),
"C63": ("proved", "The univariate distance is refuted with a witness and characterised; the multivariate one is proved."),
"C94": ("proved", "All cases characterised; the claim that regular grids are plotted is refuted."),
"C95": ("proved", ""),
"C96": ("proved", "At least one iteration; an empty matrix gives NaN, which is not modelled."),
"C97": ("proved", "Every cut is covered; the round trip with empty messages is refuted."),
"C98": ("proved", ""),
"C99": ("proved", "Neal 2 in full, other samplers through the partition invariant; blocked Gibbs is refuted."),
"C100": ("proved", "The readable default of --coll-name and the refusal of a missing last value are refuted."),
"C101": ("proved", "Names of inputs and outputs are assumed distinct; without that the data can be lost, which is refuted with a witness, as is the survival of old outputs."),
"C102": ("proved", "Command, inputs and results proved; reported failures and arbitrary paths are refuted."),
"C103": ("proved", "The survival of the caller's files is refuted; names with characters special to the shell are outside the model."),
"C104": ("proved", "For Python under the assumption that the program ended with status 0, which the wrapper does not check."),
"C105": ("proved", "Over the half plane of means and variances the integral is iterated, mean first."),
"C106": ("proved", "Univariate hierarchies. Proved for marginal algorithms and blocked Gibbs; refuted for the slice sampler, where the mass is one minus the weight left after the last stick."),
"C107": ("proved", "Matrices are integrated over pivot, then Schur column, then the rest; the Jacobian of these coordinates is part of the definition of the integral, and C107_matrix_integral_one ties dimension one to the half line."),
"C108": ("proved", "Normal, factor-analytic and regression likelihoods; for the slice sampler the mass is below one."),
"C109": ("proved", "Completeness of the stored hyperparameters is refuted; the hierarchy has no marginal likelihood, which the conjugate algorithms need."),
"C110": ("proved", "Redrawing the rate of the first cluster from its posterior is refuted."),
"C111": ("proved", "The draw of the total mass is exact; that the auxiliary variable is drawn from its full conditional is refuted: the code draws a gamma variable where the law is a beta."),
"C112": ("proved", "That every run ends without throwing is refuted for a gamma prior on the total mass; it is proved for fixed parameters. The Laplace hierarchy is run with the random-walk updater (its default updater throws, C70)."),
"C113": ("proved", "Refuted: rates before the first update, the covariance of the Langevin proposal, storage into an object with another number of components. The last weight is logistic(1) times what is left; without covariates the update aborts."),
"C114": ("proved", "Refuted: completion for no component or more components than observations, completion for an accepted beta prior whose last shape is not positive, unit mass with infinite_mixture set, unit mass with logit stick breaking (it never holds)."),
"C115": ("proved", "Refuted: that every run ends (summable stick lengths keep the loop going for ever), that a run never throws, unit mass for infinite mixtures. Stick priors have positive shapes; termination is proved for the conjugate normal hierarchy."),
"C116": ("proved", ""),
"C117": ("proved", "A regression program without covariates is not rejected and has undefined behaviour (C117_missing_covariates)."),
"C118": ("proved", ""),
"C119": ("proved", "With one observation the program throws or has undefined behaviour (C119_single)."),
"C120": ("proved", "For the linear regression the property is the opposite: undefined behaviour (C120_regression_undefined)."),
"C121": ("proved", "The table is not carried over between calls in the model; C121_table_transparent shows that this changes nothing."),
"C122": ("proved", ""),
"C123": ("proved", "For the Dirichlet process as built by the factory the limit is that of total mass one (C35_factory_dirichlet)."),
"C124": ("proved", "The exception for the first component is C124_first_component and C124_every_component_refuted."),
"C125": ("proved", "Refuted: the joint mode for the normal-inverse-gamma prior (it never is), and the precision of the normal-Wishart hierarchy, which is a mode only for matching hyperparameters (C125_nnw_precision_iff)."),
"C126": ("proved", "Refuted: that every plot asked for is drawn or refused, that old plots survive a failed run, that the data survive a plot with their name."),
"C127": ("proved", "Refuted: reversibility of the distance-based move, unit mass of a restaurant's mixture and of the shared base measure, the marginal likelihood of a new dish."),
"C128": ("proved", "Refuted: double precision of the data, exactness of larger integers, that another separator is noticed, that different doubles have different texts."),
"C129": ("proved", "C129_invariant is for real-valued expectations of exchangeable draws, with integrability of the three functions that occur as hypotheses; C129_discrete discharges them for priors with finitely many values."),
"C130": ("proved", "Refuted: the log-determinant of the multivariate transformation, which always throws. Stan's functions are written from their reference."),
"C131": ("proved", "Refuted for split-merge without full scans, whose parameters are drawn from posteriors under outdated hyperparameters."),
"C132": ("proved", "Refuted: that a chain file cut inside a state yields in Python only states that were written. The wire format is written from its reference."),
"C133": ("proved", "Refuted: that a mistake in a configuration file stops the program; it is printed and the run goes on with the fields read so far. Refuted: that a second value is always reported (not after a value of zero). The text format is written from its reference, without its escapes, Any, extensions and groups."),
"C134": ("proved", "Refuted: that a mistake in the file of a prior stops the program. Refuted: that the program of the tutorial always completes."),
"C135": ("proved", "Density evaluation and cluster estimate stay parameters; other registered algorithms, hierarchies and mixings, and settings that are infinite or not a number, are outside the model."),
"C136": ("proved", "Refuted: that leaving out the vectors of the factor hierarchy ends the program (the shipped example does); that the shipped file for the Laplace hierarchy fits its prior; that a truncated stick-breaking prior without components is refused."),
"C137": ("proved", "The univariate programs of C135 (NNIG with Neal2, Neal3, Neal8; NNxIG with Neal8; DP and PY). Refuted: that the rows of the density file are in the order of the iterations."),
"C138": ("proved", "The univariate programs of C135. The Python function does not look at the exit status of the program (C102_failures_reported_refuted), hence the hypothesis on it there."),
"C139": ("proved", "No code of the repository calls the function. Refuted: that the scales are positive (below shape 1 they are negative and nothing is thrown). The prior's member dim stays 0, so afterwards the state cannot be set up again and draws from the prior draw nothing (C139_no_state, C139_no_draw)."),
"C140": ("proved", "Refuted for Python: that a run calls the program of the last build (the variable of the first run of a process stays), and that a build whose commands fail is reported (run_shell does not look at the exit status, so the handlers of CalledProcessError are never reached)."),
"C141": ("proved", "Refuted: that the fully optimized function gives the density (half of the constant is lost), and that the upper factor of the benchmarks gives it."),
}
