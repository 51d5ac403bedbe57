# Formal model of bayesmix: design

The source in /repo (C++ and a little Python) is read as text.  The model is a
set of total Gallina functions in `rocq/theories`, one definition per C++
function, each with a comment citing file and lines.  Properties are listed in
`properties.jsonl`; `MANIFEST.json` maps each one to its theorems.

## Modelling decisions

* **Outcomes.** Every fallible function returns `Ok x | Throw msg | Abort | UB`
  (`Base.v`).  `Throw` is a C++ exception, `Abort` a failed `assert`, `UB`
  any out-of-range access, null dereference or read of an uninitialised value.
  Theorems that claim safety show that the outcome is `Ok`.
* **Randomness.** The generator is an explicit state `Rng` of an interface
  record; drawing is a function `Rng -> value * Rng`.  Theorems are quantified
  over the generator and over all its states, hence over all draw sequences.
  The only assumption made on a categorical draw is that it returns an index
  smaller than the length of a non-empty weight vector (contract of
  `stan::math::categorical_rng`); it is a hypothesis of the theorems, never an
  axiom, and it is instantiated by concrete generators in the examples.
* **Numbers.** Doubles are idealised as real numbers (`Coq.Reals`); log weights
  that may be minus infinity are an extended type.  Rounding, overflow, NaN are
  not modelled.  Integers are `nat`/`Z` without wrap-around, except where an
  unsigned wrap-around is reachable (then stated in the comment).
* **Matrices.** Matrix identities are stated with MathComp matrices over an
  arbitrary field (or real field), in every dimension.
* **Integrals.** Integrals over the line are limits of Riemann integrals over
  growing intervals; over vectors they are iterated coordinate by coordinate; over
  positive definite matrices they are iterated over the first pivot, the first
  column relative to it and the Schur complement, with the Jacobian of these
  coordinates written out in the definition (`MultiInt.is_spd_int`).
* **Sharing.** Clones of a hierarchy share their prior's hyperparameters; the
  algorithm model therefore has a single hyperparameter value.  Aliasing itself
  is modelled with an explicit heap for C62.
* **External libraries** (Stan math, Eigen, protobuf, std containers) are
  modelled by their documented contracts.

## Treatment, property by property

| Property | What is modelled | How it is proved |
|---|---|---|
| C01 C02 C03 C09 C10 | marginal samplers, cluster bookkeeping | invariant preserved by each reallocation, induction over the sweep |
| C04 C05 C64 | conditional samplers | invariant, induction |
| C06 C08 C11 | `BaseAlgorithm::initialize` | case analysis on all checks, induction on the two loops |
| C07 | `BaseAlgorithm::run` | induction on iterations |
| C12 C13 C14 | updater cache, Neal8 auxiliary block | invariant over histories; witness for the stale cache |
| C15 | statistics updates | induction over operation histories |
| C16-C20 C23 C24 C28 C29 | updater formulas over R | real algebra (`field`, `nra`), induction over data |
| C21 C22 C25 C26 | matrix formulas | MathComp matrix algebra |
| C27 | shape update | arithmetic |
| C30 | Metropolis acceptance | detailed balance over R |
| C31-C33 C36-C40 C45 | mixings | real algebra, induction over cluster lists |
| C32 C34 C35 C46 | partition prior and Gibbs weights | EPPF as an independent specification |
| C41-C44 | stick breaking | induction over sticks |
| C47 | split-merge covariates | dimension-checked statistics model |
| C48-C52 | collectors, parallel evaluation | byte-level model, induction over chains |
| C53-C58 | utilities | list/matrix induction |
| C59-C61 | semi-HDP sampler parts | list invariants |
| C64-C67 | slice sampler, sticks, logit | as above |
| C68 C69 | finite mixture | series, exchangeability |
| C70-C72 | univariate priors, MALA | case analysis, real algebra |
| C73-C78 | multivariate hierarchies | MathComp matrix algebra |
| C79 C80 | descriptors, traces of evaluation | state machines |
| C81 | split-merge balance | simulation of the move and its reverse |
| C82-C93 | semi-HDP sampler | heap invariants, weakest preconditions |
| C62 | clones | heap model, histories |
| C63 | mixture distances | Gaussian integrals (Coquelicot), matrix Schur complements |
| C94-C96 | plot preparation | loop invariants over nested vectors, case analysis |
| C97 | chains read from R | induction over records, zero padding past the end |
| C98 C99 | output of the main program | collectors as cursors; partition invariant of the samplers |
| C100 | command line | grammar of numbers, induction over the words |
| C101 | files of the main program | state-and-exception monad over a file system; frame lemmas |
| C102 C103 | Python and R wrappers | word splitting and templates, shell words |
| C104 | wrappers end to end | composition of C100-C103 |
| C105 C106 | univariate densities as integrals | Euler integral (monotone limits), exchange of integrals by differentiation under the integral, sandwich bounds |
| C107 C108 | multivariate densities as integrals | iterated integrals along Schur complements, completed squares, induction on the dimension |
| C109 C110 | example gamma hierarchy and its program | Euler integral; invariants of the sweep over an instance of the interface |
| C111 | total mass of the Dirichlet process | Gamma recursion by parts, beta integrals by induction, real algebra |
| C112 | complete programs of the marginal algorithms on univariate data | closure of the parameter spaces under every step, induction over the run, integrals of C106 |
| C113 | the whole logit stick-breaking mixing | closed forms, derivatives of the log-posterior, induction over the components and the updates |
| C114 | complete programs of the blocked Gibbs algorithm | closure of the spaces of components, sticks and hyperparameters under every step, integrals of C106 |
| C115 | complete programs of the slice sampler | the same with the loop of broken sticks as a fuelled function; geometric bound on what is left of the stick |
| C116 | starting values | integrals of first moments; the trace minus the log determinant of a positive matrix is least at the identity |
| C117 C118 | complete programs on multivariate data and regressions | the arguments of C112 and C114 over MathComp matrices, with a matrix of covariates as a parameter of the program; integrals of C108 |
| C119 C120 | complete programs of the split-merge algorithm | the invariant of C08 and C47 carried through moves, restricted and full scans; closure of the parameter spaces |
| C121 C122 | complete programs with a mixture of finite mixtures, and their weights | the invariant of the marginal programs; the table of coefficients is transparent; the only undefined read is characterised; the weights are ratios of the partition law |
| C123 | convergence of Neal3 | one iteration gives every clustering positive probability (minorisation); contraction in total variation; invariance from C35 |
| C124 | the blocks of one blocked Gibbs iteration | each block is compared with the joint density in which only that block varies |
| C125 | initial states | a sharp bound on each log density, with equality at one point |
| C126 | the plotting program | its stages as functions on the file map; meshes and frequencies of C94 to C96 |
| C127 | draws of the semi-hierarchical sampler | every weight as a closed expression of the state (`SemiLaw.v`), compared with the code's loops over logarithms |
| C128 | numbers as text | grammar of `strtof`, rounding by Flocq, `%g` with six digits on binary fractions |
| C129 | Neal8 | auxiliary-variable law of one observation and its parameters; exchangeable draws as abstract expectations |
| C130 | unconstrained states | vectors of reals, Stan's covariance transform by rows, Jacobian matrix by partial derivatives |
| C131 | one iteration | the steps as conditional draws threaded through one stream; which saved posteriors are current |
| C132 | messages as bytes | table of all message types; wire format on bytes, induction over the depth of a type |
| C133 | configuration files as text | tokens and fields of protobuf's text format; relation between layouts, words and messages; the repository's files computed |
| C134 | settings from configuration files | accessors of nested fields; composition with C133 and with C112 for the tutorial |
| C135 | from configuration files to the chain file | `Launch.v`'s main program with its parameters filled; composition of C101, C112, C132 and C134 |
| C136 | priors with vectors and matrices from configuration files | inductive descriptions of what a message says about vectors and matrices (`SetVecSpec.v`); for all texts of C133 |
| C137 | density file and best clustering of a run | densities and integrals over lines and half-planes (`ProgramDensSpec.v`); composition of C135, C52, C56, C105 and C106 with the reading of states back from their messages |
| C138 | answers of the Python and R functions | composition of C104 with C135 and C137; `np.loadtxt` and `read.table` stay parameters |
| C139 | factor prior from the data | sums of deviations and least variances over combinations of columns, without matrices (`FaDataFacts.v`); the diagonal of an inverse is a minimum |
| C140 | building from Python and R | histories of builds, runs and sessions; the files of variables as assignments in order |
| C141 | benchmarked densities and test helpers | any dimension and any grid; the random matrix an argument |

## What is modelled

| Source (under /repo/src unless noted) | Model file |
|---|---|
| `algorithms/{base,marginal,neal2,neal3,neal8}_algorithm` | `Algos.v`, `Run.v` |
| `algorithms/split_and_merge_algorithm` | `SplitMerge.v`; acceptance ratio with the mixing and hierarchy plugged in in `SMPost.v`, `SMReal.v` |
| `algorithms/{conditional,blocked_gibbs}_algorithm`, `slice_sampler` | `Cond.v` |
| `algorithms/semihdp_sampler` | `Semi.v` |
| `hierarchies/base_hierarchy.h`, `likelihoods/base_likelihood.h`, `updaters/{abstract,semi_conjugate}_updater.h` | `Hier.v` |
| `hierarchies/priors/base_prior_model.h` (clone, deep clone, initialise, messages) | `Clones.v` |
| `likelihoods/{uni_norm,laplace}`, `priors/{nig,nxig}`, `updaters/{nnig,nnxig,random_walk,mala,metropolis}` | `Univ.v`; plugged into the algorithms in `RealInst.v` |
| `likelihoods/{multi_norm,uni_lin_reg}`, `priors/{nw,mnig}`, `updaters/{nnw,mnig}` | `Multi.v`; plugged into the algorithms in `MultiInst.v` |
| `likelihoods/fa`, `priors/fa`, `updaters/fa`, `fa_hierarchy.h` | `Fa.v` |
| `mixings/{dirichlet,pityor,mixture_finite,logit_sb}_mixing` | `Mixings.v` |
| `mixings/truncated_sb_mixing` | `Stick.v` |
| `collectors/*`, `/repo/python/bayesmixpy/io_utils.py` | `Collect.v` |
| `utils/{eigen_utils,proto_utils,io_utils,cluster_utils,covariates_getter}`, `runtime/factory.h` | `Utils.v` |
| `utils/eval_like.cc`, `lpdf_from_state` of the algorithms | `Eval.v` |
| `plots/plot_utils.cc` (`to_mesh`, `num_clus_bar`, logarithm of `density_plot_2d`), density part of `/repo/executables/plot_mcmc.cc` | `Plots.v` |
| `/repo/executables/plot_mcmc.cc` (whole program), `num_clus_trace`, `density_plot_1d` of `plots/plot_utils.cc` | `PlotMain.v` |
| `/repo/R/bayesmixr/R/{decoder,utils}.R` (reader) | `RRead.v` |
| `/repo/executables/run_mcmc.cc:221-233` (output loop) | `Main.v` |
| `/repo/lib/argparse/argparse.h` (numbers, optional arguments, parsing), options of `/repo/executables/run_mcmc.cc:34-128` | `Args.v` |
| `/repo/executables/run_mcmc.cc` (main program), `/repo/python/bayesmixpy/{run,shell_utils,io_utils}.py`, `/repo/R/bayesmixr/R/{run_mcmc,utils}.R` | `Launch.v` |
| `/repo/examples/gamma_hierarchy/*` | `Gam.v` |
| `hierarchies/{nnxig,lapnig}_hierarchy.h` as interfaces, programs of the marginal algorithms | `UnivInst.v` |
| `mixings/logit_sb_mixing.{h,cc}` (whole class) | `LogitLib.v`, `LogitUp.v` |
| programs of the blocked Gibbs algorithm (`conditional_algorithm.h:54-60`, `blocked_gibbs_algorithm.cc`) | `CondInst.v`, `CondLgInst.v` |
| programs of the slice sampler (`slice_sampler.cc`) | `SliceInst.v` |
| marginal and blocked Gibbs programs with covariates (`base_algorithm.h:109-111`, `base_algorithm.cc:79-91, 112-155`) | `CovInst.v` |
| programs of the split-merge algorithm (`split_and_merge_algorithm.cc:10-63`) | `SMInst.v` |
| mixture of finite mixtures as the mixing of a program (`mixture_finite_mixing.cc`; the table of coefficients is computed at each call instead of kept, see `C121_table_transparent`) | `MfmInst.v` |
| specifications only: the law of a sequence of draws (`ConvSpec.v`, `Markov.v`), label vectors and joint densities of a truncated mixture (`BlockSpec.v`, `joint` in `BlockNorm.v`) | |
| text of numbers in `utils/io_utils.cc:18-71`: `std::stof` (grammar of `strtof` in the "C" locale, single precision, range errors) and `operator<<` on int and double (six significant digits); signed zeros are one zero, infinities and NaN are read but not written, tininess is tested after rounding | `NumText.v` |
| specifications of the draws of the semi-hierarchical sampler | `SemiLaw.v` |
| `hierarchies/likelihoods/states/{uni_lin_reg_ls,multi_ls}_state.h`: unconstrained representations and Jacobians; Stan's `cov_matrix_free`, `cov_matrix_constrain` written out from their reference | `Uncon.v` |
| `proto/*.proto`: all message types but the enumerations of identifiers; protobuf's wire format written out from its reference (singular zeros left out by bit pattern, so minus zero is kept; groups refused; unknown fields dropped) | `Schema.v`, `Wire.v` |
| `utils/proto_utils.cc:52-61` and protobuf's text format written out from its reference (names, numbers, strings without escapes, lists, both kinds of brackets, comments, separators; no Any, extensions or groups; decimals kept exactly, not rounded to doubles) | `Text.v`; the files under `resources/` and `examples/` in `Shipped.v` |
| `base_algorithm.h`, `neal8_algorithm.h`, `split_and_merge_algorithm.h`: `read_params_from_proto`; the accessors in `initialize_state` / `initialize_hypers` of DP, PY, MFM, NNIG, NNxIG; integers as natural numbers (no wrap-around) | `Settings.v` |
| `executables/run_mcmc.cc:141-256` for Neal2, Neal3, Neal8, NNIG, NNxIG, DP and PY (the generator after seeding, the placing of the observations at the start, the evaluation of densities and the cluster estimate are parameters; other registered names are undefined) | `Program.v` |
| `base_algorithm.cc:170-195` and the `get_*_proto` functions of the univariate hierarchies and of DP and PY (the bits of a double are a function of the real number) | `StateMsg.v` |
| the priors of NNW, LinRegUni, FA, TruncSB and LogSB as read from their messages, and the checks on dimensions and unsigned numbers that the types of `Multi.v`, `Fa.v`, `Stick.v` hide | `SetVec.v`, `SetLoad.v` |
| `run_mcmc.cc:198-219, 247-256` with `eval_lpdf_parallel`, `lpdf_from_state` and the reading of univariate states, hyperparameters and mixings from messages | `ProgramDens.v`; the draws of Neal8 under evaluation are a parameter, since the jobs share one generator |
| `hierarchies/fa_hierarchy.h:65-107` (`set_fa_hyperparams_from_data`) | `FaData.v`; the LLT of a matrix that is not positive definite and products of operands whose sizes differ are `UB`; messages carry the fields unchanged |
| `python/bayesmixpy/build_bayesmix.py`, `R/bayesmixr/R/build_bayesmix.R`, `zzz.R` and the look-up of `BAYESMIX_EXE` | `Build.v`; cmake, make and 2to3 are exit statuses, the files of variables lists of assignments, `dirname` a parameter |
| `benchmarks/lpd_grid.cc`, `utils/testing_utils.cc` `get_spd_matrix`, `get_multivariate_nnw_hierarchy` | `Bench.v`; `Random` is an argument, the timing loop is left out |
| `utils/distributions.cc` | densities in `Multi.v`/`Fa.v`, generators in `Multi.v`, distances in `Dist.v`, `MDist.v` |

Files named `*Facts.v`, `*More.v`, `*Props.v`, `*Spec.v`, and the files without a
source in the table, contain specifications and proofs; `P_*.v` contain only the
property theorems, their `Print Assumptions` and their examples.

## What is not modelled

* Floating point: rounding, overflow, NaN, denormals, except where numbers are
  read from text or written as text (`NumText.v`, C128).
* Terminal output, progress bars, timing; the text of numbers in messages.
* Protocol buffers' wire format: a message is a sequence of bytes that
  parses back to itself; the length prefix of a delimited message is modelled
  byte by byte.
* The correctness of Stan's and Eigen's own algorithms (decompositions,
  densities, generators): densities are their documented closed forms,
  generators are arbitrary functions or documented transforms of standard draws.
* Data races: OpenMP loops are modelled as sequential loops (C52 treats the
  order in which results are put together); an exception that leaves an OpenMP
  region terminates the program.
* In the factor update (`fa_draw`), each full conditional is characterised on its
  own (C27, C74, C75); no theorem says that the loadings and variances are drawn
  given the new mean rather than the old one. A wrong program that takes the old
  mean for the loadings is not rejected (seeded/LOG.jsonl).
* Memory exhaustion, wrap-around of 32-bit counters and file-system failures
  other than the ones named in the theorems.
* Drawing (a plot is what is handed to the plotting library), what cmake,
  make and 2to3 do, tests, documentation.
* Main program and wrappers: a file system is a map from names to contents, two
  names denote the same file iff they are equal strings, a directory is the set of
  names that start with it; names with characters special to the shell are outside
  the model of the R wrapper; numbers are rounded to five decimals by the Python
  wrapper, which works on the text of the data here.
* R: indexing a raw vector past its end is taken to give the byte 00, and
  `bitShiftL` to drop the bits above 32 (no length written by the library has any).

## Trusted base

* The Coq 8.16.1 kernel.
* The axioms printed by `Print Assumptions` under every theorem, all from the
  standard library; see the table at the end.
* The reading of the C++ code embodied in the model definitions, and the library
  contracts above.

## Findings: intended properties that are false

Each is a theorem `..._refuted` (a concrete witness), or a characterisation of
the code's behaviour where it deviates; the corrected statement is proved beside it.

| Property | What the code does |
|---|---|
| C11 C88 | An algorithm object cannot be run twice: the second initialisation appends to the first. |
| C12 `C12_every_cluster_refuted` | The first initial cluster of a sampler that does not save posteriors redraws its parameters from the prior, not from the posterior of its data. |
| C13 `C13_hyper_update_stale_refuted` | After a hyperparameter update the next sweep of Neal3 starts with posteriors saved under the old hyperparameters. |
| C25 `C25_prior_sample_density_refuted` | A multivariate normal state drawn from the prior stores a wrong Cholesky factor; its density is right iff the precision is diagonal. |
| C27, C74 `C27_density_after_draw_refuted`, `C74_mean_draw_refuted` | Factor analyser: after a draw the density uses stale quantities; the draw of the mean takes the prior variance for a precision. |
| C29, C77 `C29_ngg_exact_refuted`, `C77_scaling_update_refuted` | The normal-gamma-gamma hyperprior passes a variance as a standard deviation; the normal-Wishart one adds half the number of clusters to a shape, which is right in dimension one only. |
| C30 `C30_posterior_balance_refuted` | The Metropolis acceptance ratio leaves out the prior. |
| C35, C37, C38 `C35_configured_mass_refuted`, `C37_dp_log_mass_refuted` | The Dirichlet process never stores the logarithm of its total mass before the first evaluation. |
| C39 | The finite-mixture table is read out of range beyond its precomputed length. |
| C43 `C43_accepted_prior_refuted` | The truncated mixing accepts priors whose first weight is one or more. |
| C44 C67 `C67_logit_accept_refuted` | Logit stick breaking: the weights do not sum to one; the acceptance ratio evaluates the reverse proposal at the wrong point. |
| C46 C81 `C46_pitman_yor_refuted` | Split-merge always uses two clusters in the prior ratio; exact for the Dirichlet process, wrong for Pitman-Yor. |
| C47 | Split-merge discards covariates. |
| C50 `C50_load_refuted` | Loading into a memory collector that is not empty leaves a wrong size; reading to the end is undefined. |
| C51 `C51_python_prefix_refuted` | Reading a file that was cut in the middle of a message can yield a message that was never saved. |
| C52 `C52_parallel_order_refuted` | Parallel evaluation interleaves: rows are not in chain order. |
| C53 `C53_grid_lists_pairs_refuted` | `get_2d_grid` uses the wrong stride for grids that are not square. |
| C54 `C54_shape_kept_refuted` | A matrix with no rows loses its number of columns in a message. |
| C55 `C55_all_cells_written_refuted` | The CSV reader leaves cells uninitialised for ragged files. |
| C56 `C56_estimate_refuted` | The point estimate compares with uninitialised errors. |
| C58 `C58_unknown_name_throws_refuted` | The factory returns null for an unknown name. |
| C62 `C62_deep_copies_refuted` | A deep clone forgets the current hyperparameters. |
| C63 `C63_distance_refuted` | The univariate mixture distance passes a variance as a standard deviation and can be negative. |
| C64 `C64_truncation_for_slices_used_refuted` | The slice sampler truncates with slice variables other than the ones it then uses. |
| C65 `C65_py_first_weight_refuted` | Pitman-Yor sticks are shifted by one. |
| C70 | The Laplace hierarchy cannot be updated by MALA. |
| C72 `C72_mean_variance_refuted` | The variance of the normal hyperprior on the mean is not checked; the conditional variance can be negative. |
| C75 | Factor-analyser states drawn from the prior cannot be evaluated. |
| C79 `C79_writer_closes_foreign_refuted` | The file collector closes a file descriptor it does not own. |
| C80 `C80_evaluation_leaves_no_trace_refuted` | Density evaluation changes the mixing object. |
| C83-C93 `C84_count_weights_refuted`, `C85_shared_counts_refuted`, `C86_shared_coherent_refuted`, `C91_private_choice_refuted` | Semi-HDP sampler: truncated table weights, wrong counts of shared atoms, tables that keep their former atom, conversions of minus infinity, undefined casts, prior instead of posterior odds. |
| C94 `C94_regular_grids_refuted` | Two-dimensional density plots of grids with different numbers of points in the two directions write out of range. |
| C95 | The bar chart reads out of range for more than one column. |
| C97 `C97_r_roundtrip_refuted`, `C97_r_prefix_refuted` | The R reader replaces or drops empty messages, and completes a cut file with zero bytes. |
| C98 | A state that could not be written to file is still counted, and reading it back is undefined. |
| C99 `C99_blocked_counts_refuted` | The reported number of clusters counts empty components under blocked Gibbs. |
| C100 `C100_defaults_usable_refuted` | The default of `--coll-name` is stored as a `const char *` and read as a `std::string`: without the option the program is terminated (`C101_no_collector_name`). |
| C100 `C100_missing_value_refused_refuted` | A last option without its value is accepted and means its default (`C100_trailing_option`). |
| C101 `C101_failure_keeps_outputs_refuted` | Every requested output is emptied before any input is read, so a failed run destroys earlier results. |
| C101 `C101_inputs_kept_refuted` | An output named like the data file empties the data before they are read, and the run still ends with status 0. |
| C102 `C102_failures_reported_refuted` | The Python wrapper ignores the exit status and returns files of an earlier run, for instance when the directory has a blank in its name. |
| C102 `C102_any_path_refuted` | A brace in the path of the executable breaks the command template. |
| C103 `C103_failure_keeps_files_refuted` | After a failure the R wrapper deletes the whole directory, even if the caller chose it. |
| C106 `C106_slice_density_refuted` | With the slice sampler the evaluated mixture omits the weight left after the last stick, so it integrates to less than one. |
| C109 `C109_hypers_complete_refuted` | The example hierarchy does not write its shape with its hyperparameters, so two different priors have the same message. |
| C110 `C110_redraw_refuted` | In the example program the first cluster redraws its rate from the prior (as C12). |
| C111 `C111_auxiliary_refuted`, `C111_auxiliary_never` | The auxiliary variable of the total mass is drawn from a gamma law; its full conditional is Beta(M + 1, n). At no M and n are the two proportional. |
| C112 `C112_gamma_mass_ends_refuted` | With a gamma prior on the total mass an accepted program throws when the auxiliary variable is at least exp(rate): the rate of the next gamma draw is no longer positive (consequence of C111). |
| C113 `C113_rates_refuted` | Acceptance rates before the first update are 0/0. |
| C113 `C113_langevin_refuted`, `C113_langevin_scale` | The Langevin proposal uses sqrt(2 step) as a variance where the scheme has 2 step; the two agree only at step = 1/2. |
| C113 `C113_weights` | The last component gets only logistic(1) of the remaining weight. |
| C113 `C113_no_covariates` | Without covariates the update stops at an Eigen assertion. |
| C113 `C113_stored_refuted` | Reading a stored state does not set the number of components. |
| C114 `C114_no_components`, `C114_more_components`, `C114_any_components_refuted` | Blocked Gibbs with no component draws from an empty vector of weights; with more components than observations it reads past the labels. Both are undefined behaviour and the initialisation accepts both. |
| C114 `C114_last_shape`, `C114_last_shape_refuted` | The initialisation does not look at the shapes of the last beta prior; a last shape that is not positive makes the first update throw. |
| C114 `C114_infinite`, `C114_infinite_refuted` | With `infinite_mixture` set the weights of the blocked Gibbs algorithm sum to less than one and the evaluated function is not a density. |
| C114 `C114_logit_never`, `C114_logit_density_refuted` | With logit stick breaking the evaluated function is never a density (the last weight is logistic(1) times what is left, C113). |
| C115 `C115_loop_refuted` | The loop of `sample_weights` in the slice sampler never ends for admissible stick lengths 1/4, 1/8, ... |
| C115 `C115_short_sticks`, `C115_answers_refuted` | When no stick is longer than the smallest uniform an allocation has no candidate and the run throws. |
| C115 `C115_density_refuted` | The function evaluated from a saved state of an infinite mixture has mass below one. |
| C115 `C115_normal` | The slice sampler never updates the hyperparameters: every saved state has those of the start. |
| C117 `C117_missing_covariates` | The checks of `base_algorithm.cc:79-91` do not require covariates for a dependent hierarchy: a regression program without them has undefined behaviour at the first observation. |
| C119 `C119_single` | The split-merge algorithm with a single observation throws when it proposes moves and has undefined behaviour when it only makes full scans. |
| C120 `C120_regression_undefined` | A split-merge program on a linear regression has undefined behaviour at its first move, whatever the covariates. |
| C121 `C121_defined_refuted`, `C121_alone_undefined`, `C121_last_undefined` | Programs with a mixture of finite mixtures have defined behaviour. The table of coefficients has as many entries as observations, but an observation whose others are all alone needs one more: the read past the end happens in the first iteration whenever the program starts with one cluster per observation (the default) or has at most two observations, and after any start for some draws. |
| C123 `C123_normal` | The limit is the posterior for the configured total mass. With the mixing as the factory builds it the limit is the posterior for total mass one. |
| C124 `C124_first_component`, `C124_every_component_refuted` | Every component's parameters are drawn from their conditional law. The first component of a conjugate hierarchy, when it has observations, is drawn from the prior with the initial hyperparameters. |
| C125 `C125_joint_never`, `C125_joint_refuted` | The initial state of a normal cluster with normal-inverse-gamma prior is the mode of the prior. The variance scale/(shape + 1) is the mode of its marginal; the joint mode is scale/(shape + 3/2). |
| C125 `C125_nnw_precision_iff`, `C125_nnw_precision_refuted` | The initial precision of the normal-Wishart hierarchy is a mode or the mean of its prior. It is var_scaling times the identity, whatever the degrees of freedom and the scale matrix (`nnw_hierarchy.h:47-59`). |
| C126 `C126_asked_plot_drawn_refuted` | A plot asked for together with its data exists after a run that ends well. For a grid of three or more columns the program empties the file and ends with status 0. |
| C126 `C126_missing_data_refused_refuted` | A plot asked for without its data is refused. The program ends with status 0 and draws nothing. |
| C126 `C126_failure_keeps_plots_refuted`, `C126_data_kept_refuted` | Old plots survive a failed run, and data survive a plot with their name. The plot file is emptied before the data are read. |
| C127 `C127_metro_dist_reversible_refuted` | The distance-based move of a group is reversible with respect to its conditional law. The proposal is not symmetric and the ratio of proposals is left out; distances also use restaurants no group is in. |
| C127 `C127_mixture_mass`, `C127_mixture_is_density_refuted` | The density of a restaurant integrates to one. Its weights sum to n/(alpha + n). |
| C127 `C127_base_measure_refuted` | The shared base measure has mass one. The denominator leaves out gamma, the mass is 1 + gamma/m. |
| C127 `C127_dish`, `C127_new_dish_refuted` | A new dish has weight gamma times the marginal likelihood of the table. The function is called without observations, the weight is gamma. |
| C128 `C128_double_precision_refuted`, `C128_integers_refuted` | Data are read in double precision. They are read by `std::stof`: 0.1 becomes the nearest single, 16777217 becomes 16777216 (`io_utils.cc:52`). |
| C128 `C128_too_large`, `C128_too_small` | Every decimal number is read. Numbers of 2^128 and more, and inexact ones up to 2^-127, end the program by an exception that is not caught. |
| C128 `C128_other_separator_refuted` | A file with another separator is refused. Characters after a number are ignored, the other columns are lost without a message. |
| C128 `C128_six_digits`, `C128_written_injective_refuted` | Results are written so that they can be read back. Six digits are kept. |
| C130 `C130_multi_jacobian_throws`, `C130_multi_jacobian_refuted` | The log-determinant of the multivariate transformation can be computed. The running total is passed where Stan expects the dimension, so the size check always throws (`multi_ls_state.h:50-56`); no algorithm calls it. |
| C131 `C131_split_merge_no_scan_refuted` | The parameters of the clusters are drawn under the current hyperparameters. With `splitmerge_n_full_gs_updates` = 0 split-merge never refreshes the saved posteriors of clusters it does not touch, so their parameters are drawn under the hyperparameters of an earlier iteration (`marginal_algorithm`/`base_algorithm.h:149-156`, `split_and_merge_algorithm.cc`); Neal3 and split-merge with a full scan refresh all of them (`C131_neal3`, `C131_split_merge`). |
| C132 `C132_cut_refuted` | Reading a chain file of an interrupted run yields states of the chain. When the file ends inside the last state at the end of a field, Python returns a state without the fields that are missing (`io_utils.py:32-50`); the C++ reader drops it (`C48_crash_prefix`). |
| C133 `C133_mistake_stops_refuted` | A mistake in a configuration file stops the program. `read_proto_from_file` only prints that an error occurred and returns the fields before the mistake (`proto_utils.cc:52-61`); a file that does not exist is an empty message without any complaint (`C133_missing_file`). |
| C133 `C133_zero_twice_refuted` | A second value of a singular field is an error. After a value equal to zero it is not (fields without presence), and the second value is taken. |
| C134 `C134_mistake_stops_refuted` | A run uses the numbers in its files or does not start. With `maen: 5.0` after the other fixed values of an NNIG prior the run goes on with mean 0 (`nig_prior_model.cc`, `proto_utils.cc:52-61`). |
| C134 `C134_tutorial_completes_refuted` | The program of the tutorial completes. Its gamma prior on the total mass makes the mixing throw when the gamma value of the first iteration is large (see C112 `C112_gamma_mass_throws`). |
| C136 `C136_factor_omitted_stops_refuted` | A prior without its vectors is refused. The factor hierarchy goes on with dimension 0; the shipped `examples/fa_hierarchy/in/fa.asciipb` leaves `mutilde` and `beta` out and relies on `set_fa_hyperparams_from_data` (`fa_hierarchy.h:68`), which nothing calls. |
| C136 `C136_laplace_file_fits_refuted` | The tutorial's `lapnig_fixed.asciipb` is a prior of the Laplace hierarchy. LapNIG reads an `NNxIGPrior`, which has no such last field: an error is printed, and the values before it are kept. |
| C136 `C136_no_components_refuted` | A truncated stick-breaking prior without components is refused. `num_components - 1` wraps around, the empty list of beta distributions is read beyond its end (`truncated_sb_mixing.cc`). |
| C136 `C136_short_vector` | A vector with fewer numbers than its size is refused. `to_eigen` maps memory beyond the end of the field (`proto_utils.cc`). |
| C137 `C137_order_refuted` | The rows of the density file are in the order of the iterations, as those of the clusterings file. Four jobs each take every fourth state and their rows are stacked (`eval_like.cc:44-68`): five states give the rows 1, 5, 2, 3, 4. |
| C139 `C139_positive_refuted` | The scales set from the data are those of inverse-gamma distributions. For a shape below 1, which the prior accepts, they are negative, and nothing is thrown; the test is for equality with 1 only. |
| C139 `C139_no_state`, `C139_no_draw` | After hyperparameters have been taken from the data the hierarchy can be set up and its prior can be drawn from. The prior's member `dim` stays 0: setting up the state multiplies matrices of different sizes, and a draw returns the means and scaled `beta` without drawing. |
| C140 `C140_py_last_refuted` | In Python a run calls the program of the last build. `load_dotenv` does not override, so a process that has run once keeps the path of then. |
| C140 `C140_py_failure_refuted` | A failed build is reported in Python. `run_shell` does not look at the exit status; `build_bayesmix` stores the path and returns `True`. |
| C141 `C141_optimized_refuted` | The benchmarked functions compute one density. `lpdf_fully_optimized` halves the constant with the rest and is `d ln(2 pi) / 4` too large. |
| C141 `C141_upper_refuted` | The factor of the benchmarks gives the density of the precision. They pass `matrixU()`, which is right for diagonal precisions only. |

## Mutation log

`seeded/LOG.jsonl` has one line per wrong program. The edit is made in a scratch
copy; proofs that stop compiling are bypassed there, one after the other, so that
independent failures further down are seen too. `failed_proofs` lists the lemmas,
theorems and examples whose scripts stopped compiling, `theorems_failed` the
theorems of the claim whose proofs use one of them, `other_theorems_failed` those
of other claims. Dependence is read from the references in the `.glob` files.
Earlier versions of the log listed every theorem of the claim in a file that did
not build, which was too many.

## Axioms per theorem

Generated by `tools/axioms.py`.

**No axioms** (203 theorems): C01_neal2_iterations_proper, C01_neal2_sweep_proper, C01_neal3_iterations_proper, C01_neal3_sweep_proper, C01_step_local, C02_neal8_init_aux, C02_neal8_iterations_proper, C02_neal8_no_aux_UB, C02_neal8_sweep_proper, C03_caches_fresh, C03_one_move, C03_reject_unchanged, C03_split_merge_iterations_proper, C03_split_merge_sweep_proper, C04_blocked_init, C04_blocked_iterations, C04_blocked_labels_drawn, C04_blocked_one, C04_blocked_sweep, C05_allocations, C05_labels_drawn, C05_slice_init, C05_slice_iterations, C05_weights_keep_occupied, C06_init_proper, C06_init_too_many_UB, C07_neal2_run_completes, C07_run_saves, C08_checks_iff_well_formed, C08_initialize_throws, C09_drop_cluster, C09_drop_defined, C100_defaults_usable_refuted, C100_help, C100_literal_grammar, C100_missing_value_refused_refuted, C100_parse_pairs, C100_refused, C100_trailing_option, C100_value_like, C101_failure_empties, C101_failure_keeps_outputs_refuted, C101_inputs_kept_refuted, C101_no_collector_name, C101_other_files, C101_outputs, C101_refused, C101_unwritable, C102_accepted, C102_any_path_refuted, C102_command, C102_failures_reported_refuted, C102_inputs_written, C102_status_ignored, C103_accepted, C103_command, C103_failure_deletes, C103_failure_keeps_files_refuted, C103_failures_reported, C103_same_as_python, C104_py_end_to_end, C104_r_end_to_end, C109_messages, C10_neal2_single_UB, C10_neal3_single_UB, C10_split_merge_single_UB, C10_split_merge_single_throws, C11_leftover, C11_second_run_inconsistent, C126_pairs, C127_table_data, C12_blocked_redraw, C12_every_cluster_refuted, C12_first_cluster_saved, C12_neal2_redraw, C12_neal8_redraw, C12_slice_redraw, C131_blocked, C131_neal2, C131_neal3, C131_neal8, C131_slice, C131_split_merge, C131_split_merge_no_scan_refuted, C132_allocations, C132_chain, C132_cut_nested, C132_cut_refuted, C132_last_value, C132_round_trip, C132_unknown_field, C133_file, C133_missing_file, C133_mistake_stops_refuted, C133_oneof_twice, C133_reads, C133_shipped, C133_twice, C133_unknown_name, C133_wrong_bracket, C133_zero_twice_refuted, C134_algorithm, C137_order, C137_order_refuted, C13_hyper_update_stale_refuted, C13_neal3_fresh, C13_neal3_init_fresh, C140_py, C140_py_blind, C140_py_failure_refuted, C140_py_keeps, C140_py_last_refuted, C140_r, C140_r_failures, C14_neal8_aux, C15_any_hierarchy, C35_states_exist, C43_accepted_prior_refuted, C46_merge_draws, C46_update_structure, C47_covariates_discarded_full, C47_covariates_discarded_mh, C48_crash_prefix, C48_roundtrip, C49_chunk_size, C49_chunk_zero_diverges, C49_chunk_zero_ub, C49_collectors_are_cursors, C49_whole_and_chunks, C50_load_refuted, C50_load_runs_past_end, C50_memory_history, C50_write_then_load, C51_python_cut, C51_python_prefix_refuted, C51_python_roundtrip, C52_full_memory_rows, C52_low_memory_same, C52_no_jobs, C52_order_kept_iff, C52_parallel_order_refuted, C52_same_rows_permuted, C52_sequential_rows, C53_append_fails, C53_append_inplace_same, C53_append_rows, C53_grid_complete, C53_grid_lists_pairs_refuted, C53_grid_out_of_range, C53_grid_rows, C53_stack_vectors, C53_vstack, C54_matrix_roundtrip, C54_matrix_short, C54_matrix_stored_by_columns, C54_row_major_read, C54_shape_kept_refuted, C54_vector_roundtrip, C54_vector_short, C55_all_cells_written_refuted, C55_roundtrip, C55_table, C55_unparsable, C56_estimate_empty, C57_covariate_lookup, C58_by_name, C58_first_builder, C58_unknown_identifier, C58_unknown_name_throws_refuted, C59_relabel, C62_clone_shares, C62_deep_independent, C62_deep_value, C62_evaluation_overwrites, C62_histories, C62_no_prior, C62_sampler_shares, C64_truncation_for_slices_used_refuted, C65_py_first_weight_refuted, C79_writer_closes_foreign_refuted, C79_writer_closes_own, C86_restored, C87_atoms_given_their_data, C94_mesh_constant, C94_mesh_overrun, C94_mesh_product, C94_mesh_product_cells, C94_mesh_square, C94_mesh_throws_iff, C94_regular_grids_refuted, C97_r_agrees_with_python, C97_r_cut, C97_r_empty_between, C97_r_last_empty_dropped, C97_r_prefix_refuted, C97_r_roundtrip, C97_r_roundtrip_refuted, C98_outputs_file, C98_outputs_memory, C98_outputs_unwritten, C99_blocked_counts_refuted, C99_neal2_counts, C99_proper_counts.

**`sig_forall_dec`** (1 theorems): C82_get_state.

**`functional_extensionality_dep`, `sig_forall_dec`** (75 theorems): C05_slice_init_positive, C05_slice_step_completes, C109_hypers_complete_refuted, C109_init_iff, C109_posterior_valid, C109_statistics, C113_threshold, C116_fixed, C116_mixing_fixed, C123_converges, C123_limit, C123_unique, C127_metro_base_reversible, C127_mixture_is_density_refuted, C127_mixture_mass, C127_open_private, C127_open_shared, C127_pseudo_prior, C127_pseudo_weights, C127_restaurant_weights, C127_weight, C128_six_digits, C128_six_digits_nearest, C128_small_integers, C128_written_injective_refuted, C129_discrete, C129_invariant, C129_neal8_step, C134_dirichlet, C134_finite, C134_missing_stops, C134_mistake_stops_refuted, C134_normal, C134_omitted_stops, C134_pitman_yor, C134_semiconjugate, C136_laplace_file_fits_refuted, C136_no_components_refuted, C136_truncated, C18_nnig_valid, C19_nnig_compose, C19_nnig_perm, C34_neal2_weights, C34_neal3_weights, C35_neal3_sweep_invariant, C35_neal3_sweep_law, C36_neal8_weights, C41_sum_one, C41_weight_sum, C41_weight_value, C41_weights_nonneg, C42_update_draws, C43_dp_init_sum_below_one, C43_init_sum_below_one, C43_keep_breaking_throws, C56_estimate_minimises, C56_estimate_refuted, C56_estimate_relabel, C56_estimate_uninitialised, C56_similarity_fraction, C56_similarity_range, C56_similarity_relabel, C60_open_table_rows, C61_initialise, C64_own_component_candidate, C64_truncation_for_slices_read, C65_py_shapes, C72_accepted_valid, C72_mean_variance_iff, C72_mean_variance_refuted, C72_ngg_variance, C81_split_undone_by_merge, C95_bar_chart, C95_bar_empty, C95_bar_wide.

**`functional_extensionality_dep`, `sig_forall_dec`, `sig_not_dec`** (8 theorems): C113_langevin_scale, C127_metro_dist_reversible_refuted, C20_nxig_draw, C28_mean_draw, C29_ngg_draw, C62_deep_copies_refuted, C67_logit_accept, C72_updates_valid.

**`classic`, `constructive_indefinite_description`, `functional_extensionality_dep`, `sig_forall_dec`** (10 theorems): C107_matrix_integral_one, C113_initialised, C113_rates_refuted, C136_factor, C136_factor_omitted_stops_refuted, C136_logit, C136_regression, C136_short_vector, C76_accepted_mnig, C76_initial_mnig_valid.

**`classic`, `functional_extensionality_dep`, `sig_forall_dec`, `sig_not_dec`** (245 theorems): C105_gamma_function, C105_gamma_normalised, C105_likelihoods_normalised, C105_marginal_integral, C105_nig_normalised, C105_nxig_normalised, C105_posterior_predictive, C105_predictive_integral, C105_predictive_normalised, C106_auxiliary_dirichlet, C106_auxiliary_pitman_yor, C106_blocked_density, C106_conjugate_dirichlet, C106_conjugate_finite, C106_conjugate_pitman_yor, C106_slice_density_refuted, C106_slice_mass_below_one, C106_stick_density, C109_bayes, C109_conjugate_without_marginal, C109_evaluated_density, C109_initial_state, C109_marginal_integral, C110_density, C110_first_cluster, C110_redraw_refuted, C110_run, C111_augmentation, C111_auxiliary_never, C111_auxiliary_refuted, C111_gamma_recursion, C111_mass_given_auxiliary, C111_mass_normalised, C111_update, C112_gamma_mass_ends_refuted, C112_gamma_mass_throws, C112_neal2_normal, C112_neal3_normal, C112_neal8_laplace, C112_neal8_normal, C112_neal8_semiconjugate, C112_never_undefined, C112_programs_end, C113_stored, C113_stored_refuted, C113_weights, C114_any_components_refuted, C114_infinite, C114_infinite_refuted, C114_laplace, C114_last_shape, C114_last_shape_refuted, C114_more_components, C114_no_components, C114_normal, C114_semiconjugate, C115_answers_refuted, C115_density_refuted, C115_ends, C115_laplace, C115_loop_refuted, C115_normal, C115_outcome, C115_semiconjugate, C115_short_sticks, C116_ngg, C116_normal_mean, C116_total_mass, C116_unique, C119_normal, C119_normal_ends, C119_normal_never_undefined, C119_single, C121_alone_undefined, C121_defined_refuted, C121_first_completes, C121_laplace, C121_last_undefined, C121_normal, C121_outcome, C121_saved, C121_semiconjugate, C121_step, C121_table_transparent, C122_coefficients_exist, C122_neal2_weights, C122_neal3_weights, C123_normal, C124_every_component_refuted, C124_first_component, C124_labels, C124_parameters, C124_sticks, C125_dependent, C125_independent, C125_joint_never, C125_joint_refuted, C126_after_run, C126_asked_plot_drawn_refuted, C126_completes, C126_data_kept_refuted, C126_failure_keeps_plots_refuted, C126_incomplete_requests, C126_missing_data_refused_refuted, C126_other_files, C126_outputs, C126_refused, C126_unwritable, C127_base_measure_refuted, C127_dish, C127_full, C127_leave, C127_metro_base, C127_metro_dist, C127_moved_observations, C127_new_dish_refuted, C127_seat, C127_step, C127_sweep, C127_weight_conjugate, C128_double_files, C128_double_precision_refuted, C128_hexadecimal, C128_integer_files, C128_integers, C128_integers_refuted, C128_no_number, C128_other_separator_refuted, C128_plots_of_a_run, C128_reads_nearest, C128_special, C128_too_large, C128_too_small, C129_neal8_step_mfm, C131_normal, C134_tutorial, C134_tutorial_completes_refuted, C135_exits, C135_run, C135_sampler_ends, C137_best, C137_density, C137_exits, C138_python, C138_r, C16_nnig_bayes, C17_nnig_predictive, C17_predictive_chain, C20_nxig_mean, C20_nxig_variance, C23_cluster_shortcut, C23_laplace_cluster, C24_jacobian, C24_round_trip, C24_unconstrained_prior, C28_mean_conditional, C29_ngg_exact_refuted, C29_ngg_location, C29_ngg_rate, C29_ngg_scaling, C30_metropolis, C30_metropolis_uninitialised, C30_posterior_balance_refuted, C30_random_walk_symmetric, C31_dp_masses_sum, C31_py_masses_sum, C32_dp_exchangeable, C32_dp_unique, C32_py_exchangeable, C32_py_unique, C33_dp_scales, C33_mfm_scales, C33_py_scales, C35_configured_mass_refuted, C35_factory_dirichlet, C35_factory_dirichlet_mass, C35_nnig_sweep_invariant, C37_dp_log_history, C37_dp_log_mass, C37_dp_log_mass_refuted, C38_dp_update_throws, C39_mfm_table, C40_mfm_masses_sum, C41_log_scale, C42_full_conditional, C44_logit_sum, C45_auxiliary_component, C45_conditional_mixture, C45_conditional_short_weights, C45_dirichlet_mixture, C45_finite_mixture, C45_pitman_yor_mixture, C46_accept_test, C46_merge_ratio, C46_pitman_yor_refuted, C46_scan_probability, C46_split_draws, C46_split_ratio, C52_values_independent_of_object, C60_sweep_rows, C63_distance_refuted, C63_half_distance, C63_mixed_states, C63_order, C63_overlap_iff, C63_self, C63_single, C63_states, C63_symmetric, C63_terminates_iff, C66_logit_full_conditional, C66_logit_gradient, C67_logit_accept_refuted, C68_mfm_loop, C68_mfm_loop_positive, C69_mfm_exchangeable, C69_mfm_partition_law, C70_lapnig_throws, C71_nig_sample, C71_nxig_sample, C80_dirichlet_evaluation_changes_mass, C80_evaluation_leaves_no_trace_refuted, C80_finite_mixture_stale_coefficients, C80_finite_mixture_stale_table, C81_detailed_balance, C82_run, C82_step, C83_empty_table_undefined, C83_run_undefined, C84_count_weights_refuted, C84_truncated_log_weights, C85_leave_shared, C85_shared_counts_refuted, C86_shared_coherent_refuted, C86_to_shared_keeps_objects, C88_second_run_undefined, C89_multivariate_undefined, C90_collecting_undefined, C91_private_choice_refuted, C92_unknown_mode, C93_empty_table_weight, C96_density_line, C96_density_plane, C96_density_skipped_iff, C96_density_throws_iff.

**`classic`, `constructive_indefinite_description`, `functional_extensionality_dep`, `sig_forall_dec`, `sig_not_dec`** (129 theorems): C107_fa_scores_integral, C107_likelihoods_normalised, C107_linreg_marginal_integral, C107_linreg_posterior_predictive, C107_linreg_predictive_integral, C107_linreg_predictive_normalised, C107_mnig_normalised, C107_nnw_marginal_integral, C107_nnw_posterior_predictive, C107_nnw_predictive_integral, C107_nnw_predictive_normalised, C107_nw_normalised, C107_wishart_normalised, C108_auxiliary_dirichlet, C108_auxiliary_pitman_yor, C108_blocked_density, C108_conjugate_dirichlet, C108_conjugate_finite, C108_conjugate_pitman_yor, C108_slice_mass_below_one, C108_stick_density, C113_langevin_refuted, C113_no_covariates, C113_rates, C113_update, C114_logit, C114_logit_density_refuted, C114_logit_never, C116_mode_unique, C116_multi_fixed, C116_multi_mean, C116_ngiw, C117_hyperparameters_updated, C117_missing_covariates, C117_never_undefined, C117_normal_wishart, C117_programs_end, C117_regression, C118_normal_wishart, C118_regression, C120_normal_wishart, C120_normal_wishart_ends, C120_normal_wishart_never_undefined, C120_regression_undefined, C123_normal_wishart, C123_regression, C125_factors, C125_nnw_mean, C125_nnw_precision_iff, C125_nnw_precision_refuted, C125_regression, C130_multi_jacobian_refuted, C130_multi_jacobian_throws, C130_multi_onto, C130_multi_roundtrip, C130_multi_sizes, C130_regression_jacobian, C130_regression_onto, C130_regression_roundtrip, C136_multivariate, C136_omitted_stops, C136_tutorial, C139_accepted, C139_answers, C139_given, C139_no_draw, C139_no_state, C139_positive_refuted, C139_twice, C139_values, C141_helper, C141_optimized, C141_optimized_differs, C141_optimized_refuted, C141_same, C141_upper_iff, C141_upper_refuted, C15_fa, C15_linreg, C15_multinorm, C15_uninorm, C18_linreg_valid, C18_nnw_valid, C19_linreg_compose, C19_linreg_perm, C19_nnw_compose, C19_nnw_perm, C21_nnw_bayes, C21_nnw_quadratic, C22_linreg_bayes, C22_linreg_quadratic, C25_constrained_state, C25_density_factor, C25_grid, C25_prior_sample_density_refuted, C25_prior_state_iff, C26_logdet, C26_woodbury, C27_density_after_draw_refuted, C27_psi_exact_iff_even, C27_stale_density, C35_linreg_sweep_invariant, C35_nnw_sweep_invariant, C63_multi_distance, C63_multi_throws_iff, C63_normal_mass, C73_grid, C73_linreg_chain, C73_linreg_predictive, C73_nnw_chain, C73_nnw_predictive, C74_loadings_exact, C74_mean_draw_refuted, C74_mean_exact_iff, C74_scores_exact, C75_draw_after_prior_draw, C75_initial_state, C75_prior_draw_unusable, C75_through_message, C76_accepted_nw, C76_initial_nw_valid, C76_update_valid, C77_mean_update, C77_ngiw_mean, C77_scale_update, C77_scaling_exact_iff, C77_scaling_update_refuted, C78_diag_generator, C78_precision_generator.
