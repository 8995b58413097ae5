{"id": "C01", "title": "A Bayes update is Bayes' rule", "statement": "When an update is not diverted by the zero-weight policy, every particle's new weight equals its old weight times the model likelihood of the observed outcome at that particle, divided by the total of those products over all particles; the particle locations are not touched by the reweighting itself.", "quantifier": "every model (arbitrary non-negative likelihood), every particle cloud, every outcome and experiment", "why_tests_cant": "The claim quantifies over all likelihood functions and all weight vectors; a test fixes one model and compares a few floats.", "anchors": ["src/qinfer/smc.py: SMCUpdater.update, SMCUpdater.hypothetical_update"]}
{"id": "C02", "title": "Weights stay a probability vector over any history", "statement": "Starting from a freshly constructed updater, after any sequence of update, batch_update, resample and reset calls (including ones that raise and are caught by the caller), the particle weights are non-negative and sum to one, provided likelihoods are non-negative, the zero-weight threshold is at least machine epsilon and the zero-weight policy is 'error' or 'skip'. Under 'ignore', 'warn' and 'reset' the guarantee is also expected after an update whose total weight is zero.", "quantifier": "every finite sequence of API calls, every model, prior sample, outcome sequence and random draw", "why_tests_cant": "Histories are unbounded and interact with resampling and exception paths; tests run a handful of short histories.", "anchors": ["src/qinfer/smc.py: SMCUpdater.__init__, reset, update, batch_update, resample"]}
{"id": "C03", "title": "Predicting an update does not perform it", "statement": "Calling hypothetical_update (with any flags) leaves the updater's weights, locations, data record, normalization record, resample count and minimum effective sample size exactly as they were, and for a single outcome and experiment it returns exactly the weights and normalization that a subsequent update with the same arguments will install and record when the zero-weight policy does not divert it.", "quantifier": "every updater state, every list of outcomes and experiments, every flag combination", "why_tests_cant": "Absence of any side effect and agreement with update must hold for all states and argument shapes.", "anchors": ["src/qinfer/smc.py: SMCUpdater.hypothetical_update, update"]}
{"id": "C04", "title": "Data and normalization records tell the history", "statement": "The data record lists, in order, exactly one entry per update attempted (including those that end in the zero-weight error or are skipped), the normalization record lists, in order, one entry per update actually applied, and reset and resample remove nothing from either.", "quantifier": "every finite sequence of update, batch_update, resample and reset calls with every pattern of zero-weight events", "why_tests_cant": "The relation is an invariant over unbounded call histories including failing calls.", "anchors": ["src/qinfer/smc.py: SMCUpdater.update, batch_update, data_record, normalization_record, reset"]}
{"id": "C05", "title": "Total log-likelihood is the log evidence", "statement": "As long as no resampling and no zero-weight event has occurred since construction, the exponential of log_total_likelihood equals the prior-weighted average, over particles, of the product of the likelihoods of all recorded data: the model evidence of the whole record.", "quantifier": "every sequence of data of any length, every model and prior particle cloud", "why_tests_cant": "A chain rule over arbitrarily many updates; each finite test only checks one product.", "anchors": ["src/qinfer/smc.py: SMCUpdater.log_total_likelihood, normalization_record, update"]}
{"id": "C06", "title": "Order of data does not matter", "statement": "Without resampling, zero-weight events or drift, processing the same multiset of (outcome, experiment) data in any order yields the same particle weights and locations.", "quantifier": "every list of data, every permutation of it, every model and particle cloud", "why_tests_cant": "There are n! orders for every data set; tests check at most a few.", "anchors": ["src/qinfer/smc.py: SMCUpdater.update"]}
{"id": "C07", "title": "Batch processing equals one-by-one processing", "statement": "batch_update raises ValueError and changes nothing if the numbers of outcomes and experiments differ; otherwise its effect equals performing the updates one at a time, with the resample check made after precisely those updates whose 1-based position is a multiple of the interval and at no other time.", "quantifier": "every list of data, every positive resample interval, every state", "why_tests_cant": "All lengths, intervals and states; interplay with failing updates.", "anchors": ["src/qinfer/smc.py: SMCUpdater.batch_update, update, _maybe_resample"]}
{"id": "C08", "title": "Zero-weight policies do what they say", "statement": "When the total updated weight is at or below the threshold: 'error' raises RuntimeError and leaves weights, locations and normalization record as before; 'skip' returns leaving them as before; 'ignore' and 'warn' carry on with the update; 'reset' discards the posterior and restarts from a fresh prior sample with uniform weights; any other policy string raises ValueError. When the total is above the threshold, the policy has no influence.", "quantifier": "every policy string, every state, model, outcome and experiment", "why_tests_cant": "Each policy is a branch over all possible weight vectors; the reset branch is visible only when the post-state is compared in full.", "anchors": ["src/qinfer/smc.py: SMCUpdater.update lines 405-441, reset"]}
{"id": "C09", "title": "Effective sample size is between one and the number of particles", "statement": "For any probability weight vector, n_ess is at least 1 and at most n_particles; it equals n_particles exactly when the weights are uniform and 1 exactly when a single particle carries all the weight. min_n_ess never increases over the life of the updater and never exceeds any effective sample size observed right after an update.", "quantifier": "every weight vector of every length; every history", "why_tests_cant": "Inequality with equality cases over a continuum of vectors, plus an invariant over histories.", "anchors": ["src/qinfer/distributions.py: ParticleDistribution.n_ess", "src/qinfer/smc.py: SMCUpdater.min_n_ess, update"]}
{"id": "C10", "title": "Resampling happens exactly when the effective sample size drops below the threshold", "statement": "After an update with the resample check enabled, resampling takes place if and only if n_ess < n_particles * resample_thresh; the resample count increases by exactly one in that case and is otherwise unchanged, and just_resampled reports whether the latest operation resampled.", "quantifier": "every state, threshold and update; every history for the counter", "why_tests_cant": "The trigger condition ranges over all weight vectors and thresholds; the counter over all histories.", "anchors": ["src/qinfer/smc.py: SMCUpdater._maybe_resample, resample, update"]}
{"id": "C11", "title": "Reset restarts from the prior", "statement": "reset() gives n_particles fresh, canonicalized prior samples with uniform weights; reset with only_params replaces only the selected parameter columns and leaves the others as they were; giving both a particle number and only_params raises ValueError and changes nothing; reset_weights=False keeps weights when the particle number is unchanged.", "quantifier": "every state, prior sample, particle number and parameter selection", "why_tests_cant": "Frame conditions over every column selection and cloud size.", "anchors": ["src/qinfer/smc.py: SMCUpdater.reset"]}
{"id": "C12", "title": "Particle order is irrelevant", "statement": "Permuting the particles (locations together with weights) before an update gives the permuted result after it, and leaves the normalization, effective sample size, mean, covariance and Bayes risk unchanged.", "quantifier": "every permutation of every particle cloud", "why_tests_cant": "Factorially many permutations for each cloud.", "anchors": ["src/qinfer/smc.py: SMCUpdater.update", "src/qinfer/distributions.py: ParticleDistribution.est_mean, est_covariance_mtx, n_ess"]}
{"id": "C13", "title": "Bayes risk is the expected posterior variance", "statement": "bayes_risk(e) equals the expectation, over outcomes of e under the current posterior, of the Q-weighted trace of the posterior covariance after observing that outcome, is non-negative and never exceeds the current Q-weighted trace of covariance, for every experiment of a finite-outcome model.", "quantifier": "every particle cloud, every finite-outcome model, every experiment, including experiments with impossible outcomes", "why_tests_cant": "An identity and inequality over all clouds and models; the last-outcome shortcut only misbehaves on degenerate experiments.", "anchors": ["src/qinfer/smc.py: SMCUpdater.bayes_risk"]}
{"id": "C14", "title": "Expected information gain is mutual information", "statement": "expected_information_gain(e) equals the mutual information between the particle index and the outcome of e under the current posterior; it is non-negative and at most the entropy of the weights.", "quantifier": "every particle cloud, every finite-outcome model, every experiment, including those with impossible outcomes", "why_tests_cant": "Identity over a continuum, with 0 log 0 corner cases that random tests do not hit.", "anchors": ["src/qinfer/smc.py: SMCUpdater.expected_information_gain"]}
{"id": "C15", "title": "A particle distribution is normalized on construction", "statement": "Constructing a particle distribution from locations and weights gives non-negative weights proportional to the absolute values given, summing to one; asking for n_mps together with particles raises ValueError; asking for only n_mps gives one particle at the origin with weight one.", "quantifier": "every weight list with at least one non-zero entry and every location list", "why_tests_cant": "Ranges over all weight vectors including signed ones.", "anchors": ["src/qinfer/distributions.py: ParticleDistribution.__init__"]}
{"id": "C16", "title": "Sampling a particle distribution follows the weights", "statement": "Each sample is one of the particles; particle j is returned exactly for the uniform draws in an interval of length equal to its weight, the intervals of different particles are disjoint and cover [0,1), and a zero-weight particle is never returned.", "quantifier": "every normalized weight vector, every draw in [0,1)", "why_tests_cant": "The measure of the selecting set of draws is not observable by any finite number of samples.", "anchors": ["src/qinfer/distributions.py: ParticleDistribution.sample"]}
{"id": "C17", "title": "Mean and covariance are those of the weighted cloud", "statement": "est_mean is the weighted average and lies within the coordinate-wise range of the particles; est_covariance_mtx equals the weighted average of outer products of deviations from the mean, is symmetric and positive semidefinite, and the diagonal of the correlation matrix is one wherever the variance is positive with all entries in [-1,1]; shifting or scaling the cloud shifts and scales the estimates accordingly.", "quantifier": "every probability weight vector and every particle cloud of every dimension", "why_tests_cant": "Algebraic identities and inequalities over a continuum of clouds.", "anchors": ["src/qinfer/distributions.py: ParticleDistribution.particle_mean, particle_covariance_mtx, est_covariance_mtx, est_meanfn"]}
{"id": "C18", "title": "Credible region has at least the requested mass and is greedy-minimal", "statement": "For each level, est_credible_region returns a set of particles of total weight no less than the level, every particle inside is at least as heavy as every particle outside, dropping its lightest particle makes the mass at most the level, and inside and outside together are exactly the particle cloud.", "quantifier": "every probability weight vector and every level in [0, 1]", "why_tests_cant": "Ties, exact boundary levels and level one are measure-zero for random tests.", "anchors": ["src/qinfer/distributions.py: ParticleDistribution.est_credible_region"]}
{"id": "C19", "title": "Entropy estimate is bounded", "statement": "est_entropy is at least 0 and at most log(n_particles) for a probability vector, treats zero weights as contributing nothing, and equals log(n_particles) for uniform weights.", "quantifier": "every probability vector of every length", "why_tests_cant": "A transcendental inequality over a continuum.", "anchors": ["src/qinfer/distributions.py: ParticleDistribution.est_entropy"]}
{"id": "C20", "title": "Clusters partition the particles and explain the whole variance", "statement": "The cluster masks produced from a labelling put every particle in exactly one cluster, so the cluster weights add to one, and within-cluster plus between-cluster variance reported by est_cluster_covs equals the covariance of the cloud (law of total variance).", "quantifier": "every labelling of every weighted cloud", "why_tests_cant": "All labellings of all clouds; the identity fails subtly if cluster moments are not normalized.", "anchors": ["src/qinfer/clustering.py: particle_clusters", "src/qinfer/distributions.py: est_cluster_moments, est_cluster_covs"]}
{"id": "C21", "title": "Liu-West output shape and weights", "statement": "A Liu-West resampling step returns exactly the requested number of particles (explicit argument, else the resampler default, else the current number), all with equal weight summing to one, and calls the validity check at most maxiter times.", "quantifier": "every weighted cloud, every model, every draw sequence and every option setting", "why_tests_cant": "Retry loops over arbitrary random draws.", "anchors": ["src/qinfer/resamplers.py: LiuWestResampler.__call__"]}
{"id": "C22", "title": "Postselected Liu-West particles are valid", "statement": "With postselection on, if the step completes without the 'Liu-West resampling failed' warning then every returned particle is valid for the model; when the warning is given, exactly the particles that never became valid are invalid.", "quantifier": "every validity predicate, every draw sequence, every maxiter at least one", "why_tests_cant": "Depends on every possible pattern of rejections across retries.", "anchors": ["src/qinfer/resamplers.py: LiuWestResampler.__call__ lines 340-390"]}
{"id": "C23", "title": "Liu-West parameters stay consistent", "statement": "Whenever h is not overridden, a^2 + h^2 = 1 holds after construction and after every later assignment to a in [0,1]; when h was given explicitly it is never changed by assigning a.", "quantifier": "every sequence of assignments to a", "why_tests_cant": "Invariant over histories of setter calls.", "anchors": ["src/qinfer/resamplers.py: LiuWestResampler.__init__, a"]}
{"id": "C24", "title": "Liu-West preserves mean and covariance in expectation", "statement": "If a^2 + h^2 = 1 and the kernel has zero mean and identity covariance, a freshly drawn (not retried) new particle has expectation equal to the posterior mean and covariance equal to the posterior covariance; the ancestor of each particle is drawn with probability equal to its weight.", "quantifier": "every weighted cloud of every dimension, every kernel with those moments", "why_tests_cant": "A statement about exact expectations, invisible to sampling.", "anchors": ["src/qinfer/resamplers.py: LiuWestResampler.__call__"]}
{"id": "C25", "title": "A retried Liu-West particle is redrawn around its own ancestor", "statement": "When a particle is rejected by postselection and redrawn, the redraw is centred on the shrunken location of that particle's own drawn ancestor.", "quantifier": "every validity predicate, rejection pattern and draw sequence", "why_tests_cant": "Only visible when a rejection leaves a later particle pending; statistical tests tolerate it.", "anchors": ["src/qinfer/resamplers.py: LiuWestResampler.__call__ lines 350-380"]}
{"id": "C26", "title": "Simulated outcomes follow the likelihood", "statement": "For a finite-outcome model whose likelihoods over the outcome domain are non-negative and sum to one, simulate_experiment returns outcome d exactly for the uniform draws in an interval of length Pr(d), never returns an outcome of probability zero, and only returns members of the domain.", "quantifier": "every likelihood vector, every outcome domain, every draw in [0,1)", "why_tests_cant": "The set of draws selecting an outcome cannot be measured by sampling; impossible outcomes need exact boundary draws.", "anchors": ["src/qinfer/abstract_model.py: FiniteOutcomeModel.simulate_experiment"]}
{"id": "C27", "title": "Call and simulation counters are exact", "statement": "call_count equals the sum over likelihood calls of outcomes x models x experiments and sim_count the sum over simulate_experiment calls of models x experiments x repeats, after any sequence of calls, for base models and for derived models stacked on them.", "quantifier": "every sequence of likelihood and simulate_experiment calls and every stack of derived models", "why_tests_cant": "Accumulated over unbounded histories and stacks of wrappers, several of which bypass the counter.", "anchors": ["src/qinfer/abstract_model.py: Simulatable.simulate_experiment, Model.likelihood", "src/qinfer/derived_models.py", "src/qinfer/test_models.py"]}
{"id": "C28", "title": "Integer domains enumerate exactly their members", "statement": "A finite integer domain lists each integer from min to max exactly once, n_members is the length of that list, and an integer is reported in the domain exactly when it is listed; an unbounded one reports itself infinite and accepts exactly the integers satisfying its finite bounds.", "quantifier": "every pair of bounds (including infinite, equal and reversed) and every integer", "why_tests_cant": "All bounds and all points.", "anchors": ["src/qinfer/domains.py: IntegerDomain"]}
{"id": "C29", "title": "Product domains behave as Cartesian products", "statement": "Points of a product domain are exactly tuples of factor points: membership is conjunction of factor memberships, the number of members is the product, the listed values are each tuple exactly once, and converting a point array to per-factor arrays and back is the identity. Factors may be passed as separate arguments or as one list.", "quantifier": "every list of finite factor domains and every array of points", "why_tests_cant": "All factor lists and shapes.", "anchors": ["src/qinfer/domains.py: ProductDomain", "src/qinfer/utils.py: join_struct_arrays, separate_struct_array"]}
{"id": "C30", "title": "Multinomial domains enumerate all count vectors", "statement": "The multinomial domain for n measurements and k outcomes lists exactly the k-tuples of non-negative integers summing to n, each once, n_members is binomial(n+k-1, k-1), and membership agrees with the list.", "quantifier": "every n >= 0 and k >= 1", "why_tests_cant": "Stars-and-bars identity for all n and k.", "anchors": ["src/qinfer/domains.py: MultinomialDomain"]}
{"id": "C31", "title": "Two-outcome models give probabilities", "statement": "For every model parameter vector that the model declares valid and every experiment in range, the likelihoods of outcomes 0 and 1 are in [0,1] and sum to one (inversion, precession, unknown T2, coin, noisy coin, randomized benchmarking, tomography, accelerated precession).", "quantifier": "every valid parameter vector and experiment of each model", "why_tests_cant": "Real-analytic inequality over continuous parameter spaces; validity regions have edges tests miss.", "anchors": ["src/qinfer/test_models.py", "src/qinfer/rb.py", "src/qinfer/tomography/models.py", "src/qinfer/gpu_models.py", "src/qinfer/abstract_model.py: pr0_to_likelihood_array"]}
{"id": "C32", "title": "Binomial model is n independent shots", "statement": "The likelihood of k counts out of n under BinomialModel is the total probability of all n-shot outcome strings of the underlying two-outcome model with k ones; likelihoods over 0..n sum to one, are non-negative, and n=1 reduces to the underlying model; wrapping anything that is not two-outcome raises ValueError.", "quantifier": "every n, k, every underlying two-outcome model, parameter and experiment", "why_tests_cant": "Combinatorial identity for all n and k.", "anchors": ["src/qinfer/derived_models.py: BinomialModel", "src/qinfer/utils.py: binomial_pdf"]}
{"id": "C33", "title": "Multinomial model is n independent draws", "statement": "The multinomial likelihood of a count vector is the total probability of all outcome strings with those counts; over all count vectors for n draws the likelihoods sum to one; zero-probability outcomes with zero counts contribute factor one.", "quantifier": "every n, every number of outcomes, every probability vector (including zeros)", "why_tests_cant": "Combinatorial identity for all sizes with 0 log 0 corners.", "anchors": ["src/qinfer/derived_models.py: MultinomialModel", "src/qinfer/utils.py: multinomial_pdf"]}
{"id": "C34", "title": "Poisoned likelihoods remain probabilities close to the truth", "statement": "PoisonedModel likelihoods lie in [0,1] and differ from the true likelihood by at most the injected perturbation; specifying neither or both of tol and n_samples raises ValueError at construction.", "quantifier": "every underlying likelihood in [0,1], every perturbation, every argument combination", "why_tests_cant": "Clipping bound over a continuum and constructor validation over all combinations.", "anchors": ["src/qinfer/derived_models.py: PoisonedModel"]}
{"id": "C35", "title": "Likelihood tempering preserves the ordering of hypotheses", "statement": "MLEModel raises every likelihood to its power: for positive power the order of particles by likelihood and zero likelihoods are preserved, power one reproduces the underlying model, and p updates of the underlying model equal one update of the model with integer power p.", "quantifier": "every non-negative likelihood and every positive power", "why_tests_cant": "Monotonicity over a continuum.", "anchors": ["src/qinfer/derived_models.py: MLEModel"]}
{"id": "C36", "title": "Random walks move only what they should", "statement": "GaussianRandomWalkModel's timestep changes only the parameters declared to walk; RandomWalkModel adds its step distribution's sample to each particle and rejects mismatched dimensions with TypeError; the number of parameters equals the number of names for every option combination, and likelihoods ignore the walk parameters.", "quantifier": "every underlying model, walk index set, option combination and random draw", "why_tests_cant": "Frame condition over all index sets and draws.", "anchors": ["src/qinfer/derived_models.py: RandomWalkModel, GaussianRandomWalkModel"]}
{"id": "C37", "title": "Gaussian hyperparameterized likelihood is a density", "statement": "For each model vector and experiment the GaussianHyperparameterizedModel likelihood, as a function of the continuous outcome, is the two-component Gaussian mixture density with the underlying outcome probabilities as mixture weights.", "quantifier": "every mixture weight, mean, positive variance and outcome value", "why_tests_cant": "Normalization of a density cannot be tested pointwise.", "anchors": ["src/qinfer/derived_models.py: GaussianHyperparameterizedModel.likelihood"]}
{"id": "C38", "title": "Randomized benchmarking conversions and decay", "statement": "The fidelity/depolarizing conversions p and F are mutually inverse for every dimension greater than one, and for a valid model the survival probability is non-increasing in the sequence length, lies between B and A+B, and the interleaved protocol agrees with the reference protocol when the interleaved gate is perfect.", "quantifier": "every dimension, parameter vector and sequence length", "why_tests_cant": "For-all over continuous parameters and unbounded lengths.", "anchors": ["src/qinfer/rb.py: p, F, RandomizedBenchmarkingModel.likelihood"]}
{"id": "C39", "title": "Analytic scores are derivatives of the log-likelihood", "statement": "Wherever the likelihood is positive, the score returned by the inversion, precession, coin and randomized benchmarking models is the partial derivative of the log of that model's own likelihood, and its expectation over outcomes is zero.", "quantifier": "every parameter vector, outcome and experiment with positive likelihood", "why_tests_cant": "Derivative identities over a continuum.", "anchors": ["src/qinfer/test_models.py: SimpleInversionModel.score, CoinModel.score", "src/qinfer/rb.py: score"]}
{"id": "C40", "title": "Fisher information is symmetric positive semidefinite", "statement": "fisher_information returns the expectation over outcomes of the outer product of the score, hence a symmetric positive semidefinite matrix for every model and experiment, and the binomial wrapper multiplies it by the number of measurements.", "quantifier": "every differentiable model, parameter vector and experiment", "why_tests_cant": "Matrix inequality over all scores and likelihoods.", "anchors": ["src/qinfer/abstract_model.py: DifferentiableModel.fisher_information", "src/qinfer/derived_models.py: DifferentiableBinomialModel"]}
{"id": "C41", "title": "Model distance is a metric", "statement": "distance is non-negative, symmetric, satisfies the triangle inequality, vanishes on equal vectors, and vanishes only on equal vectors when every scale entry is non-zero; rescaled particle distances satisfy the same laws.", "quantifier": "every pair and triple of parameter vectors and scale vectors", "why_tests_cant": "Metric laws over a continuum.", "anchors": ["src/qinfer/abstract_model.py: Simulatable.distance", "src/qinfer/metrics.py: rescaled_distance_mtx"]}
{"id": "C42", "title": "Model chains report the whole stack", "statement": "For a stack of derived models, model_chain lists every underlying model from the base outwards, base_model is the innermost model, underlying_model the next one in, and n_outcomes, validity and parameter count are those of the wrapped model unless overridden; in particular a derived model reports a constant number of outcomes only if the wrapped model does.", "quantifier": "every stack of derived models of every height", "why_tests_cant": "Unbounded nesting.", "anchors": ["src/qinfer/abstract_model.py: Simulatable.model_chain, base_model", "src/qinfer/derived_models.py: DerivedModel"]}
{"id": "C43", "title": "Record joining and separating are inverse", "statement": "Joining struct arrays of the same length and then separating by their dtypes returns the original arrays, and vice versa.", "quantifier": "every list of field widths and every array content and length", "why_tests_cant": "All byte layouts.", "anchors": ["src/qinfer/utils.py: join_struct_arrays, separate_struct_array"]}
{"id": "C44", "title": "Simplex coordinates round-trip", "statement": "to_simplex maps any real vector whose last entry is zero to a probability vector with positive entries, from_simplex maps it back to the original, and to_simplex after from_simplex is the identity on positive probability vectors.", "quantifier": "every vector of every length", "why_tests_cant": "Bijection over a continuum of every dimension.", "anchors": ["src/qinfer/utils.py: to_simplex, from_simplex"]}
{"id": "C45", "title": "pretty_time can be read back", "statement": "The days, hours, minutes and seconds printed by pretty_time add up to the given number of whole seconds, with hours below 24 and minutes and seconds below 60 whenever the larger unit is shown, so different durations never print the same for the same flags.", "quantifier": "every non-negative duration and flag combination", "why_tests_cant": "All durations.", "anchors": ["src/qinfer/utils.py: pretty_time"]}
{"id": "C46", "title": "uniquify keeps first occurrences in order", "statement": "uniquify returns each distinct element once, in order of first appearance.", "quantifier": "every list", "why_tests_cant": "All lists.", "anchors": ["src/qinfer/utils.py: uniquify"]}
{"id": "C47", "title": "Hedged binomial estimates are proper", "statement": "binom_est_p lies in [0,1] for 0 <= n <= N, strictly inside when the hedge is positive, is increasing in n, and the reported error never exceeds 1/(2 sqrt(N+2h)) so it goes to zero as N grows.", "quantifier": "every count, total and hedge", "why_tests_cant": "Inequalities over unbounded ranges.", "anchors": ["src/qinfer/utils.py: binom_est_p, binom_est_error"]}
{"id": "C48", "title": "Uniform samples stay in the box", "statement": "Samples from UniformDistribution lie within the given ranges in every coordinate, hit the lower edge exactly at draw zero, and are affine in the draw; ConstantDistribution always returns its values.", "quantifier": "every range array, sample number and draw", "why_tests_cant": "All boxes and draws.", "anchors": ["src/qinfer/distributions.py: UniformDistribution, ConstantDistribution"]}
{"id": "C49", "title": "Samples have shape (n, n_rvs)", "statement": "sample(n) of every distribution returns n rows with n_rvs entries each; product distributions concatenate factor columns, mixture distributions take each row from one component with multiplicities summing to n.", "quantifier": "every n, every nesting of product, mixture and base distributions, every draw", "why_tests_cant": "Arbitrary nesting.", "anchors": ["src/qinfer/distributions.py: Distribution.sample, ProductDistribution, MixtureDistribution, DiscreteUniformDistribution"]}
{"id": "C50", "title": "Postselected samples are valid or an error is raised", "statement": "PostselectedDistribution.sample returns n samples all valid for the model, or raises RuntimeError after maxiters rounds; valid samples drawn in earlier rounds are kept unchanged.", "quantifier": "every validity predicate, draw stream, n and maxiters", "why_tests_cant": "All rejection patterns.", "anchors": ["src/qinfer/distributions.py: PostselectedDistribution.sample"]}
{"id": "C51", "title": "Constrained-sum samples have the requested total", "statement": "Each sample of ConstrainedSumDistribution sums to desired_total.", "quantifier": "every underlying sample with non-zero total", "why_tests_cant": "Negative totals are untested.", "anchors": ["src/qinfer/distributions.py: ConstrainedSumDistribution.sample"]}
{"id": "C52", "title": "Shape parameters reproduce the requested moments", "statement": "Constructing a beta, gamma or beta-binomial distribution from a mean and variance yields shape parameters whose distribution has that mean and variance, and constructing from shape parameters and then from the resulting moments returns the same shape parameters.", "quantifier": "every admissible mean/variance or shape pair", "why_tests_cant": "Algebraic inversion over a continuum.", "anchors": ["src/qinfer/distributions.py: BetaDistribution, BetaBinomialDistribution, GammaDistribution"]}
{"id": "C53", "title": "Log-normal samples are log-normal", "statement": "LogNormalDistribution(mu, sigma) returns exp(mu + sigma z) for a standard normal z.", "quantifier": "every mu, positive sigma and draw", "why_tests_cant": "Parameterization mistakes do not show at the default arguments.", "anchors": ["src/qinfer/distributions.py: LogNormalDistribution"]}
{"id": "C54", "title": "Particle guess heuristic picks a usable experiment", "statement": "PGH returns an experiment whose inversion field is one of two sampled particles and whose time is the reciprocal of their (positive) distance, or raises RuntimeError after maxiters identical pairs.", "quantifier": "every draw stream, cloud and maxiters >= 1", "why_tests_cant": "All draw patterns.", "anchors": ["src/qinfer/expdesign.py: PGH.__call__"]}
{"id": "C55", "title": "Exponentially sparse heuristic follows the record", "statement": "ExpSparseHeuristic proposes time scale * base^k where k is the number of data recorded so far, fills the other fields as given, and does so whether or not a time field name is supplied.", "quantifier": "every history length and option combination", "why_tests_cant": "Unbounded histories.", "anchors": ["src/qinfer/expdesign.py: ExpSparseHeuristic.__call__"]}
{"id": "C56", "title": "Experiment designer remembers the best design", "statement": "With store_guess, the design returned after any sequence of guesses since new_exp is one with the lowest objective value found so far.", "quantifier": "every sequence of guesses, optimizers and objective values", "why_tests_cant": "Invariant over histories for each optimizer choice.", "anchors": ["src/qinfer/expdesign.py: ExperimentDesigner.design_expparams_field, new_exp"]}
{"id": "C57", "title": "Parallel likelihood equals serial likelihood", "statement": "DirectViewParallelizedModel.likelihood returns exactly what the serial model returns, for every number of engines, threshold and model array, whatever order the engines finish in.", "quantifier": "every engine count, array length, threshold and completion order", "why_tests_cant": "All splits and schedules.", "anchors": ["src/qinfer/parallel.py: DirectViewParallelizedModel.likelihood"]}
{"id": "C58", "title": "Parallel simulation returns what the serial model would", "statement": "DirectViewParallelizedModel.simulate_experiment returns an array of shape (repeat, n_models, n_experiments) whose entries are those of the serial simulation of each chunk, for both ways of splitting.", "quantifier": "every engine count, array sizes, repeats", "why_tests_cant": "Wrong axis is invisible for special sizes.", "anchors": ["src/qinfer/parallel.py: DirectViewParallelizedModel.simulate_experiment"]}
{"id": "C59", "title": "GPU precession model equals the CPU model under every schedule", "statement": "AcceleratedPrecessionModel returns the same likelihood array as SimplePrecessionModel with the same arguments, whatever order the kernel work items execute in.", "quantifier": "every execution order of work items, every array size", "why_tests_cant": "All interleavings.", "anchors": ["src/qinfer/gpu_models.py: COS_MODEL_KERNEL, AcceleratedPrecessionModel.likelihood"]}
{"id": "C60", "title": "Gell-Mann basis is an orthonormal Hermitian basis", "statement": "For every dimension, gell_mann_basis returns dim^2 Hermitian matrices, orthonormal under the trace inner product, the first proportional to the identity, all others traceless, and complete.", "quantifier": "every dimension", "why_tests_cant": "Unbounded dimension; index arithmetic for off-diagonal elements.", "anchors": ["src/qinfer/tomography/bases.py: gell_mann_basis"]}
{"id": "C61", "title": "Tensor product and Pauli bases are orthonormal", "statement": "The tensor product of orthonormal Hermitian bases is an orthonormal Hermitian basis, so pauli_basis(n) is one for every n.", "quantifier": "every list of factor bases", "why_tests_cant": "Unbounded number of factors.", "anchors": ["src/qinfer/tomography/bases.py: tensor_product_basis, pauli_basis"]}
{"id": "C62", "title": "States and parameter vectors round-trip", "statement": "Converting parameters to a state and back is the identity for an orthonormal basis; for a complete basis converting any Hermitian operator to parameters and back is the identity; the tomography likelihood of outcome 1 is the Born-rule trace of measurement times state whenever that is a probability.", "quantifier": "every dimension, basis, state and measurement", "why_tests_cant": "All operators of all dimensions.", "anchors": ["src/qinfer/tomography/bases.py: state_to_modelparams, modelparams_to_state", "src/qinfer/tomography/models.py: likelihood"]}
{"id": "C63", "title": "Canonicalized states have unit trace", "statement": "After canonicalization without subnormalization every state has trace one; diffusion never changes the trace parameter before canonicalization nor the diffusion rate.", "quantifier": "every parameter array and draw", "why_tests_cant": "All clouds.", "anchors": ["src/qinfer/tomography/models.py: renormalize, canonicalize, DiffusiveTomographyModel.update_timestep"]}
{"id": "C64", "title": "GADFLI prior has the requested mean", "statement": "The generalized amplitude damping prior has expectation equal to the requested mean state whenever the fiducial distribution has maximally mixed expectation, and its extreme point is positive semidefinite; any valid density operator is accepted as mean.", "quantifier": "every dimension and mean state", "why_tests_cant": "Exact expectation.", "anchors": ["src/qinfer/tomography/distributions.py: GADFLIDistribution"]}
{"id": "C65", "title": "Adaptive likelihood estimation terminates with probabilities", "statement": "For every option combination the constructor accepts and every stream of simulated data, ALEApproximateModel.likelihood terminates, and returns numbers in [0,1] that sum to one over the two outcomes.", "quantifier": "every option combination and every simulated data stream", "why_tests_cant": "Termination over all infinite data streams.", "anchors": ["src/qinfer/ale.py: ALEApproximateModel.likelihood"]}
{"id": "C66", "title": "Finite differences are exact on quadratics", "statement": "FiniteDifference and ScoreMixin return the exact gradient (score) for functions that are quadratic in each argument separately, for every non-zero step size.", "quantifier": "every quadratic, point and step size", "why_tests_cant": "Algebraic identity.", "anchors": ["src/qinfer/finite_difference.py: FiniteDifference.central", "src/qinfer/score.py: ScoreMixin.score"]}
{"id": "C67", "title": "Outcome cutoff can be changed", "statement": "Assigning n_outcomes_cutoff stores the value so that reading it returns what was assigned.", "quantifier": "every value", "why_tests_cant": "A setter that never returns cannot be observed as a wrong value.", "anchors": ["src/qinfer/abstract_model.py: FiniteOutcomeModel.n_outcomes_cutoff"]}
{"id": "C68", "title": "Mixed approximate updater covers every particle once", "statement": "MixedApproximateSMCUpdater evaluates every particle with exactly one of the good and approximate models, the heaviest ones with the good model, and its result is a Bayes update with the assembled likelihood.", "quantifier": "every cloud, mixture ratio and shuffle", "why_tests_cant": "All splits.", "anchors": ["src/qinfer/smc.py: MixedApproximateSMCUpdater.hypothetical_update"]}
{"id": "C69", "title": "Bayesian information accumulates additively and privately", "statement": "The current Bayesian information matrix after any history equals the initial one plus the sum of the per-experiment Fisher information averages, regardless of order, and the caller's initial array is not modified.", "quantifier": "every history of updates", "why_tests_cant": "Accumulation and aliasing over histories.", "anchors": ["src/qinfer/smc.py: SMCUpdaterBCRB"]}
{"id": "C70", "title": "Performance runs record every experiment", "statement": "perf_test returns one row per experiment, row k holding the true parameters before drift k and the estimate after k+1 updates; running multiple trials leaves NumPy's error policy as it was, also when a trial fails.", "quantifier": "every number of experiments, model, heuristic and failure pattern", "why_tests_cant": "All failure points.", "anchors": ["src/qinfer/perf_testing.py: perf_test, perf_test_multiple, numpy_err_policy"]}
{"id": "C71", "title": "Ensemble heuristic runs one member with positive probability", "statement": "EnsembleHeuristic calls exactly one member heuristic, chosen by which interval of the cumulative probabilities contains the draw; a member of probability zero is never called.", "quantifier": "every list of members, probabilities and draw", "why_tests_cant": "Boundary draws and zero probabilities.", "anchors": ["src/qinfer/expdesign.py: EnsembleHeuristic.__call__"]}
{"id": "C72", "title": "Adaptive likelihood estimation uses the number of samples drawn", "statement": "The trial count N that ALEApproximateModel.likelihood divides by equals the number of samples simulated so far, for every option combination and stopping round.", "quantifier": "every option combination, data stream and stopping round", "why_tests_cant": "A bias factor that depends on the options and on the round at which the loop stops.", "anchors": ["src/qinfer/ale.py: ALEApproximateModel.likelihood"]}
{"id": "C73", "title": "Serial tasks run once", "statement": "apply_serial.get evaluates its function at most once successfully: later calls return the cached value without evaluating again, and a failed evaluation is not cached.", "quantifier": "every function, including ones that fail", "why_tests_cant": "Call counts over all call sequences.", "anchors": ["src/qinfer/perf_testing.py: apply_serial"]}
{"id": "C74", "title": "Enclosing ellipsoid iteration keeps weights a distribution and encloses every point up to its tolerance", "statement": "For affinely spanning points, every pass of mvee keeps the point weights a probability vector and the moment matrix invertible, so it never fails; when it stops with tolerance tol, every input point satisfies (x-c)^T A (x-c) <= slack(tol), where slack(tol) tends to 1 with tol, the centre is a convex combination of the points and A is symmetric positive semidefinite.", "quantifier": "all dimensions d >= 1, all finite spanning point sets, all tolerances, all numbers of passes", "why_tests_cant": "Tests check one or two point clouds; the invariant concerns every pass of the iteration and the bound must hold for every cloud and tolerance.", "anchors": ["src/qinfer/utils.py:314-353"]}
{"id": "C75", "title": "Credible region membership tests the documented region", "statement": "in_credible_region with method pce accepts exactly the points whose Mahalanobis distance from the posterior mean is at most the chi-squared quantile; with hpd-hull exactly the points of the convex hull of the credible particles; with hpd-mvee exactly the points of the ellipsoid that region_est_ellipsoid returns, as that function documents it; every accepted method string and level works for every number of parameters.", "quantifier": "all particle sets, weights, levels, methods, slices and query points", "why_tests_cant": "The method string, matrix orientation and degenerate levels interact; tests use one two-parameter cloud with default level.", "anchors": ["src/qinfer/distributions.py:643-751", "src/qinfer/utils.py:355-374"]}
{"id": "C76", "title": "Credible regions hold at least the requested mass", "statement": "The particles that in_credible_region accepts with method hpd-hull carry total weight at least the level, and the accepted set is convex; with hpd-mvee every credible particle lies in the returned ellipsoid up to the tolerance slack.", "quantifier": "all particle sets, weights, levels in [0,1) and slices of at least two parameters", "why_tests_cant": "Mass coverage must hold for every weight vector, including ties and concentrated weights.", "anchors": ["src/qinfer/distributions.py:558-751"]}
{"id": "C77", "title": "Rescaled particle distances form a metric scaled by the model", "statement": "rescaled_distance_mtx(p, q)[i, j] is the Euclidean norm of sqrt(Q) (x_i - y_j) with Q the scale matrix of the model, whichever of the arguments carries the model; it is symmetric, zero exactly on coinciding particles (Q > 0) and satisfies the triangle inequality.", "quantifier": "all particle sets, dimensions and non-negative scale vectors", "why_tests_cant": "A test compares a few distances; the metric laws quantify over all triples and the argument roles over all combinations.", "anchors": ["src/qinfer/metrics.py:72-106"]}
{"id": "C78", "title": "KL divergence estimate is the divergence from the kernel density estimate", "statement": "est_kl_divergence(other, delta) equals sum_i w_i log(w_i / q_i), where q_i is the kernel density estimate (1/delta) sum_j w'_j K(d_ij/delta) of the other distribution at particle i.", "quantifier": "all particle sets, positive weights, kernels and bandwidths", "why_tests_cant": "The bandwidth only matters when it is not one; tests without an independent formula cannot see a misplaced factor.", "anchors": ["src/qinfer/distributions.py:466-501"]}
{"id": "C79", "title": "Posterior marginal is a normalised density", "statement": "posterior_marginal returns res equally spaced points covering the requested range and non-negative values whose trapezoid integral over the range is the posterior mass in it.", "quantifier": "all particle sets, weights, resolutions and ranges", "why_tests_cant": "Boundary particles, coinciding particles and user ranges are corner cases not sampled by tests.", "anchors": ["src/qinfer/smc.py:672-716"]}
{"id": "C80", "title": "Posterior mesh evaluates the density at the mesh points", "statement": "posterior_mesh returns arrays p1s, p2s, pr of one shape with pr[a, b] the kernel density estimate at (p1s[a, b], p2s[a, b]), for every resolution pair.", "quantifier": "all particle sets, parameter pairs, resolutions and smoothing widths", "why_tests_cant": "A transposed mesh has the right shape and range and is symmetric for symmetric posteriors, so shape tests pass.", "anchors": ["src/qinfer/smc.py:795-858"]}
{"id": "C81", "title": "Cluster metric is a fraction of explained variance", "statement": "est_cluster_metric returns, per parameter, the between-cluster share of the total variance: a number between 0 and 1, whenever the clustering accounts for all the weight and the total variance is positive; without clusters or variance it does not fail silently.", "quantifier": "all particle sets, weights and cluster labellings", "why_tests_cant": "The clusterer's labels range over all partitions with noise; tests only run one.", "anchors": ["src/qinfer/distributions.py:548-555"]}
{"id": "C82", "title": "Weighted pairwise distances shrink with weight", "statement": "weighted_pairwise_distances divides the base metric d(p,q) by (w_p w_q N^2)^power: with uniform weights it equals the base metric, it stays symmetric, and for a positive power heavier particles are closer.", "quantifier": "all feature matrices, positive weight vectors and powers", "why_tests_cant": "Monotonicity and the uniform special case are for-all statements; zero weights are a corner case.", "anchors": ["src/qinfer/metrics.py:108-125"]}
{"id": "C83", "title": "Particles stay in canonical form", "statement": "When an updater is built with canonicalization on, every particle is in the model's canonical form after construction and after any sequence of updates, batch updates, resamplings and full resets, as long as the model's own time step keeps canonical particles canonical; with canonicalization off the model's canonicalize function is never consulted.", "quantifier": "all models, priors, resamplers, zero-weight policies, canonical forms P, all histories of operations other than only_params resets", "why_tests_cant": "A test can only try a few histories and one model; the claim covers all interleavings of updates, resamples, policy resets and batches", "anchors": ["src/qinfer/smc.py:266-322", "src/qinfer/smc.py:388-457", "src/qinfer/smc.py:491-545"]}
{"id": "C84", "title": "Likelihood call counter", "statement": "Each update adds exactly one likelihood evaluation per particle to the model's call count, each prediction adds outcomes times particles times experiments, whether or not it then fails; resampling and resets add nothing, so after any history the counter is the sum of those charges along the executed elementary steps.", "quantifier": "all models, states, histories including batches", "why_tests_cant": "The counter depends on particle numbers that change during a history; tests fix a single history", "anchors": ["src/qinfer/smc.py:324-386", "src/qinfer/abstract_model.py:445-468"]}
{"id": "C85", "title": "Real interval domain", "statement": "RealDomain accepts an array iff every entry is a real non-NaN number between the bounds (bounds may be infinite; a NaN bound accepts nothing), and the example point is a finite member whenever the domain has a finite member.", "quantifier": "all extended bounds, all arrays", "why_tests_cant": "Infinite, NaN and reversed bounds and arbitrary arrays cannot be enumerated", "anchors": ["src/qinfer/domains.py:307-422"]}
{"id": "C86", "title": "Random-walk steps have exactly the configured covariance", "statement": "For every way of building a GaussianRandomWalkModel (fixed or learned covariance, diagonal or dense, any subset of parameters, any transform), the added noise has mean zero and covariance equal to the configured covariance times the square of the experiment's scale, and est_update_covariance equals the average over the given models of the covariance of a unit step", "quantifier": "all constructor arguments, models, scales, and all zero-mean unit-covariance noise sources", "why_tests_cant": "Tests look at one seed and one sample covariance; the identity for every factor layout needs symbolic expectation over the noise", "anchors": ["src/qinfer/derived_models.py:743-963"]}
{"id": "C87", "title": "Samplers have the moments their parameters announce", "statement": "Samples from the normal, multivariate normal, gamma, uniform and slanted normal distributions have the mean and (co)variance given by the constructor arguments, different samples are uncorrelated, and truncated normal samples stay between the truncation limits", "quantifier": "all parameter values, sample counts, and all noise sources with the stated first two moments", "why_tests_cant": "Sample averages only approximate moments, and confusing variance with standard deviation passes at the value 1 used by tests", "anchors": ["src/qinfer/distributions.py:792-948", "src/qinfer/distributions.py:1084-1118"]}
{"id": "C88", "title": "Wrapped models keep the parameters of the model below in place", "statement": "In every stack of derived models the names of the base model come first, each layer appends exactly its own names, a parameter vector valid for the stack starts with one valid for the base model, the extra conditions are exactly positive variances (hyperparameterised) and non-negative standard deviations (diagonal random walk), models with a varying number of outcomes are refused by the two-outcome wrappers, and the multinomial model reports its number of outcomes", "quantifier": "all base models, all stacks of wrappers of any depth, all parameter vectors", "why_tests_cant": "Tests wrap one or two layers around one model", "anchors": ["src/qinfer/derived_models.py:107-131", "src/qinfer/derived_models.py:385-436", "src/qinfer/derived_models.py:584-597", "src/qinfer/derived_models.py:865-887"]}
{"id": "C89", "title": "Reference models agree where they overlap", "statement": "The T2 model's deviation from one half is that of ideal precession times exp(-t/T2), the inversion model depends on the detuning only and peaks at zero detuning, the noisy coin is the total-probability mixture of its two error rates and reduces to the coin without errors, and the die reduces to the coin for two sides and to certainty for a loaded die", "quantifier": "all parameters, times, outcomes and die sizes", "why_tests_cant": "Tests check shapes and a few values per model separately, not the relations between models", "anchors": ["src/qinfer/test_models.py:111-259", "src/qinfer/test_models.py:317-401", "src/qinfer/test_models.py:449-472"]}
{"id": "C90", "title": "State samplers return quantum states", "statement": "Whatever operator of non-zero trace is drawn, the parameters returned represent it normalised to trace one, and a density operator if it is positive; real Ginibre samples are real density operators; the one-qubit Haar and Ginibre samplers return Bloch coordinates on and inside the unit sphere that reproduce the drawn state; samples have shape (n, n_rvs); every sampler class can be instantiated and checks its rank", "quantifier": "all bases, dimensions, ranks, draws and sample counts", "why_tests_cant": "Random draws in tests cannot cover all matrices, and deprecated classes are not tested", "anchors": ["src/qinfer/distributions.py:129-143", "src/qinfer/distributions.py:1168-1301", "src/qinfer/tomography/distributions.py:79-219"]}
{"id": "C91", "title": "Interpolated distributions sample by inverse transform", "statement": "The compactified grid is increasing, symmetric and equally spaced in the logistic coordinate; the tabulated CDF starts at 0, ends at 1 and increases where the density is positive; every sample of the interpolated distribution lies inside the grid, is a monotone function of the uniform draw, is the inverse of the piecewise linear CDF, and does not depend on the normalisation of the given density; the coordinate is the one documented", "quantifier": "all densities positive on the grid, scales, point counts and draws", "why_tests_cant": "Tests draw a few samples from one density", "anchors": ["src/qinfer/utils.py:452-461", "src/qinfer/distributions.py:1352-1389"]}
{"id": "C92", "title": "Gradients of log densities", "statement": "grad_log_pdf returns the derivative of the logarithm of the density it belongs to, for normal, truncated normal, multivariate normal, uniform and postselected distributions, whatever the batch size; the expected initial information matrix built from it is the inverse covariance of the prior", "quantifier": "all means, covariances, points, batches and clouds", "why_tests_cant": "A derivative is a limit, and the expectation is over all clouds", "anchors": ["src/qinfer/distributions.py:821-827", "src/qinfer/distributions.py:879-880", "src/qinfer/distributions.py:907-908", "src/qinfer/distributions.py:1349-1350", "src/qinfer/smc.py:1087-1092"]}
{"id": "C93", "title": "State measurement heuristics request projective measurements", "statement": "The Pauli heuristic requests a projector of half rank along one non-identity Pauli axis for every choice and accepts exactly the qubit dimensions; the stabilizer heuristic requests a rank-one projector; the requested parameter vector stored in the 'meas' field makes the tomography likelihood equal to Born's rule on every density operator", "quantifier": "all numbers of qubits, bases, choices and states", "why_tests_cant": "There are no tests of tomography/expdesign.py", "anchors": ["src/qinfer/tomography/expdesign.py:84-160"]}
{"id": "C94", "title": "Heisenberg-Weyl operators form a unitary error basis", "statement": "heisenberg_weyl_operators(d) returns d*d unitary operators, mutually orthogonal with squared norm d, closed under multiplication up to d-th roots of unity, with X Z = w Z X", "quantifier": "all dimensions", "why_tests_cant": "Tests could only check small dimensions numerically", "anchors": ["src/qinfer/tomography/expdesign.py:73-80"]}
{"id": "C95", "title": "Process heuristics request preparations and measurements", "statement": "The vector requested by a process heuristic, dotted with the parameters of a channel's Choi state, is the probability of the measurement outcome for the normalised (transposed) preparation sent through the channel; a product heuristic works with each of the state heuristics", "quantifier": "all dimensions, linear maps, preparations, measurements and choices", "why_tests_cant": "There are no tests of tomography/expdesign.py", "anchors": ["src/qinfer/tomography/expdesign.py:163-213"]}
{"id": "C96", "title": "Best-of-k picks the measurement with the largest posterior variance", "statement": "BestOfKMetaheuristic returns one of the experiments drawn from its base heuristic, one whose expectation value has the greatest variance under the current posterior, with the extra fields set; it works for every tomography model", "quantifier": "all clouds, weights, draws and k > 0", "why_tests_cant": "There are no tests of tomography/expdesign.py", "anchors": ["src/qinfer/tomography/expdesign.py:215-245"]}
{"id": "C97", "title": "Data columns reach the right fields", "statement": "data_to_params puts, for every row, the truncated value of the outcome column into the outcomes and the value of each listed column, cast to the field's type, into the field it is listed for, leaves other fields alone, gives the same result for a plain array and a record array with the same contents, reports missing columns and fields, and accepts every form of dtype the models declare", "quantifier": "all tables, dtypes, column specifications and rows", "why_tests_cant": "There are no tests of simple_est.py", "anchors": ["src/qinfer/simple_est.py:69-106"]}
{"id": "C98", "title": "Ready-made estimators return the Bayesian posterior of the data", "statement": "simple_est_prec and simple_est_rb return the posterior mean and covariance of their model given the rows of the data, in whatever accepted form and number the rows come, for a prior on the stated parameter ranges", "quantifier": "all data sets, ranges, particle numbers, draws and resamplers", "why_tests_cant": "There are no tests of simple_est.py", "anchors": ["src/qinfer/simple_est.py:108-260"]}
{"id": "C99", "title": "Simulated multinomial counts follow the model's likelihood", "statement": "sample_multinomial returns, for every entry of a stack of distributions and in the documented shape for every documented size, an independent draw of counts; MultinomialModel.simulate_experiment reports for each repetition, model and experiment counts that sum to that experiment's n_meas, lie in the declared domain and occur with exactly the probability the model's likelihood assigns to them", "quantifier": "all shapes, probability stacks, sizes, outcome sets, models, experiments and random draws", "why_tests_cant": "Counts mixed up between models, experiments or repetitions keep the right shapes and totals; only the joint law shows it", "anchors": ["src/qinfer/utils.py:163-202", "src/qinfer/derived_models.py:653-678", "src/qinfer/domains.py:667-683"]}
{"id": "C100", "title": "Simulated hyperparameterized readings are independent given the parameters", "statement": "GaussianHyperparameterizedModel.simulate_experiment returns the mean for the underlying outcome plus its standard deviation times a normal variate, and readings of different repetitions, models and experiments have independent noise", "quantifier": "all parameter vectors, experiment numbers, repetition counts and random draws", "why_tests_cant": "A test on means or spreads of many models does not see that repetitions share their noise", "anchors": ["src/qinfer/derived_models.py:484-508"]}
{"id": "C101", "title": "A value is printed with the digits its uncertainty justifies", "statement": "format_uncertainty(value, uncertainty) produces LaTeX text that reads back as the value and the uncertainty, both within half the uncertainty of the true numbers, with a non-zero printed uncertainty and a correctly typeset power of ten; with zero uncertainty all digits of the value are printed", "quantifier": "all real values, uncertainties and break points", "why_tests_cant": "The rounding behaviour depends on the decade of both numbers; tests look at a handful of decades", "anchors": ["src/qinfer/utils.py:408-450"]}
{"id": "C102", "title": "The significant-figure assertion tests what it announces", "statement": "assert_sigfigs_equal(x, y, s) passes exactly if x and y, scaled so that x has one digit before the point, differ by less than half a unit in figure s", "quantifier": "all real x, y and numbers of figures", "why_tests_cant": "The function is itself a test helper; that it accepts everything for negative references is invisible to tests that pass", "anchors": ["src/qinfer/utils.py:385-406"]}
{"id": "C103", "title": "Counts carry the same information as the single shots", "statement": "Updating on binomial (or multinomial) counts leaves the particles and weights that updating on the underlying single shots would leave, in any order of the shots; the normalisation records differ exactly by the numbers of orderings of the shots", "quantifier": "all data sequences, all numbers of shots, all permutations, all static underlying models, all regular runs", "why_tests_cant": "An equality over all data sequences, all shot orders and all particle clouds; a test compares a handful of runs up to rounding", "anchors": ["src/qinfer/derived_models.py:315-329", "src/qinfer/derived_models.py:630-651", "src/qinfer/smc.py:388-470"]}
{"id": "C104", "title": "Learning is unbiased on the data the cloud itself predicts", "statement": "For any adaptive choice of experiments and any number of steps, the probabilities the particle cloud assigns to the possible data records add up to one and are the products of the recorded normalisations; averaged over them the posterior weight of every particle is its prior weight, the posterior mean is the prior mean, and prior covariance = average posterior covariance + covariance of the posterior mean, so the variance shrinks on average", "quantifier": "all particle clouds, all models with normalised likelihoods, all adaptive experiment strategies, all numbers of experiments", "why_tests_cant": "The statement averages over a tree of all data records and over all strategies; a test sees single random runs, whose variance may well grow", "anchors": ["src/qinfer/smc.py:324-457", "src/qinfer/distributions.py:337-399"]}
{"id": "C105", "title": "The posterior settles on the particle that predicts the data", "statement": "If the outcome frequencies of the experiments converge to those predicted by one particle of positive weight, the weight of every particle that some repeatedly used experiment tells apart tends to zero, the posterior mean tends to that particle's location and the posterior covariance to zero", "quantifier": "all particle clouds of static models with likelihoods at least machine epsilon, all infinite data sequences with converging frequencies, all experiment schedules", "why_tests_cant": "A limit over infinite data sequences; finite runs can only suggest convergence", "anchors": ["src/qinfer/smc.py:388-457", "src/qinfer/distributions.py:337-399"]}
{"id": "C106", "title": "The simulated Hadamard test follows its likelihood", "statement": "Outcomes simulated by HTCircuitModel have the probabilities that its likelihood reports, each entry using its own random draw", "quantifier": "all circuit sizes m, all function tables f with at least 2^m entries, all coherence parameters in [0,1], all uniform draws", "why_tests_cant": "A test samples finitely many outcomes at a few coherence values and cannot establish a limiting frequency; simulate_experiment and likelihood are independent code", "anchors": ["src/qinfer/tomography/legacy.py:343-415", "src/qinfer/abstract_model.py:397-529"]}
{"id": "C107", "title": "Legacy Pauli models follow the Born rule for every model and experiment", "statement": "The likelihood arrays of QubitStatePauliModel, RebitStatePauliModel and MultiQubitStatePauliModel have shape outcomes x models x experiments and hold the Born probabilities with the visibility of each experiment", "quantifier": "all numbers of models and experiments, all Bloch vectors, axes and visibilities", "why_tests_cant": "Shapes and visibilities are combinations over which tests only sample; the classes cannot even be instantiated in a test", "anchors": ["src/qinfer/tomography/legacy.py:173-341", "src/qinfer/abstract_model.py:397-529"]}
{"id": "C108", "title": "The matrix square root is that of the nearest positive semidefinite matrix", "statement": "sqrtm_psd returns a positive semidefinite matrix whose square is, among all positive semidefinite matrices, the one nearest to the argument in Frobenius norm, and its error estimate is that distance; on positive semidefinite arguments it is the unique positive semidefinite square root and the error is zero", "quantifier": "all dimensions, all complex Hermitian matrices, all eigendecompositions meeting eigh's contract; positivity for any eigensolver output", "why_tests_cant": "Optimality over all positive semidefinite matrices and uniqueness cannot be sampled", "anchors": ["src/qinfer/utils.py:593-607", "src/qinfer/resamplers.py:316-345"]}
{"id": "C109", "title": "Ellipsoid volumes are volumes", "statement": "ellipsoid_volume returns the volume of the ellipsoid x^T A x <= 1: it is 1 in dimension zero and in every dimension equals the integral of the volumes of its slices; giving the inverse instead gives the same; outer_product gives positive semidefinite matrices", "quantifier": "all dimensions, all positive definite matrices", "why_tests_cant": "A numeric test compares a few ellipsoids in low dimension with known volumes", "anchors": ["src/qinfer/utils.py:205-214", "src/qinfer/utils.py:290-307"]}
{"id": "C110", "title": "Learning with resampling is unbiased", "statement": "On average over the data the particle cloud itself predicts and over the resampler's random draws, any number of rounds of adaptively chosen experiments, updates and (whenever n_ess falls below the threshold) Liu-West resampling leaves the posterior mean where it was; with a^2 + h^2 = 1 cross-covariances split into average posterior covariance plus covariance of the posterior means, and the average posterior variance exceeds the prior variance by at most h^2 zero_cov_comp per round. One resampling step preserves the mean of the cloud on average, and multiplies its covariance by 1 - 1/n.", "quantifier": "for all models with normalised likelihoods, policies, numbers of rounds, clouds, kernels with zero mean and unit covariance, a, h", "why_tests_cant": "An average over all data records and all random draws of arbitrarily many rounds cannot be computed by running the updater; sampling it only estimates it", "anchors": ["src/qinfer/smc.py:263-277", "src/qinfer/smc.py:388-457", "src/qinfer/smc.py:491-551", "src/qinfer/resamplers.py:256-392"]}
{"id": "C111", "title": "The recorded normalizations are an honest score", "statement": "log_total_likelihood after any run of regular updates is at least the log-likelihood of the whole record under any particle plus the log of that particle's prior weight, and it is the maximum over candidate weights of average log-likelihood minus relative entropy from the prior weights, attained by the posterior weights and by no others", "quantifier": "for all models, numbers of particles, data records and candidate weights", "why_tests_cant": "a variational bound over all candidate weight vectors cannot be sampled", "anchors": ["src/qinfer/smc.py:215-226", "src/qinfer/smc.py:388-457"]}
{"id": "C112", "title": "Credible regions are smallest and nested", "statement": "est_credible_region returns a set of distinct particles whose weight exceeds the level, no smaller set of particles does so, regions at higher levels contain those at lower levels as prefixes, and with equal weights the number of particles is floor(level n)+1", "quantifier": "for all weight vectors, locations, slices, levels in [0,1), sort orders among ties", "why_tests_cant": "minimality ranges over all subsets of particles", "anchors": ["src/qinfer/distributions.py:558-614"]}
{"id": "C113", "title": "Arrays are compared aligned at the right", "statement": "shorten_right returns arrays of one common shape: along each axis counted from the right the least length among the arguments, missing axes counting as one, and every entry is the entry of the argument at the same distance from its ends; so the loss of a performance test compares the last parameters of estimate and truth", "quantifier": "for all numbers of arrays, numbers of axes and positive axis lengths, all entries", "why_tests_cant": "shapes of any dimension in any combination cannot be enumerated", "anchors": ["src/qinfer/perf_testing.py:155-180"]}
{"id": "C114", "title": "Performance records have room for everything, timers time blocks", "statement": "The record type built for a performance test exists exactly if the experiment parameters have distinct names that are none of the six performance fields, and then has a field for each of them; a timer reports the duration of a block that has ended and the time so far before that", "quantifier": "for all field lists, parameter counts, clock readings", "why_tests_cant": "all possible field names", "anchors": ["src/qinfer/perf_testing.py:65-112", "src/qinfer/perf_testing.py:132-153"]}
{"id": "C115", "title": "Progress bars change nothing", "statement": "Running trials with a progress bar that does not fail gives the results and leaves the error state of running them without; the IPython bar never fails whatever its widget does; the bar is told that it is finished in every case, last; and the bar is told exactly the numbers of the finished trials", "quantifier": "for all bars, widgets, trials, failure policies", "why_tests_cant": "failures of widgets and trials in all combinations", "anchors": ["src/qinfer/perf_testing.py:339-384", "src/qinfer/ipy.py:56-122"]}
{"id": "C116", "title": "Error ellipses are Mahalanobis balls", "statement": "plot_cov_ellipse draws exactly the points within nstd of the centre in the metric of the covariance, whatever eigenvectors are returned; the ellipse of plot_rebit_posterior contains a drawn particle exactly if its parameters are within n_std of the mean, and particles outside it have total weight at most 2/n_std^2", "quantifier": "for all positive definite covariances, centres, radii, eigendecompositions, particle clouds", "why_tests_cant": "a set of points in the plane is infinite", "anchors": ["src/qinfer/tomography/plotting_tools.py:80-92", "src/qinfer/tomography/plotting_tools.py:119-153", "src/qinfer/tomography/plotting_tools.py:258-271"]}
{"id": "C117", "title": "Mixtures draw each row from a component with its weight", "statement": "A mixture given by a class and arguments (or None if there are none) is sampled like the mixture of the distributions these build; over multinomial counts and a uniform shuffle the rows of a mixture are distributed like independent draws, each of a component by weight and then of a row from that component; without the shuffle they come in the order of the components; wrong numbers of components are refused", "quantifier": "for all classes, argument arrays, weights, numbers of rows, functions of the result", "why_tests_cant": "the joint law of all rows cannot be sampled exhaustively", "anchors": ["src/qinfer/distributions.py:148-259"]}
{"id": "C118", "title": "How fast the updater learns", "statement": "When the data are drawn from the likelihood of one particle of the cloud (the truth), experiments may be chosen adaptively, and nothing is resampled: the weight of the truth falls to a fraction a of its initial value at any time with probability at most a; the expected weight of any other particle after n experiments is at most half the square root of the prior odds times the n-th power of the largest overlap of outcome distributions, so it decays exponentially when experiments tell the particles apart; posterior averages and the expected quadratic loss of the performance tests decay at the same rate; and the expected squared distances between the outcome distributions predicted by the updater and the true ones sum up, over any number of experiments, to at most minus the logarithm of the prior weight of the truth.", "quantifier": "all models with finitely many outcomes whose likelihoods sum to one, all clouds, all adaptive policies, all numbers of experiments", "why_tests_cant": "Statements about expectations over all data records of every length; a test sees single random records, and rare dips of the true weight or constant-factor errors are invisible in them.", "anchors": ["src/qinfer/smc.py:388-457", "src/qinfer/smc.py:324-386", "src/qinfer/perf_testing.py:258-260"]}
{"id": "C119", "title": "Draws from cumulative sums in double arithmetic", "statement": "With the cumulative sums computed in double precision as NumPy does: they never decrease and the j-th is off by at most j roundings; the Liu-West resampler finds for every draw in [0, 1) a particle of positive weight; ParticleDistribution.sample never returns a particle of weight zero; credible regions of any level below one exist; simulated outcomes have positive probability; and where this fails, the chance of a failing draw is at most the number of particles times the unit roundoff.", "quantifier": "all weight vectors of non-negative doubles, all draws, all levels, all numbers of particles", "why_tests_cant": "The failures need one of the largest of 2^53 possible draws together with weights whose rounded sum is below one; random tests practically never meet them.", "anchors": ["src/qinfer/resamplers.py:308-325", "src/qinfer/distributions.py:329-333", "src/qinfer/distributions.py:595-603", "src/qinfer/abstract_model.py:640-644", "src/qinfer/smc.py:300"]}
{"id": "C120", "title": "Rounding errors of Bayes updates", "statement": "In double arithmetic, with np.sum adding in whatever order: an update whose normalisation is at least machine epsilon gives weights that are doubles between 0 and 1, whose total is one up to the roundings of sum and division, so that they are never mistaken for an all-zero cloud; after n updates without underflow every weight agrees with the exact posterior weight up to 4n + d + 1 roundings (d the depth of the summation) and the recorded normalisation with the exact probability of the outcome up to 4n + 2d + 2; the effective sample size and the posterior mean have errors of d + 2 and d + 1 roundings; nothing underflows when likelihoods are bounded below and n is not too large.", "quantifier": "all models, clouds, data records of any length, all orders of summation", "why_tests_cant": "Error bounds for all inputs, all orders of summation and all lengths; tests compare single cases against tolerances chosen by hand.", "anchors": ["src/qinfer/smc.py:324-386", "src/qinfer/smc.py:388-457", "src/qinfer/distributions.py:299-307", "src/qinfer/distributions.py:337-348"]}
{"id": "C121", "title": "Smoothing a posterior marginal", "statement": "posterior_marginal with a positive smoothing argument replaces every value by a Gaussian average of the unsmoothed values whose standard deviation is the argument, in units of the parameter; non-negativity and the integral are kept, and smoothing <= 0 changes nothing.", "quantifier": "all particle sets, weights, resolutions, ranges and smoothing widths", "why_tests_cant": "The filter acts on grid steps and mirrors the samples at both ends; tests never look at smoothed values.", "anchors": ["src/qinfer/smc.py:672-716"]}
{"id": "C122", "title": "Means and covariances in double arithmetic", "statement": "The covariance matrix computed by particle_covariance_mtx in double arithmetic is symmetric and positive semidefinite, and every entry is within a few units in the last place of the exact covariance.", "quantifier": "all weights, all particle locations of any sign, all orders of summation", "why_tests_cant": "Cancellation between the second moment and the squared mean only shows for particular nearly equal particles; tests use well separated ones.", "anchors": ["src/qinfer/distributions.py:336-399", "src/qinfer/distributions.py:446-453", "src/qinfer/resamplers.py:283-295", "src/qinfer/utils.py:593-602"]}
{"id": "C123", "title": "More particles approach the exact posterior", "statement": "When the particles are independent draws from the prior and the data are processed without resampling, the chance that a posterior average (such as the mean) or the total likelihood reported by the updater differs from the exact Bayesian value by a given amount is at most a constant over the number of particles, so mean and covariance converge in probability.", "quantifier": "all models with bounded likelihoods, all priors, all records whose exact step probabilities are at least 2 eps, all numbers of particles", "why_tests_cant": "Convergence in probability over all draws cannot be observed from finitely many runs; tests use one seed and loose tolerances.", "anchors": ["src/qinfer/smc.py:123-178", "src/qinfer/smc.py:281-320", "src/qinfer/smc.py:324-457", "src/qinfer/distributions.py:337-399"]}
{"id": "C124", "title": "Likelihood and score arrays have the documented layout", "statement": "For the inversion, precession, unknown-T2, coin, noisy-coin, die, randomized-benchmarking, interleaved-benchmarking and tomography models, likelihood returns an array of shape (outcomes, models, experiments) whose entry [o, i, k] is the likelihood of outcome o for parameter row i and experiment k, whatever the three sizes; scores have shape (parameters, outcomes, models, experiments), Fisher information (parameters, parameters, models, experiments), the default time step (models, parameters, experiments); parameter arrays of the wrong width and empty outcome arrays are refused.", "quantifier": "all outcome, parameter and experiment arrays of any sizes", "why_tests_cant": "Transposes, missing axes and tiling in the wrong order are invisible when two of the sizes agree or when one of them is 1, which is what tests use.", "anchors": ["src/qinfer/abstract_model.py:430-570", "src/qinfer/test_models.py:60-400", "src/qinfer/rb.py:60-260", "src/qinfer/tomography/models.py:100-180"]}
{"id": "C125", "title": "Vectorised updater computations agree with the entrywise ones", "statement": "hypothetical_update, bayes_risk and expected_information_gain, executed on whole arrays by broadcasting, transposition, concatenation and axis sums, give for every outcome, experiment and particle the number that the one-at-a-time formula gives, for any model whose likelihood array has the documented layout.", "quantifier": "all particle sets, outcome lists and experiment lists", "why_tests_cant": "A sum over the wrong axis gives a correctly shaped result when sizes coincide; agreement at every index for every size is not testable.", "anchors": ["src/qinfer/smc.py:324-386", "src/qinfer/smc.py:560-663"]}
{"id": "C126", "title": "Derived models fill their likelihood arrays with the right law", "statement": "For any underlying model with the documented layout, BinomialModel's array holds binomial probabilities of the counts, MultinomialModel's multinomial probabilities (the last probability being what the others leave), GaussianHyperparameterizedModel's the two-component normal mixture; a probability outside [0, 1] or a non-positive variance raises AssertionError instead of returning an array.", "quantifier": "all underlying models, counts, parameter rows and experiment lists", "why_tests_cant": "The tile/transpose sequence is only exercised for a few sizes by tests, and NaN entries appear only for particular values.", "anchors": ["src/qinfer/derived_models.py:314-329", "src/qinfer/derived_models.py:446-483", "src/qinfer/derived_models.py:630-652"]}
{"id": "C127", "title": "An update looks at one outcome and one experiment", "statement": "update, given one outcome and one experiment, stores exactly the weights and normalisation of the entrywise update and stops exactly when their sum is at most the zero-weight threshold; given more, it uses the first outcome and first experiment only, and the zero-weight protection still applies to what is stored.", "quantifier": "all weights, likelihoods, numbers of outcomes and experiments", "why_tests_cant": "Tests call update with a single outcome and experiment; the silent loss of the protection needs two experiments of which the first is impossible.", "anchors": ["src/qinfer/smc.py:388-457"]}
{"id": "C128", "title": "Filtering with resampling converges to the exact posterior", "statement": "As the number of particles grows, whatever the resampling threshold and whenever resampling happens, an updater that resamples faithfully (the resampled cloud has weights 1/n, draws each location from the weighted cloud on average, and mean squared error of order 1/n) keeps its posterior averages, mean, covariance and estimated total likelihood converging in probability to the exact filtering posterior of the model and its time step; the chance of stopping early because of zero weight goes to zero. LiuWestResampler with a = 1, h = 0 is faithful; with a < 1 and h = 0 posterior averages need not converge.", "quantifier": "all bounded-likelihood models whose time step maps each particle deterministically, priors, data sequences, thresholds, bounded test functions, numbers of particles", "why_tests_cant": "The statement is about probabilities over all random draws and a limit in the number of particles.", "anchors": ["src/qinfer/smc.py:388-457", "src/qinfer/smc.py:459-530", "src/qinfer/resamplers.py:256-392"]}
{"id": "C129", "title": "The estimated total likelihood is right on average", "statement": "With any number of particles, and whenever resampling happens, the total likelihood estimated by an updater whose resampler is unbiased equals, on average over all runs, the exact probability of the data under the prior, up to at most machine epsilon times the largest possible likelihood of the remaining data for runs that end early (exactly when no likelihood is below machine epsilon); the same holds for posterior averages times the estimate, and the estimate exceeds k times the exact value with chance at most 1/k. LiuWestResampler with a = 1, h = 0 is unbiased; with a < 1, h = 0 the estimate is biased.", "quantifier": "all bounded-likelihood models with deterministic per-particle time steps, priors, data sequences, thresholds, numbers of particles", "why_tests_cant": "An average over all random draws; single runs always differ from the exact value.", "anchors": ["src/qinfer/smc.py:215-226", "src/qinfer/smc.py:388-457", "src/qinfer/resamplers.py:256-392"]}
{"id": "C130", "title": "Classes can be defined, instantiated and initialised", "statement": "Every class statement of the library is accepted; the order in which a class looks up attributes starts with the class, contains exactly its ancestors, keeps the listed order of bases and the order of every ancestor, and a statement is refused only if no such order exists. A class can be instantiated exactly if the first ancestor binding each name does not declare it abstract, so that every class that is not a base class or mixin can be instantiated, and a user's subclass can be exactly if it defines the documented methods. Creating a model runs the constructors that set up its counters once each.", "quantifier": "all class statements of the library, all programs extending it by further classes", "why_tests_cant": "Tests create the classes they know; a class that cannot be created, or a subclass with bases in another order, is simply not tried.", "anchors": ["src/qinfer/abstract_model.py:66-761", "src/qinfer/distributions.py:101-146", "src/qinfer/distributions.py:1168-1220", "src/qinfer/tomography/legacy.py:173-415", "src/qinfer/unstructured_models.py:57", "src/qinfer/derived_models.py:82-147"]}
{"id": "C131", "title": "Reports are calibrated and the mean is the best estimate", "statement": "If the true parameters are drawn like the particles and outcomes are drawn from the model, the reported credible region contains the truth with at least the announced probability at the end of any adaptively designed session; a particle is the truth, on any set of records, with conditional probability within the range of its reported weights; no estimate computed from the record has a smaller expected squared error than est_mean, whose expected error is the expected reported variance; longer sessions do not increase it; and bayes_risk is the least expected error that can be had after one more experiment.", "quantifier": "all models with normalised likelihoods, clouds, adaptive policies, stopping rules and session lengths in which nothing is resampled, all levels in [0,1), all estimates", "why_tests_cant": "Coverage is a statement about the average over all truths and records; a simulation checks one model, one design and a finite sample of records, and only approximately.", "anchors": ["src/qinfer/smc.py:395-520", "src/qinfer/smc.py:560-665", "src/qinfer/distributions.py:330-560"]}
{"id": "C132", "title": "Models receive the experiments their dtypes describe", "statement": "A stack of derived models holds at most one model that repeats measurements; its declared dtype is that of the base model, extended by n_meas; arrays of it can be created; every field looked up by the likelihoods on the way down exists; and the base model and the binomial model see experiment j as row j, for every model of the library. Field access is by name, so extra fields are harmless and missing ones are refused. rmfield removes exactly the named fields.", "quantifier": "all stacks the constructors accept, all base models of the library, all experiment arrays of the declared dtype", "why_tests_cant": "Tests use two or three stacks with one experiment each; a field that is missing or duplicated in another combination is found only by whoever builds that combination.", "anchors": ["src/qinfer/derived_models.py:75-77", "src/qinfer/derived_models.py:113-115", "src/qinfer/derived_models.py:238-329", "src/qinfer/derived_models.py:528-637", "src/qinfer/test_models.py:92-470", "src/qinfer/rb.py:140-200", "src/qinfer/tomography/models.py:134-237"]}
{"id": "C133", "title": "Announced information is gained, and no faster than outcomes allow", "statement": "If the truth is drawn like the particles and the data from the model, the entropy of the weights at the end of any adaptively designed session is, on average, the entropy at the start minus the information gains that expected_information_gain announced on the way. The gain of an experiment lies between zero and the logarithm of its number of outcomes, and is zero exactly if no possible outcome changes a weight; so n experiments of at most K outcomes lower the entropy by at most n ln K on average, and tell N equally weighted particles apart with probability at most K^n / N. A single outcome can raise the entropy.", "quantifier": "all models with normalised likelihoods, all adaptive policies and stopping rules, all numbers of experiments, all clouds without resampling", "why_tests_cant": "The claims are identities and bounds on averages over all records of all studies; runs sample a few records of one study and cannot show an exact identity or the absence of a faster policy.", "anchors": ["src/qinfer/smc.py:613-663", "src/qinfer/distributions.py:457-464", "src/qinfer/smc.py:392-470"]}
{"id": "C134", "title": "QuTiP is used exactly if a sufficient version is installed", "statement": "get_qutip_module returns the module exactly if its version number is not before the required one, comparing components as numbers from the left, and None otherwise; weaker requirements are met whenever stronger ones are; check_qutip_version never raises and is true exactly if get_qutip_module returns the module; require_qutip raises exactly if the module is not found", "quantifier": "all version strings, all required versions, all ways in which looking for the module can end", "why_tests_cant": "Tests see the one version that is installed; the order of all version numbers and the behaviour for odd version strings and broken installations cannot be enumerated.", "anchors": ["src/qinfer/utils.py:64-103", "src/qinfer/tomography/legacy.py:57-64", "src/qinfer/tomography/models.py:71-79"]}
{"id": "C135", "title": "A displayed basis can be read back", "statement": "The HTML display of a TomographyBasis (_repr_html_ with _format_complex_as_latex) is produced exactly if all displayed entries are finite or the dimension is above ten, its rows and cells are those of the matrices, each under its own label, and reading a cell gives back the real and imaginary part up to the tolerance, else to three decimals between 1/1000 and 1000 and to four significant figures elsewhere; integers are displayed as integers, also when they are missed by at most the tolerance.", "quantifier": "all bases (any list of complex matrices, dims and labels), all complex entries including infinities and NaN, all tolerances", "why_tests_cant": "There are no tests of the display; rounding carries, numbers just below an integer and entries outside the middle range are a continuum of cases.", "anchors": ["src/qinfer/tomography/bases.py:156", "src/qinfer/tomography/bases.py:165", "src/qinfer/tomography/bases.py:239"]}
{"id": "C136", "title": "A label names the element beside it", "statement": "Tomographic bases carry one label per element and no two alike: a text becomes numbered labels, tensor products join the labels of exactly the factors whose elements are multiplied, Pauli bases on n qubits have 4^n different labels; iterating gives the elements in order, indexing accepts integers from either end and nested lists; tomography models name one parameter per label.", "quantifier": "all label texts, all dimensions, any number of factors with any bases, all index positions, all nested index lists", "why_tests_cant": "The tests look at one- and two-qubit bases and never at labels; positions in products of any number of factors and arbitrary label texts cannot be enumerated.", "anchors": ["src/qinfer/tomography/bases.py:113", "src/qinfer/tomography/bases.py:137", "src/qinfer/tomography/bases.py:218", "src/qinfer/tomography/bases.py:280", "src/qinfer/tomography/models.py:124", "src/qinfer/tomography/plotting_tools.py:105"]}
{"id": "C137", "title": "The configuration is read as it was saved", "statement": "The configuration file is .config/qinfer.conf in the home directory on Unix-like platforms and qinfer.conf in the application data on Windows; asking for it makes the directories that lead to it and no others; after a successful save_config every read_config returns what was saved last, no other file is touched by any sequence of calls, reading changes no file, and without a file the configuration is empty; on other platforms both raise and change nothing.", "quantifier": "all platforms, environments, file systems and access rights, all parsers with any text format that can be read back, all sequences of calls", "why_tests_cant": "There are no tests of the module; file systems, access rights and sequences of calls cannot be enumerated, and tests would run on one platform only.", "anchors": ["src/qinfer/config.py:61-64", "src/qinfer/config.py:66-77", "src/qinfer/config.py:79-83", "src/qinfer/config.py:85-87"]}
{"id": "C138", "title": "Citing a paper changes nothing", "statement": "Importing the library succeeds whatever ordinary error occurs while the citation package duecredit is loaded, and then all its names are bound, either all to the package or all to stubs; a package that is not installed is not reported as an error; with the stubs every decorated function is the function itself, and for every class of the library and every class derived from it the same constructors run in the same order as if nothing had been decorated.", "quantifier": "all contents of the citation package and all errors it raises, all functions, all programs extending the library by further classes", "why_tests_cant": "Tests run in one environment, usually without the package, and cannot vary what a broken installation raises; constructors of classes that users derive are not enumerable.", "anchors": ["src/qinfer/_due.py:31-52", "src/qinfer/_due.py:54-67", "src/qinfer/utils.py:609-621", "src/qinfer/test_models.py:215-221", "src/qinfer/ale.py:87", "src/qinfer/rb.py:109", "src/qinfer/resamplers.py:207", "src/qinfer/tomography/distributions.py:226"]}
{"id": "C139", "title": "The helpers for particle statistics agree with ParticleDistribution", "statement": "particle_meanfn returns the weighted mean of every component of a function of the locations and particle_covariance_mtx the weighted covariance matrix, equal to the estimates of ParticleDistribution; for probability weights the matrix has no negative eigenvalue and no warning is given; arrays whose numbers of rows and weights differ are refused; outer_product returns the product of every pair of entries of a vector, a symmetric positive semidefinite matrix.", "quantifier": "all weights, locations, functions, shapes, numbers of parameters", "why_tests_cant": "Tests compare a few arrays numerically; positive semidefiniteness and the agreement hold for all weights and locations, and mismatching shapes are not tested.", "anchors": ["src/qinfer/utils.py:205-214", "src/qinfer/utils.py:216-232", "src/qinfer/utils.py:235-287", "src/qinfer/resamplers.py:139-144"]}
{"id": "C140", "title": "Enumerations number their names", "statement": "enum numbers its positional names from zero in the order given and gives keyword names the values given; each name is an attribute holding its value and nothing else is; reverse_mapping contains exactly the values in use and maps each to a name that has it, so that it inverts the attributes when values are distinct; ExperimentDesigner accepts exactly the codes of OptimizationAlgorithms and runs the algorithm of that name.", "quantifier": "all lists of names and keyword values, all value types with decidable equality, all integer codes", "why_tests_cant": "There are no tests of enum; names and values are unbounded, and coincidences (repeated names, equal values, the reserved name) are what breaks it.", "anchors": ["src/qinfer/_lib/enum.py:19-23", "src/qinfer/derived_models.py:146", "src/qinfer/expdesign.py:74", "src/qinfer/expdesign.py:238-241"]}
{"id": "C141", "title": "Rebit plots", "statement": "plot_rebit_prior and plot_rebit_posterior draw exactly the samples or particles, the true state, the means, the requested region, the unit circle, the axis names and the legend, and they succeed exactly if the palette has the colours used, the axes exist, and the true state is a table (for the posterior it must be given and the prior must have a mean). Every state of a qubit, hence every sample, the true state, the means and the hull of a cloud of states, is drawn inside the circle if the two axes are different and neither is that of the identity; in dimension d the squared radius is at most 2(1-1/d).", "quantifier": "All palettes, priors, clouds of particles with any weights, bases, axes, true states and regions", "why_tests_cant": "Figures are only inspected by eye; that all states land inside the circle is a statement on all density operators", "anchors": ["src/qinfer/tomography/plotting_tools.py:80-291"]}
{"id": "C142", "title": "Plots of an updater", "statement": "plot_covariance of all parameters or of any slice with nonzero step shows in row i and column j the covariance (or correlation) of the i-th and j-th selected parameter, with a tick for every row that carries the name of that parameter; slices select by Python's rule, in the order of the step. plot_posterior_marginal shows the marginal, the name of its parameter and the true value within unchanged limits, and plot_posterior_contour the mesh; they succeed exactly if indices, names, resolutions and true models fit. risk is the Bayes risk of the one experiment with the given value.", "quantifier": "All clouds, weights, names, slices with any bounds and steps, true models and resolutions", "why_tests_cant": "Figures are only inspected by eye and slices are only tried on a few bounds", "anchors": ["src/qinfer/smc.py:667-668", "src/qinfer/smc.py:718-790", "src/qinfer/smc.py:840-858"]}
{"id": "C143", "title": "The self-tests of models and domains accept exactly the ones with the documented shapes and members", "statement": "For every model, prior and list of experiments, test_model runs the tests of the model's class and reports whether they passed; a test of simulate_experiment, update_timestep, likelihood, score or Fisher information passes exactly if the result has the documented shape, every simulated outcome is in the domain of its own experiment, every updated parameter vector is valid, and score and likelihood asked for together or apart agree to within 0.0015; results with their axes permuted are rejected; the tested outcomes are the values of the first domain over and over; the tests of a domain pass exactly for domains with a finite member; and map_sync and map_async of the mock view give the results of the mapped function.", "quantifier": "all models, priors, experiments, draws and domains", "why_tests_cant": "the tests are themselves tests: no run of them on the shipped models tells what they would accept of any other model", "anchors": ["src/qinfer/tests/base_test.py:56-192", "src/qinfer/tests/base_test.py:276-480", "src/qinfer/tests/base_test.py:483-596", "src/qinfer/abstract_model.py:632-658"]}
{"id": "C144", "title": "A coin's posterior is the conjugate one", "statement": "If the particles reproduce the moments of a Beta(a, b) distribution over a coin's bias up to order D + n, then after any n single shots, in any order, they reproduce the moments of Beta(a + zeros, b + ones) up to order D, and the total likelihood is B(a + zeros, b + ones)/B(a, b); the reported mean and variance are those of the Beta distribution; counts through BinomialModel give the same posterior, with the beta-binomial probability as normalisation; and the Bayes risk of n further shots is q ab / ((a+b)(a+b+1)(a+b+n)), also for arrays of numbers of shots.", "quantifier": "For all clouds, Beta parameters, orders D, data sequences, counts and numbers of shots with evidence at least machine epsilon, and all update-step randomness", "why_tests_cant": "tests/test_metrics.py compares one cloud of 10000 random particles with the exact risk to three decimals for one prior and ten values of n; it cannot separate Monte Carlo error from a wrong formula.", "anchors": ["src/qinfer/smc.py:363-440", "src/qinfer/smc.py:551-603", "src/qinfer/test_models.py:306-346", "src/qinfer/derived_models.py:200-330", "src/qinfer/tests/test_metrics.py:40-79"]}
{"id": "C145", "title": "Outcomes that rule particles out", "statement": "When each likelihood is one value on some particles and zero on the rest and the weight starts evenly on some particles, the effective sample size after any updates is exactly the number of particles left, the total likelihood is the product of the values times the fraction left, min_n_ess is the smallest number left after any update, whatever resamplings came in between, and the resample count grows by one for each call of resample and for each checked update that leaves fewer than n_particles * resample_thresh.", "quantifier": "For all particle numbers, kept sets, likelihood values, histories of updates and resamplings, thresholds and resamplers that return equal weights", "why_tests_cant": "tests/test_smc.py decimates one cloud with one model at three settings; resampling and min_n_ess depend on the whole history.", "anchors": ["src/qinfer/smc.py:253-320", "src/qinfer/smc.py:388-457", "src/qinfer/tests/test_smc.py:55-160"]}
{"id": "C146", "title": "Approximate likelihoods move the posterior little", "statement": "If two updaters start from weights that agree up to a factor rho and see likelihoods that agree up to a factor kappa on each of n data, their posterior weights agree up to the factor K^2 with K = rho kappa^n, every posterior average of a quantity in [lo, hi], in particular each estimated mean, differs by at most (1 - K^-2)(hi - lo), the logarithms of the total likelihoods by at most ln rho + n ln kappa, and the effective sample sizes by a factor of at most K^4. Poisoned likelihoods with noise at most tau on values at least p0 > tau satisfy this with kappa = p0/(p0 - tau).", "quantifier": "For all clouds, models, data sequences, priors and perturbations, static models with evidence at least machine epsilon", "why_tests_cant": "The error compounds over the data; tests with random noise see one realisation and cannot bound the worst case over all perturbations and all data sequences.", "anchors": ["src/qinfer/smc.py:324-457", "src/qinfer/derived_models.py:130-220", "src/qinfer/distributions.py:401-409"]}
{"id": "C147", "title": "A die's posterior is the conjugate Dirichlet one", "statement": "If a cloud reproduces the moments of a Dirichlet(a_0..a_{K-1}) distribution over the K face probabilities of NDieModel up to order D + n, then after any n rolls, in any order, the updater's cloud reproduces the moments of Dirichlet(a_j + number of times face j came up) up to order D, and exp(log_total_likelihood) is the exact probability of the rolls; count vectors from MultinomialModel(NDieModel) give the same posterior with the Dirichlet-multinomial probabilities as normalisations; est_mean is a_j / A and est_covariance_mtx is (delta_ij a_i A - a_i a_j) / (A^2 (A+1)) with A the sum of the a_j; bayes_risk of one further roll is the sum of Q_j a_j (A - a_j) / (A (A+1)^2).", "quantifier": "every number of faces, prior parameters, cloud with those moments, sequence of rolls or count vectors (no predictive probability below machine epsilon), scale matrix", "why_tests_cant": "tests compare means to loose tolerances on one random cloud; the exact posterior holds for all data only by proof", "anchors": ["src/qinfer/test_models.py:405-472", "src/qinfer/derived_models.py:628-651", "src/qinfer/smc.py:388-456", "src/qinfer/smc.py:553-609"]}
{"id": "C148", "title": "The posterior depends on the cloud only through the distribution it represents", "statement": "If two clouds give every function of the parameters the same weighted average (for instance because particles were reordered, one was split into two at the same place, or weightless ones were dropped), then after any history of updates they still do, with the same normalization record and total likelihood, and they report the same est_mean, est_covariance_mtx, bayes_risk and expected_information_gain; more generally, if one model is the other expressed in new parameters g(x), the posterior cloud stays the image under g.", "quantifier": "every pair of clouds, model, change of parameters that commutes with the time step, data record without evidence below machine epsilon, scale matrix and outcome list with likelihoods summing to one", "why_tests_cant": "tests run one cloud in one order; independence of representation is a statement about all pairs of clouds and all data", "anchors": ["src/qinfer/smc.py:324-386", "src/qinfer/smc.py:388-456", "src/qinfer/smc.py:553-663", "src/qinfer/distributions.py:337-420"]}
{"id": "C149", "title": "Amplified updates approach the maximum likelihood estimate", "statement": "As likelihood_power grows, the mean of the posterior under MLEModel approaches the particle that maximises the likelihood of the data: the weight off the best particle is at most rho^power divided by its prior weight, where rho is the ratio of the second best likelihood of the record to the best, and the mean is within the spread of the particles times that.", "quantifier": "every model without time steps, cloud, data record with a single best particle of positive weight, power and tolerance", "why_tests_cant": "the documentation claims a limit; a test can only try finitely many powers", "anchors": ["src/qinfer/derived_models.py:681-703", "src/qinfer/smc.py:388-456", "src/qinfer/distributions.py:337-372"]}
{"id": "C150", "title": "The reported Fisher information bounds every estimator", "statement": "For any plan of experiments, also one that chooses each experiment from the outcomes before it, the variance of every statistic of the outcomes times the information that fisher_information reports in a direction, summed along the plan and averaged over its outcomes, is at least the squared rate at which the mean of the statistic changes in that direction; so an unbiased estimate of a coin's bias from N flips has variance at least p(1-p)/N (the frequency attains it), one of a precession frequency at least one over the expected sum of squared times, and averaged over a cloud the bound is the information that the BCRB updater averages over the particles.", "quantifier": "every model whose scores are the derivatives of its log-likelihoods, number of parameters, direction, adaptive plan of any depth and statistic", "why_tests_cant": "it is an inequality over all estimators and all adaptive plans", "anchors": ["src/qinfer/abstract_model.py:731-761", "src/qinfer/test_models.py:150-170", "src/qinfer/test_models.py:300-345", "src/qinfer/smc.py:1128-1155"]}
{"id": "C151", "title": "The Bayesian information bounds the mean squared error", "statement": "For a smooth prior density that vanishes at the ends of its interval, every estimate computed from the outcomes of any plan of experiments has a mean squared error, averaged over the prior, at least one over the Bayesian information: the average of the squared grad_log_pdf plus the average Fisher information collected. So the inverse of the number that SMCUpdaterBCRB reports for one parameter bounds the error of every estimator, up to the errors of its sample averages.", "quantifier": "every prior density, model whose scores are the derivatives of its log-likelihoods, adaptive plan or list of experiments, estimator, updater state and samples", "why_tests_cant": "a bound on all estimators, averaged over a continuous prior, cannot be sampled", "anchors": ["src/qinfer/smc.py:1090-1241", "src/qinfer/abstract_model.py:731-761"]}
{"id": "C152", "title": "Symmetric priors have symmetric means and covariances", "statement": "The qubit states drawn by HaarUniform and GinibreUniform from matrices whose law does not change under the Pauli, phase and Hadamard gates (complex normal entries, for instance) average to the completely mixed state, with uncorrelated coordinates of equal variance, one third for pure states; ConstrainedSumDistribution over exchangeable entries with positive totals gives every entry the mean desired / d, equal variances, and covariance - variance / (d - 1).", "quantifier": "every number of columns, every law of the drawn matrices with the stated invariance and non-zero trace, every QR decomposition with a normalised first column and non-zero leading entry; every dimension, desired total and exchangeable law with positive totals", "why_tests_cant": "Tests compare sample averages of a thousand draws to two digits; neither exactness nor the covariance is checked, nor other dimensions or totals.", "anchors": ["src/qinfer/distributions.py:1223-1301", "src/qinfer/distributions.py:1391-1417"]}
{"id": "C153", "title": "Data that no particle predicts", "statement": "If the relative frequencies of outcomes converge to anything at all, the posterior settles on the particles with the largest long-run log-likelihood, equivalently the least relative entropy of their predictions from the true outcome probabilities: the others' weights tend to zero, posterior averages tend to the value at the best particle, the log-odds of two particles change per datum by the difference of their fits, and the total log-likelihood per datum tends to the best fit. With a particle that predicts the truth this is the particle, and every particle told apart from it misses.", "quantifier": "all particle clouds of static models with likelihoods at least machine epsilon (normalised or not), all infinite data sequences with converging frequencies, all experiment schedules", "why_tests_cant": "Tests simulate data from the model itself for a few hundred experiments; misspecified models and limits cannot be tested.", "anchors": ["src/qinfer/smc.py:398-473", "src/qinfer/smc.py:216-226"]}
{"id": "C154", "title": "Learning does not depend on the units of the parameters", "statement": "If the likelihood, the dynamics, the prior, the resampler and the experiment design are converted to other units (or coordinates) of the parameters, every history of updater operations and every adaptive session gives the same weights, records, resampling times and exceptions, with locations converted. Mean and covariance convert as they should; SimpleInversionModel with the particle guess heuristic and the Liu-West resampler converts for every change of frequency unit, provided zero_cov_comp is converted as well: left alone, it breaks the equivalence.", "quantifier": "for all models, clouds, operation histories, unit factors k > 0, random numbers and numbers of experiments", "why_tests_cant": "Tests run one choice of units; equivalence of all sessions in all units is a relational property of infinitely many pairs of runs.", "anchors": ["src/qinfer/smc.py:381-530", "src/qinfer/resamplers.py:256-392", "src/qinfer/expdesign.py:203-225", "src/qinfer/test_models.py:111-148"]}
{"id": "C155", "title": "The particle guess heuristic distinguishes its two guesses equally well at every scale", "statement": "With SimpleInversionModel every experiment proposed by PGH measures at a particle for the inverse distance to another one; the first predicts outcome 0 with certainty and the second with probability cos^2(1/2). Of two particles the wrong one therefore loses weight on average by the factor cos(1/2) per experiment, however close they are. The Fisher information of the experiment is the inverse squared distance, on average over guesses at least P/(2 Var) for posterior variance Var and chance P of distinct particles. With three particles the heuristic may propose experiments that cannot tell two of them apart.", "quantifier": "for all clouds, weights, random numbers, distances, adaptive plans and numbers of experiments", "why_tests_cant": "Averages over all outcome sequences of adaptive experiments and all distances between particles cannot be enumerated.", "anchors": ["src/qinfer/expdesign.py:155-225", "src/qinfer/test_models.py:126-166", "src/qinfer/smc.py:381-470"]}
{"id": "C156", "title": "What the randomized benchmarking model describes, and when its parameters can be learned", "statement": "The likelihood of RandomizedBenchmarkingModel is the survival probability of a sequence of m unitary gates, each followed by depolarizing noise of strength p, and undone at the end, with scale A and offset B as documented for any preparation and measurement error; the interleaved likelihood is that of a further gate with its own noise of strength p-tilde. F and p convert between strength and average fidelity on every pure state. Three consecutive lengths identify a decay with A not 0 and p not 0 or 1, so that all other particles lose their weight and estimates converge; two lengths, or perfect gates, do not. A measurement finding the prepared state less often than the mixed one has a negative scale, which the model rejects.", "quantifier": "for all dimensions, gate sequences, noise strengths, states, measurements, Kraus operators, clouds and data", "why_tests_cant": "Quantum states, gates and sequences form a continuum and the limits are over infinite data.", "anchors": ["src/qinfer/rb.py:59-77", "src/qinfer/rb.py:81-247", "src/qinfer/smc.py:381-470"]}
{"id": "C157", "title": "Which experiments identify the parameters of each model", "statement": "With data as one particle predicts, every quantity that is constant on the particles the used experiments cannot tell from it is learned, and no data ever change the weight ratio of two particles that the used experiments cannot tell apart. One inversion experiment confuses exactly the frequencies mirrored at w_ or shifted by multiples of 2 pi/t; one precession time identifies frequencies within half a turn, but times with a common unit never identify a frequency among all; two inversion frequencies break the mirror symmetry; a time and its double identify frequency and decay of UnknownT2Model, one time does not; a noisy coin is identified unless alpha = beta; a die is identified by its faces; repetition identifies what single measurements do; tomography is identified by spanning measurements, and never along a direction orthogonal to all of them.", "quantifier": "for all particle clouds, times, frequencies, decay rates, dimensions, measurement sets and data", "why_tests_cant": "Identifiability is a statement about all pairs of parameters and all times; the limits are over infinite data.", "anchors": ["src/qinfer/test_models.py:126-148", "src/qinfer/test_models.py:190-200", "src/qinfer/test_models.py:247-259", "src/qinfer/test_models.py:390-401", "src/qinfer/test_models.py:465-472", "src/qinfer/derived_models.py:317-332", "src/qinfer/tomography/models.py:211-229", "src/qinfer/smc.py:381-470"]}
{"id": "C158", "title": "Comparing models and priors by their total likelihoods", "statement": "The difference of log_total_likelihood of two updaters on the same data is the logarithm of their Bayes factor. On data as the first one predicts, with adaptive experiments, the factor in favour of the second reaches exp(h) at any time with probability at most exp(-h), is one on average, and its logarithm is at most zero on average. On long data it grows exponentially at the rate by which the best particles differ in fit. Priors on the same particles that agree within factors a and b have evidences within these factors and posteriors within b/a, however many data there are, and the relative entropy between the posteriors is, on average over the data the first prior predicts, that of the priors less that of the predictions.", "quantifier": "for all models, particle clouds, priors, adaptive plans, numbers of experiments and stopping rules", "why_tests_cant": "Averages over all outcome sequences of adaptive experiments, with a maximum over stopping times, cannot be enumerated.", "anchors": ["src/qinfer/smc.py:215-226", "src/qinfer/smc.py:381-470"]}
{"id": "C159", "title": "What a notebook displays", "statement": "The display of an updater is a page with one table whose first row holds the parameter names and whose second row holds, in the same order, the posterior mean and standard deviation of each parameter to the digits that C101 guarantees; its bold words are the classes of the updater, the model and the models below it; the labelled number is the resample count. The display of a model shows its class, address and number of parameters with the right plural, and one list item for each model below it, innermost first. Names are not escaped (one containing < is read as markup), and the items of a chain are separated by a visible backslash and n instead of a line break.", "quantifier": "all weights forming a probability vector, locations, names, chains, parameter and resample counts", "why_tests_cant": "Tests look at sample pages; whether every page can be read back for all posteriors, names and chains is a statement about all inputs.", "anchors": ["src/qinfer/smc.py:862-906", "src/qinfer/abstract_model.py:199-216"]}
{"id": "C160", "title": "What an updater reports besides its posterior", "statement": "Tracking of resampling divergences, debug output and a failing clear_cache never change the posterior, the records, the counters or the exceptions of any history of operations. Without tracking there is never a list of divergences; with tracking the list only grows, by exactly one number per resampling that succeeds, while a resampling that fails is counted but leaves no number. The number is the divergence of the new particles from the kernel density estimate of the old ones with bandwidth 1/100 in the scale of the model, distorted by the terms that C78 names. Warnings are never withdrawn: with a proper model and nonnegative weights no history complains of negative weights; zero weights are reported exactly if the total is at or below the threshold and the policy is warn or reset; a repeated resampling only by resample or a bare check just after a resampling; a check of at most ten particles always complains that they are few.", "quantifier": "for all configurations, options, tracked states, operations and histories", "why_tests_cant": "Tests run few histories with one set of options; that reporting cannot influence inference, and which warnings can occur at all, are statements about every history", "anchors": ["src/qinfer/smc.py:149-168", "src/qinfer/smc.py:252-277", "src/qinfer/smc.py:388-457", "src/qinfer/smc.py:491-551"]}
{"id": "C161", "title": "Whose changes an updater sees, and whose changes its callers see", "statement": "The updater shares its arrays and its normalization record with its callers. Sharing makes no difference to the updater itself: over any history it sees the states of the model without sharing. An array it has given up is never written again and never comes back. The data record handed out is a copy that nobody else changes; the normalization record handed out is the updater's own for ever. An applied update overwrites the weights in the array callers hold, so weights kept from before an update are lost, whereas it gives up the array of the locations, which keeps them; resampling and a full reset give up both, and a reset of some parameters writes in place. Callers who write only into what was given up or into copies disturb nothing; whoever writes into the records changes neither the posterior nor the counters, then or later; writing into the weights or the normalization record does reach the updater.", "quantifier": "for all configurations, stores, histories of operations and interleavings with callers' writes", "why_tests_cant": "Aliasing shows only when a caller keeps a reference across particular operations; tests compare values at once and never interleave writes with histories", "anchors": ["src/qinfer/smc.py:193-262", "src/qinfer/smc.py:281-320", "src/qinfer/smc.py:388-457", "src/qinfer/smc.py:491-551"]}
{"id": "C162", "title": "Noise, coarser readings and discarded shots only destroy information", "statement": "If the outcomes of one experiment arise from those of another by reading them through noise that does not depend on the model parameters (any table of misreading probabilities, including merging outcomes and discarding shots), then for every particle cloud and every non-negative scale matrix diagonal its expected posterior loss is at least, and the information it is expected to give is at most, that of the other experiment; the numbers bayes_risk and expected_information_gain compute are in that order whenever all outcomes but the last are either impossible (for the risk) or have probability at least machine epsilon; and the Fisher information of the noisy outcomes is at most that of the others in every direction. In particular NoisyCoinModel never beats CoinModel, and BinomialModel with n shots never does worse than with m <= n shots. Noise whose strength is itself a parameter, as in UnknownT2Model, is not covered: it may reduce the risk.", "quantifier": "all models, channels, particle clouds, experiments, scale matrices, shot numbers", "why_tests_cant": "the inequality ranges over every misreading table and every particle cloud; tests evaluate single designs", "anchors": ["src/qinfer/smc.py:553-660", "src/qinfer/test_models.py:222-260", "src/qinfer/test_models.py:347-401", "src/qinfer/derived_models.py:222-330"]}
{"id": "C163", "title": "How often an updater resamples", "statement": "The resample threshold governs how often an updater resamples. At zero or below it never resamples unless told to, over any history; at no more than one over the number of particles it does not either, whatever the data, batches and zero-weight policy, as long as the cloud is not reset; above one it resamples after every update it can normalise. In between, if the likelihoods of the outcomes differ between particles by a factor of at most b/a and the resampler returns equal weights, a threshold of at most (a/b)^m lets it resample at most once in m+1 updates. Until the larger of two thresholds has made the updater resample, the smaller makes no difference to anything, so that the first resampling never comes earlier with a smaller threshold; but the number of resamplings in the end may be larger with the smaller threshold.", "quantifier": "all models, resamplers, priors, histories of public calls, data, thresholds", "why_tests_cant": "statements about every history and every likelihood within bounds; a test sees one run at one threshold", "anchors": ["src/qinfer/smc.py:123-178", "src/qinfer/smc.py:263-277", "src/qinfer/smc.py:388-551", "src/qinfer/distributions.py:299-307"]}
{"id": "C164", "title": "A posterior can be handed on as the prior of another updater", "statement": "An updater constructed with another updater as its prior starts from independent draws of the old particles with their weights as probabilities: as many equally weighted particles as asked for, all of them particles of positive weight of the old updater, so that what was ruled out never comes back, also after a reset. On average over the draws every cloud average is the old one, with mean squared error equal to the old posterior variance over the number of particles, and data are predicted as the old updater predicts them. After any further data whose probabilities are at least twice machine epsilon, the chance that the new updater's posterior average differs by h from the one the old updater would reach with the same data falls like one over the number of new particles; so means, covariances and total likelihoods of the two agree as closely and surely as wanted. In a chain of updaters, each learning from a block of data and then becoming the prior of the next, the product of the reported total likelihoods is on average exactly the probability the first cloud gives to all the data, whatever the numbers of particles, for models without time steps and likelihoods of at least machine epsilon; weighted with it, the last posterior averages are those of the first cloud.", "quantifier": "for all weighted clouds, particle numbers, data records, models with particle-wise time steps, functions bounded on the particles", "why_tests_cant": "tests draw a handful of clouds; a wrong sampling law or a lost posterior shows only in averages over all draws", "anchors": ["src/qinfer/smc.py:97", "src/qinfer/smc.py:123-178", "src/qinfer/smc.py:281-320", "src/qinfer/distributions.py:320-333"]}
{"id": "C165", "title": "Data simulated from an updater's own draws are what it predicts, and its posterior is the law of the truth", "statement": "If the truth is drawn from the updater itself and the outcomes are simulated from it with the model's own likelihood, experiments being chosen from the outcomes so far, then every record of outcomes occurs exactly as often as the updater's cloud predicts it. Updating on the record without resampling, the posterior cloud is then the distribution of the truth given the record: anything that depends on truth and record has the same average if averaged over the posterior first; on average over truths and data the posterior average is the prior one; and no estimator computed from the data has a smaller mean squared error than the posterior average, the excess being exactly its mean squared distance from it. The quadratic loss of the posterior mean, as a performance test reports it, is on average the posterior variance; and a region that always holds between a and b of the posterior contains the truth with a probability between a and b. Required are models without time steps with the outcomes 0 to n - 1 in every experiment, and records that are either impossible or have evidence of at least machine epsilon at every step.", "quantifier": "for all weighted clouds, numbers of experiments, policies choosing experiments from past outcomes, finite-outcome models, functions of the parameters and estimators", "why_tests_cant": "the claim is about averages over all truths and all simulated records; a mismatch between sampler, simulator and update biases results without raising any error", "anchors": ["src/qinfer/perf_testing.py:229", "src/qinfer/perf_testing.py:242-256", "src/qinfer/distributions.py:320-333", "src/qinfer/abstract_model.py:632-660", "src/qinfer/smc.py:388-457"]}
