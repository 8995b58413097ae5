{
"C01": {
"status": "proved",
"note": "Evidence at least machine epsilon (otherwise the code skips the renormalisation) and threshold below one are the hypotheses; the resample check is shown to be the only difference when it is enabled."
},
"C02": {
"status": "partial",
"note": "Proved for the policies error/skip/unknown with threshold >= machine epsilon, for every finite history with caught exceptions. The claim for ignore/warn/reset and for thresholds below machine epsilon is false of the code: refuted by witnesses."
},
"C03": {
"status": "proved",
"note": "Frame over all modelled attributes, array entries agree with single calls, and prediction equals what update installs."
},
"C04": {
"status": "proved",
"note": "Any history; each batch is replaced by the executed prefix of its plan."
},
"C05": {
"status": "proved",
"note": "Also covers models with a time step (likelihood along the path of each particle)."
},
"C06": {
"status": "proved",
"note": "Hypothesis 'regular' (evidence at least eps at every step, for both orders) expresses 'no zero-weight event'."
},
"C07": {
"status": "proved",
"note": "For every non-zero interval (negative included)."
},
"C08": {
"status": "partial",
"note": "All policies proved except 'reset', whose clause is false of the code: after re-sampling the prior the vanishing weights are written over the uniform ones (c08_reset_policy_partial says exactly what happens, c08_reset_policy_refuted gives the witness)."
},
"C09": {
"status": "proved",
"note": ""
},
"C10": {
"status": "partial",
"note": "The iff, the counter and the flag after update/resample are proved. 'Latest operation' read to include reset() is false: the flag is left set (c10_flag_after_reset_refuted)."
},
"C11": {
"status": "proved",
"note": ""
},
"C12": {
"status": "proved",
"note": "Policy 'reset' excluded (it draws a fresh cloud); time step must itself be permutation equivariant."
},
"C13": {
"status": "partial",
"note": "Equality and bounds proved when the last outcome of the domain has positive evidence and every other one either is impossible or has evidence at least eps. c13_any_evidence: with any other evidences the result misses the expected posterior loss by at most the total evidence of the outcomes below eps times the Q-weighted size of the cloud; c13_small_evidence_refuted shows that the miss is real. With an impossible last outcome the code returns NaN: refuted."
},
"C14": {
"status": "partial",
"note": "Equality and bounds proved for strictly positive weights and likelihoods; a zero product of weight and likelihood makes the code return NaN: refuted. c14_information_or_nan: the number is the mutual information exactly when all products are positive, NaN otherwise. Outcomes with evidence below machine epsilon are left unnormalised: c14_any_evidence bounds the shortfall by the sum of -p ln p over them and shows that the number never exceeds the mutual information; it can be negative (c14_negative_refuted)."
},
"C15": {
"status": "proved",
"note": ""
},
"C16": {
"status": "proved",
"note": "Draws are real numbers in [0,1); totality is also proved for weights that miss one."
},
"C17": {
"status": "proved",
"note": ""
},
"C18": {
"status": "partial",
"note": "Proved for 0 <= level < 1. At level 1 exactly the code indexes past the end: IndexError (refuted)."
},
"C19": {
"status": "proved",
"note": ""
},
"C20": {
"status": "partial",
"note": "Partition of the particles into clusters proved. The total-variance identity between clusters is false of the code (refuted); the single-cluster case is proved. c20_reported_total gives the exact total the code reports."
},
"C21": {
"status": "proved",
"note": "A non-finite square-root error raises ResamplerError, proved separately."
},
"C22": {
"status": "proved",
"note": ""
},
"C23": {
"status": "proved",
"note": ""
},
"C24": {
"status": "partial",
"note": "Mean and covariance proved for every non-zero covariance, with the converse. For a cloud of zero covariance the code adds zero_cov_comp, so the covariance is not preserved (refuted); its exact value is c24_zero_covariance_value."
},
"C25": {
"status": "partial",
"note": "False of the code (refuted by a two-particle witness): the retry uses the first remaining centres. Proved instead, for every rejection pattern: c25_rounds, the exact rule (round t, r-th open particle, r-th drawn ancestor); a first draw uses its own ancestor (c24_draw)."
},
"C28": {
"status": "partial",
"note": "Proved for all integer and infinite bounds; n_members is the list length exactly when max >= min-1. Reversed bounds give a negative n_members and fractional bounds are rounded towards zero (both refuted)."
},
"C29": {
"status": "partial",
"note": "Proved for factors given as separate arguments and non-empty factors. One list argument raises AttributeError, an empty factor makes values raise ValueError (both refuted)."
},
"C30": {
"status": "proved",
"note": "n_members is modelled with exact binomials, not scipy's float binom."
},
"C43": {
"status": "partial",
"note": "Both round trips proved for non-empty arrays; an array without elements joins but separating it raises ValueError (refuted)."
},
"C26": {
"status": "partial",
"note": "Proved for the standard domain 0..n-1: the returned outcome is the inverse-CDF image of the draw, each outcome's set of draws is an interval of length Pr(d), impossible outcomes never occur. Refuted for other domains (domain.values is indexed by values already taken from domain.values, so {1,2} reports 2 or raises IndexError) and for models with a varying number of outcomes (AttributeError)."
},
"C27": {
"status": "partial",
"note": "Proved: counts equal the requested totals for every call history of a stack whose layers forward calls one to one. Refuted: MLE likelihood calls are not counted, BinomialModel simulations are not counted, repeat is ignored by GaussianHyperparameterized and Multinomial models, and the UnknownT2 and noisy coin bases do not count."
},
"C42": {
"status": "partial",
"note": "Chain, base, underlying model, pass-through of outcomes/validity and parameter count proved for every stack. The claim that constant outcome count is inherited honestly is refuted (the derived class does not forward the property), with a positive theorem for stacks whose wrappers do."
},
"C31": {
"status": "proved",
"note": "All eight models, plus the die; the experiment-range hypothesis is only needed for t >= 0 (unknown T2) and alpha, beta in [0,1] (noisy coin)."
},
"C38": {
"status": "proved",
"note": "Both conversions, decay and bounds for the plain and the interleaved protocol, perfect gate."
},
"C39": {
"status": "partial",
"note": "Proved for inversion, precession, coin with 0<p<1 and all components of plain and interleaved benchmarking; expectation zero proved for inversion, precession, coin and both kinds of benchmarking. Refuted for the coin at p=0 (p=1): likelihood one but score NaN."
},
"C40": {
"status": "proved",
"note": "Quadratic form identity, symmetry, positive semidefiniteness, binomial factor; n_meas times the single-shot matrix is the Fisher information of the count distribution itself (c40_counts)."
},
"C41": {
"status": "proved",
"note": "Both distances; the exact separation hypothesis is shown necessary."
},
"C32": {
"status": "partial",
"note": "Proved in full for the likelihood (sum over shot records, distribution, single shot, construction over stand-alone models). Refuted: wrapping a powered binomial model raises TypeError instead of ValueError."
},
"C33": {
"status": "proved",
"note": "Likelihood equals the total mass of all records with the given counts; the sum is taken over the model's own outcome domain enumeration."
},
"C34": {
"status": "partial",
"note": "Range and perturbation bound proved in both modes. Refuted: the constructor never raises (both arguments: tol wins; neither: first likelihood call raises TypeError)."
},
"C35": {
"status": "proved",
"note": "Order, zeros, power one and, in the SMC updater model, p updates equal one update of power p."
},
"C36": {
"status": "partial",
"note": "Proved for selections without negative indices and no (or a coordinatewise, inverted) transformation. Refuted: a negative index can slip through and walk another parameter; a mixing transformation moves undeclared parameters; a size mismatch raises AttributeError."
},
"C37": {
"status": "partial",
"note": "Refuted: the density omits the factor 1/sigma of each component (and this changes posteriors). Proved: exact relation to the mixture density, equality for unit variances, rejection of non-positive variances."
},
"C47": {
"status": "partial",
"note": "Proved whenever N + 2h > 0; N = h = 0 gives 0/0 (refuted there)."
},
"C44": {
"status": "proved",
"note": "All lengths, all real vectors; also the origin maps to the uniform vector. numpy's removed alias np.float in from_simplex is read as float."
},
"C45": {
"status": "proved",
"note": "Strings are modelled; a separate reader recovers the fields. Decimal seconds are rounded to nearest with ties up (Python: to even)."
},
"C46": {
"status": "proved",
"note": "For element types whose == is equality and which are hashable."
},
"C48": {
"status": "proved",
"note": "Proved for every list of ranges, row number and draw in [0,1): each coordinate is low + draw*(high-low), lies in [low, high] (strictly below high when low < high) and equals low at draw 0. The constructor takes one pair or a list of rows and raises IndexError on a row shorter than two. The upper edge is not reached because NumPy draws are below 1."
},
"C49": {
"status": "partial",
"note": "Proved by induction over arbitrarily nested documented distributions for n > 0: the shape is (n, n_rvs) or postselection raised RuntimeError; products concatenate factor rows; mixtures are a permutation of component blocks whose sizes sum to n. Refuted: DiscreteUniformDistribution.sample returns shape (n,) (so products of them are one-index arrays of all draws in sequence), and MixtureDistribution.sample(0) raises ValueError. The mixture constructor's parametrised form (one class plus dist_args) is treated in C117."
},
"C50": {
"status": "proved",
"note": "Proved for every stream of answers of the wrapped distribution, every validity predicate, n and maxiters: success returns for each index its first valid proposal; RuntimeError happens exactly when some index has no valid proposal after maxiters rounds; also stated for the class wrapping any documented distribution."
},
"C51": {
"status": "partial",
"note": "Proved for positive totals. Refuted for every negative total: the factor sign(total) makes the row sum to minus desired_total. A zero total gives NaN."
},
"C52": {
"status": "proved",
"note": "Beta-binomial moments are proved from the finite outcome sums (Vandermonde and absorption identities). Beta and gamma moments are compared with the textbook moment formulas (ratios of rising factorials), which are specification, not derived from the densities. Admissibility conditions are stated; a beta-binomial with one trial has no inverse, which is shown."
},
"C53": {
"status": "partial",
"note": "Refuted: the class samples mu + sigma*exp(z). It equals exp(mu + sigma z) for all z exactly when mu = 0 and sigma = 1."
},
"C54": {
"status": "proved",
"note": "Proved for every distance function with non-negative finite values, every draw stream, dtype and option. RuntimeError exactly when all maxiters pairs are at distance 0. Side findings, also proved: fields neither set by the heuristic nor by other_fields are uninitialised memory; a scalar inversion field refuses particles with several parameters; maxiters = 0 raises UnboundLocalError."
},
"C55": {
"status": "partial",
"note": "Proved for histories of any length and for a named time field with other_fields given. Refuted: a time field with the default other_fields=None raises AttributeError."
},
"C56": {
"status": "partial",
"note": "Proved for histories of any length with CG and NELDER_MEAD when the optimizer reports the objective at its point and no value is NaN. Refuted for NULL (no cost is ever stored, so the last guess wins), for NCG after the flat-gradient fallback (TypeError in Python 3), and after a NaN cost (never replaced). Callable guesses always raise TypeError, Heuristic guesses NotImplementedError. SciPy's optimizers are replies supplied from outside."
},
"C71": {
"status": "proved",
"note": "np.random.choice is modelled by its documented algorithm (checks, cumulative sum, right search)."
},
"C57": {
"status": "proved",
"note": "Proved for every entrywise serial likelihood (the Model interface: entry (o, m, e) depends only on o, m, e), every engine count of at least one, threshold, array and completion order. An engine that never delivers makes the call fail (c57_lost_engine); pickling is not modelled."
},
"C58": {
"status": "partial",
"note": "Proved on the serial branch and for one engine. Refuted for two or more engines: results are concatenated along axis 0 (models) or axis 1 (experiments), one axis too low, so the shape is wrong for every input that does not raise, and unequal chunks raise ValueError."
},
"C59": {
"status": "proved",
"note": "Proved for every schedule that runs each work item once and every initial buffer content. Reals replace float32."
},
"C60": {
"status": "proved",
"note": "Every dimension d >= 1; the program's plane assignments are modelled in order and their index arithmetic proved to hit every plane exactly once. Dimension 0 raises IndexError."
},
"C61": {
"status": "proved",
"note": "Any non-empty list of tomographic factors; pauli_basis(n) for every n >= 1 (n = 0 raises TypeError). c61_tensor_distribution_refuted: TensorProductDistribution passes a generator and its constructor always raises AttributeError."
},
"C62": {
"status": "proved",
"note": "Round trips and Born rule for every basis meeting the stated hypotheses; also the covariance superoperator."
},
"C63": {
"status": "proved",
"note": "Unit trace for any eigensolver output, for calls that return; positivity, fixed points and acceptance assume the eigensolver returns a unitary eigendecomposition of Hermitian input (np.linalg.eig does not promise orthogonal vectors for degenerate eigenvalues). Noise is one real draw per model and parameter."
},
"C64": {
"status": "partial",
"note": "Mean and positivity proved for minimal eigenvalue strictly between 0 and 1/d, for any law of the fiducial state with mean I/d and any independent law of the damping with the Beta(1,beta) mean (c64_mean_of_any_law), in particular for the Beta(1,beta) law itself as an integral over its quantile function (c64_beta_law, c64_beta_mean, c64_mean_beta_draws); every sample is a density operator. Refuted: the maximally mixed mean gives NaN, and rank-deficient means raise ValueError on sampling."
},
"C65": {
"status": "partial",
"note": "Termination and the probability property hold when 1 <= samp_step <= min_samp (as integers); refuted otherwise: the constructor accepts samp_step > min_samp (all-ones data make the estimate exceed one, the error NaN, and the loop endless) and samp_step in (0,1), truncated to 0."
},
"C66": {
"status": "proved",
"note": "Exact for FiniteDifference.central and ScoreMixin.score (log-derivative); a zero step gives NaN (shown)."
},
"C67": {
"status": "partial",
"note": "Refuted: the setter assigns its own property and always ends in RecursionError; the constructor argument can be read back."
},
"C68": {
"status": "partial",
"note": "Partition, heaviest-first, good mass above the mixture ratio, min_good and Bayes form proved for every argsort and shuffle; refuted in that the method raises AssertionError exactly when every particle is good (mixture_ratio >= 1, or one particle)."
},
"C69": {
"status": "partial",
"note": "Additivity, order independence, adaptive matrix, monotonicity proved; privacy refuted (initial_bim is stored by reference and mutated; an integer array makes every update a TypeError); resample_a is silently dropped."
},
"C70": {
"status": "partial",
"note": "Row contents proved for every successful run; error policy restored whenever the call returns, refuted when a trial fails without allow_failures."
},
"C72": {
"status": "partial",
"note": "N = min_samp + (r-1) samp_step proved; equals the r*samp_step samples drawn iff min_samp = samp_step; otherwise refuted with a witness."
},
"C73": {
"status": "proved",
"note": "One evaluation per success, no caching of failures."
},
"C74": {
"status": "proved",
"note": "For all spanning clouds and inverse routines: weights stay a distribution, no failure, the loop stops for every positive tolerance, the result encloses every point up to an explicit slack that tends to 1, and no enclosing ellipsoid is smaller, so the volume is minimal up to that slack. Exact enclosure at the default tolerance is false (c74_exact_enclosure_refuted); the claim speaks of the tolerance."
},
"C75": {
"status": "partial",
"note": "All three tests characterised; la.inv, Delaunay and chi2.ppf by their contracts. Refuted: documented orientation of the returned matrix, unknown method strings, level with zero quantile, one-parameter distributions."
},
"C76": {
"status": "proved",
"note": "Mass and convexity under the Delaunay contract; the ellipsoid statement carries the tolerance slack of C74."
},
"C77": {
"status": "partial",
"note": "Value and metric laws proved when the first argument is an updater. Refuted when only the second argument carries the model: Q is then ignored."
},
"C78": {
"status": "partial",
"note": "Holds for bandwidth one. In general the code differs from the divergence by a proved closed-form term; refuted for the default bandwidth 1/100 and Gaussian kernel."
},
"C79": {
"status": "partial",
"note": "Equally spaced points, non-negativity and trapezoid integral proved for every range whose doubled upper end covers the particles, every value pinned down as a difference quotient of the piecewise linear distribution function; normalised on a range strictly containing the particles. Refuted for the default range (weight at the smallest location is lost) and for coinciding particles (NaN). Smoothing is C121."
},
"C80": {
"status": "partial",
"note": "Exact value of every entry proved; the documented orientation is refuted (square meshes are transposed, only the diagonal is right)."
},
"C81": {
"status": "partial",
"note": "Metric lies in the unit interval for positive total. Refuted: it is not the explained share of the particle variance, because cluster moments use un-normalised weights, and zero variance silently gives NaN."
},
"C82": {
"status": "proved",
"note": "Zero weights are covered separately: infinite or NaN distances."
},
"C83": {
"status": "proved",
"note": "P is arbitrary; time-step hypothesis is needed because smc.py does not canonicalise after update_timestep. only_params resets canonicalise only the selected columns and are excluded."
},
"C84": {
"status": "proved",
"note": "Counter is the base class call_count of the updated model, advanced by Model.likelihood."
},
"C85": {
"status": "proved",
"note": "With both bounds at +inf the only member is infinite and the example point 0 is outside: c85_example_point_refuted."
},
"C86": {
"status": "proved",
"note": "Cholesky correctness and unit-covariance noise are hypotheses (external numerics)"
},
"C87": {
"status": "proved",
"note": "moments of the underlying unit draws are hypotheses"
},
"C88": {
"status": "partial",
"note": "multinomial n_outcomes refuted (NameError)"
},
"C89": {
"status": "proved",
"note": "floating-point rounding not modelled"
},
"C90": {
"status": "partial",
"note": "HilbertSchmidtUniform cannot be instantiated and GinibreReditDistribution does not check its rank (refuted)"
},
"C91": {
"status": "partial",
"note": "the coordinate in compactspace's docstring is the logistic density, which takes every value twice, while the grid is equally spaced in the logistic CDF (c91_documented_coordinate_refuted)"
},
"C92": {
"status": "partial",
"note": "UniformDistribution returns 12/width^2 in another shape for a batch of one model (c92_uniform_single_refuted); everything else proved"
},
"C93": {
"status": "proved",
"note": "QuTiP eigenvectors are arbitrary unit vectors; random choices are arguments; conversion of the operator list by np.random.choice is not modelled"
},
"C94": {
"status": "proved",
"note": "floating-point rounding not modelled"
},
"C95": {
"status": "partial",
"note": "ProductHeuristic with RandomPauliHeuristic always raises ValueError because that class takes its dimension from the channel model (c95_product_pauli_refuted); preparation enters transposed"
},
"C96": {
"status": "partial",
"note": "with DiffusiveTomographyModel every call raises ValueError (c96_diffusive_refuted); k = 0 raises"
},
"C97": {
"status": "partial",
"note": "a dtype given as a string (which scalar models of the package declare) or as an np.dtype record makes the call fail (c97_string_dtype_refuted, c97_record_dtype_refuted); negative numbers cast to unsigned are not modelled faithfully"
},
"C98": {
"status": "partial",
"note": "closed form for runs without a resampling step, otherwise one update per datum in order (c98_one_datum_at_a_time); freq_min does not bound the estimate (c98_freq_min_refuted); a text of one line raises IndexError (c98_single_line_refuted)"
},
"C99": {
"status": "partial",
"note": "Counts, law, domain and agreement with the likelihood proved for all inputs. Refuted: the documented tuple sizes always end in ValueError."
},
"C100": {
"status": "partial",
"note": "Readings and noise across models and experiments proved. Refuted: all repetitions share one normal draw."
},
"C101": {
"status": "partial",
"note": "Error bounds, exactness and typesetting proved where they hold; for ordinary values the printed uncertainty vanishes in part of every decade (c101_uncertainty_vanishes, c101_digits_refuted), negative or two-digit exponents are not typeset (c101_typeset_refuted), and zero uncertainty prints six decimals only (c101_exact_number_refuted)."
},
"C102": {
"status": "partial",
"note": "Exact condition proved for positive references and zero; the announced bound of half a unit is refuted, and negative references agree with everything (c102_negative_refuted)."
},
"C103": {
"status": "proved",
"note": "Updates without resample check, evidence at least machine epsilon at every step, static models (update_timestep is the identity)."
},
"C104": {
"status": "proved",
"note": "Updates without resample check; a data record of positive predicted probability must keep the evidence above machine epsilon at each step. Mean and covariance for static models, weights also for drifting particles."
},
"C105": {
"status": "proved",
"note": "Without resampling, static models, likelihoods bounded below by machine epsilon on the possible outcomes, the true particle being one of the cloud."
},
"C106": {
"status": "partial",
"note": "The likelihood formula, its range, the entry-by-entry meaning of the simulation and its limiting law are proved. The claim itself is false: simulation picks the first state with probability (1+lam)/2 while the likelihood uses lam; c106_agreement gives the exact condition for agreement and c106_simulation_refuted a witness. The uniform variate is modelled as equally spaced and the integer as equiprobable. random_integers and the choice of state are as in the code; HTCircuitModel cannot be instantiated (C107)."
},
"C107": {
"status": "partial",
"note": "Born rule and range proved for one experiment (qubit), formula for rebit and multi-qubit, shape for multi-qubit. False in general: several experiments pair up or raise ValueError for the qubit model, the rebit model ignores visibility, the classes leave abstract methods open so none can be instantiated, and pr0_to_likelihood_array is not an attribute of Model."
},
"C108": {
"status": "proved",
"note": "For every dimension. eigh enters through its contract (orthonormal complete eigenvectors); positivity needs no contract. check_finite and rounding are not modelled."
},
"C109": {
"status": "proved",
"note": "Volume is characterised by Cavalieri's principle (slices along the first coordinate, integral by antiderivatives) and the value 1 in dimension 0. Contracts: gamma at half-integers, det of the principal root is the root of the elimination determinant (c109_contracts derives it from multiplicativity), la.inv."
},
"C110": {
"status": "proved",
"note": "Static particles, canonicalisation that does nothing, every outcome either impossible or at least machine epsilon likely, all proposals accepted in the first pass (postselection that rejects would bias). A uniform number enters only through the slot of the weights it falls into; the Riemann integral is shown to be such a law. c110_resampled_covariance shows that the cloud's own covariance shrinks by 1 - 1/n on average (the documented preservation holds for the law of a new particle, C24)."
},
"C111": {
"status": "proved",
"note": "Records of regular updates (the zero-weight branches not taken), no resampling in between; candidates are distributions on particles that had prior weight and positive likelihood of the record."
},
"C112": {
"status": "proved",
"note": "Levels below one (C18 shows the code fails at level one); ties among weights are covered since any ascending argsort is allowed."
},
"C113": {
"status": "partial",
"note": "An axis of length zero breaks alignment (c113_empty_axis_refuted: [-0:] keeps everything); c113_one_index ties the array model to the one-index form used in the performance loop (C70)."
},
"C114": {
"status": "proved",
"note": "NumPy's rule that record field names are distinct is part of the model; c114_failed_block_refuted: a block that raises never stops its timer."
},
"C115": {
"status": "proved",
"note": "Creating the bar is assumed to succeed. c115_full_bar_refuted: the bar never reaches its maximum; c115_broken_bar_masks_refuted: a bar that fails masks successful trials."
},
"C116": {
"status": "proved",
"note": "The eigensolver is an arbitrary orthonormal eigendecomposition; signed zeros of arctan2 are not distinguished; colours and labels are left out. Also proved: with the Gell-Mann basis the default axes show the Z and X coordinates of rebits, filling the drawn circle; with the Pauli basis they do not show Z (c116_default_axes_pauli_refuted)."
},
"C117": {
"status": "partial",
"note": "c117_no_positional_arguments_refuted: the documented None for classes without positional arguments always raises AttributeError. c117_law and c117_rows_independent give the law for all components that draw their rows one by one (c117_one_by_one: every documented one except postselected ones, nested mixtures and DiscreteUniform), over component laws with finitely many values"
},
"C118": {
"status": "proved",
"note": "Assumes updates without resampling and, as in C104/C105, that no record possible under the truth meets an evidence below the zero threshold; with moving particles (timestep) unless stated static."
},
"C119": {
"status": "partial",
"note": "Refuted as stated: with ten weights 1/10 and the largest draw 1 - 2^-53 the Liu-West resampler raises IndexError, sample can return a last particle of weight zero, a credible level of 1 - 2^-53 raises IndexError, and the simulator returns an impossible first outcome (c119_*_refuted). Proved: order and error of cumulative sums, correct behaviour for every draw below the last cumulative sum, and the chance of the other draws. Overflow not modelled."
},
"C120": {
"status": "proved",
"note": "Likelihood values are taken as the model returns them; overflow not modelled; c120_run and c120_normalisation assume no underflow (sufficient condition: c120_no_underflow) and no resampling."
},
"C121": {
"status": "partial",
"note": "Proved for every input: an average over a Gaussian of standard deviation smoothing*res/(res-1) (mirrored at the ends, cut off after about four standard deviations), non-negative, with the same sum over the grid, within the range of the plain values and with no larger sum of squares; tiny widths and widths <= 0 change nothing. Refuted: the documented width (off by the factor res/(res-1)) and conservation of the trapezoid integral (it changes by the end values, exact formula proved). A range of length zero raises OverflowError. scipy.ndimage.gaussian_filter1d is modelled from its documentation."
},
"C122": {
"status": "partial",
"note": "Error bound for every entry, any signs and any order of summation, relative to the second moments; a computed variance is never below minus that error; a single particle has covariance exactly zero. Refuted: particles 1 and 1+3/2^52 have computed variance -2^-52 (warning, NaN correlation, and a Liu-West step without any noise), and the matrix is not symmetric for two particles with weights 3/4 and 1/4. No overflow, no fused multiply-add."
},
"C123": {
"status": "proved",
"note": "Explicit constants (relative spread of the likelihoods of the prefixes of the record) and rate one over the number of particles. Chances are values of a positive linear functional on bounded functions of the draws with pairwise independent particles; c123_finite_priors builds it for every prior with finitely many values. Particles may move one by one between data. Runs that meet the zero-weight rules are part of the bound. No resampling (C110 covers its unbiasedness)."
},
"C124": {
"status": "partial",
"note": "Exact arithmetic on shape/index arrays (Nd.v). The die needs outcomes in 0..d-1 and the tomography model measurement vectors of the model's dimension. c124_width_check_refuted records the one hole in the shape checks: SimpleInversionModel accepts a parameter array with one column per experiment and pairs column k with experiment k."
},
"C125": {
"status": "proved",
"note": "For any like_arr meeting the documented layout (C124 shows the built-in models do). Risk and information gain need at least two outcomes, as the last one is obtained by subtraction; agreement is with SmcModel.hypothetical_update and RiskModel.bayes_risk1/eig1."
},
"C126": {
"status": "proved",
"note": "For any underlying likelihood array with the documented layout. scipy's binomial pmf, gammaln and normal pdf are taken to be exact. c126_*_invalid are the assertion failures."
},
"C127": {
"status": "partial",
"note": "Full statement false: c127_zero_weight_test_refuted shows that with several outcomes or experiments the zero-weight test sums over all of them, so a first pair impossible for every particle passes and all-zero weights are stored. c127_first_outcome_first_experiment is the exact behaviour, c127_single_update the documented use."
},
"C128": {
"status": "proved",
"note": "error bound and convergence for every faithful resampler, Liu-West with a = 1, h = 0 shown faithful; c128_shrinking_refuted: with a = 0.98, h = 0 averages do not converge. Time steps are deterministic per particle; random draws enter as abstract expectation functionals (Riemann integral for the uniform)."
},
"C129": {
"status": "proved",
"note": "for every unbiased and faithful resampler and any number of particles; Liu-West with a = 1, h = 0 shown unbiased; c129_shrinking_refuted: strictly biased with a = 0.98, h = 0. Random draws enter as abstract expectation functionals."
},
"C130": {
"status": "partial",
"note": "Six exported or documented classes cannot be instantiated (c130_library_refuted): HilbertSchmidtUniform, four legacy tomography models, UnstructuredFrequencyModel. Everything else is proved, for all programs extending the library. What constructors do besides continuing to other constructors, and their arguments, are not part of this model."
},
"C131": {
"status": "proved",
"note": "The truth is drawn from the initial cloud with its weights; nothing is resampled and no warning or error arises on a possible record (study). c131_longer_studies_are_better takes particles that do not move between experiments, c131_risk_is_least_error the conditions under which bayes_risk is exact (C13)."
},
"C132": {
"status": "partial",
"note": "Proved as stated, except that MultinomialModel's likelihood does not look at n_meas at all (c132_multinomial_ignores_n_meas_refuted), and that a base model with a field n_meas of its own gives a dtype of which no array can be created, which the constructor does not notice (c132_clash_refuted). NumPy's behaviour on assigning records to a number field (ValueError) is the one test_models.py:188-196 expects; newer versions raise TypeError."
},
"C133": {
"status": "proved",
"note": "Exact real arithmetic, no resampling. The identity with the reported gains needs likelihoods of at least machine epsilon (below that expected_information_gain reports non-finite numbers, see C14); the identity with the mutual information does not. c133_surprises_refuted shows that monotone entropy per update is false."
},
"C134": {
"status": "partial",
"note": "Version strings are ASCII; LooseVersion is modelled from its documented regular expression. Proved for dotted version numbers; refuted beyond them: release candidates pass (c134_candidate_refuted), trailing zeros matter, numbers against letters raise TypeError out of get_qutip_module, without distutils nothing is found, the message of require_qutip names a version that fails, and heisenberg_weyl_operators of tomography/models.py always raises."
},
"C135": {
"status": "partial",
"note": "The claim about integers missed by at most the tolerance is false on one side: int() truncates, so 1 - 5e-11 is displayed as 1.000 (c135_integers_refuted; c135_integers for the other side). Three decimals are not significant figures: 0.0014 is displayed as 0.001 (c135_significant_refuted). A negative imaginary part is displayed with both signs, 'a + -b i' (c135_signs). The reader of numbers and matrices is written in LtxSpec.v without the printer. Numbers are exact reals or infinities/NaN; negative zero is not distinguished."
},
"C136": {
"status": "partial",
"note": "Exceptions found and proved: a label text with a braced name (ordinary LaTeX) makes the constructor raise KeyError (c136_braces_refuted); subscripts carry no braces, so typeset only the first ten numbers are subscripts (c136_subscript_refuted); labels that contain a tensor sign themselves can collide (c136_tensor_distinct_refuted); the Pauli labels name matrices sqrt(2) times the elements (c136_scale_refuted); the default axes of rebit plots are labelled sigma_x and sigma_y (c136_rebit_axes_refuted). A text with a replacement field of its own raises IndexError (c136_field_refuted). Dimensions multiply and every tensor product iterates over all its elements. str.format is modelled for one positional argument with empty, named and doubled braces. The Qobj constructor called by __getitem__ is not modelled."
},
"C137": {
"status": "partial",
"note": "Exceptions found and proved: SafeConfigParser is gone since Python 3.12, so that read_config always raises there (c137_modern_python_refuted); an unreadable file counts as empty (c137_unreadable_refuted); a failure while writing has already emptied the file (c137_failed_save_refuted); reading makes the directory (c137_reading_makes_directory_refuted); a file called .config makes reading find nothing and saving fail (c137_file_in_the_way_refuted); without APPDATA the file goes to a directory of that literal name (c137_no_appdata_refuted). Path names are compared as strings; drives, links and dots are not modelled."
},
"C138": {
"status": "partial",
"note": "Exceptions found and proved: since Python 3.6 a missing package raises ModuleNotFoundError, whose name is not ImportError, so that every import logs an error (c138_absent_refuted); decorate_init gives UnknownT2Model the constructor of FiniteOutcomeModel as its own, so that with multiple inheritance a constructor that comes between the two is skipped (c138_skipped_refuted, c138_mixin). Classes derived by single inheritance, and all others without such a constructor, are covered. KeyboardInterrupt and the like are passed on (c138_interrupt)."
},
"C139": {
"status": "partial",
"note": "Exceptions found and proved: a single weight, or a table with a single row, is stretched to the other's length instead of being refused (c139_stretched_refuted); weights that do not add up to one cause the warning without any numerical error (c139_warning_refuted); outer_product of an array with one row and two axes is the squared length (c139_outer_row_refuted)."
},
"C140": {
"status": "partial",
"note": "Exceptions found and proved: a repeated name keeps its last number only and the first then belongs to no name (c140_repeated_refuted); a keyword can take a number's name away (c140_keyword_refuted); the name reverse_mapping is lost (c140_reserved_refuted)."
},
"C141": {
"status": "partial",
"note": "The default true_state=None, a prior without a mean, matplotlib without axes.color_cycle and an unknown region contradict the natural reading (refuted); a qutrit and the error ellipse can leave the circle (refuted); matplotlib and the eigensolver are not modelled"
},
"C142": {
"status": "partial",
"note": "A list of indices or one index always fails, given tick labels are not selected by the slice, further true models are ignored, the contour inherits the transposed mesh, and risk fails for experiments with several fields (refuted)"
},
"C143": {
"status": "partial",
"note": "Each test is proved equivalent to the meaning of passing it. Refuted parts: test_model returns None whatever the outcome (c143_verdict_refuted); an empty first domain makes the tests run forever (c143_endless_refuted); map_async always gives None (c143_map_async_refuted); with as many parameters as experiments a swapped update_timestep passes (c143_timestep_refuted); a likelihood constantly 7 passes (c143_values_refuted); without experiments two of the tested sizes coincide (c143_sizes_refuted)."
},
"C144": {
"status": "proved",
"note": "Updates without resample check, static model, evidence at least machine epsilon at every step (implied by eps (a+b+n) <= a, b for single shots)."
},
"C145": {
"status": "proved",
"note": "Evidence at least machine epsilon at every update; the resampler is any function that returns equal weights for as many particles (as LiuWestResampler does)."
},
"C146": {
"status": "proved",
"note": "Updates without resample check, static models, evidence at least machine epsilon in both runs."
},
"C149": {
"status": "partial",
"note": "c149_weights, c149_mass and c149_mean hold for every power that keeps the evidence of each update at least machine epsilon; c149_limit_partial is the limit under that condition and c149_certain the full limit when the best particle gives the data probability one. The limit as documented is false in the code: c149_limit_refuted shows that when every particle gives some outcome probability at most q < 1, all large enough powers make the update raise RuntimeError and leave the cloud unchanged."
}
}