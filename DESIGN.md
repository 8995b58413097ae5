# Design of the formal model of QInfer

The code under study is `/repo/src/qinfer` (python-qinfer).  It was read as text; it was
never run.  The model is written in Gallina (Coq 8.16.1) and lives in `rocq/theories`.

## 1. Layout

| files | contents |
|---|---|
| `Base.v`, `RList.v`, `Ext.v` | numeric and list vocabulary (sums, dot products, cumulative sums, `searchsorted`, `argmax`, sorting, NumPy specials) |
| `*Model.v` | the model of the code, function by function, each definition citing `/repo` file and lines; no proofs |
| `*Spec.v` | small independent specifications (plain mathematics, no reference to model helpers) where a property needs vocabulary of its own |
| `*Proofs.v` | lemmas |
| `*Props.v` | the property theorems only: each is closed by `exact some_lemma` and followed by `Print Assumptions`; next to each there is an `Example` showing that a concrete non-trivial case meets the hypotheses |

Theorem names start with the property id in lower case (`c01_...`).  A theorem whose
statement is the negation (with a witness) of what the property promises ends in
`_refuted`; a theorem which proves only a part ends in `_partial`.

## 2. Modelling conventions

* **Numbers.** Floating point numbers are modelled by exact real numbers (stdlib `R`).
  The exceptions are `FltModel.v` (C119, C120) and `FcModel.v` (C122), which repeat cumulative sums, the draws made from
  them, the update loop, and means and covariances with IEEE doubles rounded to nearest (Flocq's `round`), and bound the distance to the exact model.
  Elsewhere rounding is *not* modelled.  Where the code divides, takes logarithms or square roots
  without guarding the argument, the result is an extended number (`Ext.v`:
  finite, +inf, -inf, NaN) following NumPy's conventions, so that a NaN is visible in the
  model and never silently replaced by Coq's `x / 0 = 0`.
* **Integers** are `Z` or `nat` (unbounded).
* **Arrays** are lists (of lists).  Vectorised NumPy expressions become `map`s.
* **Exceptions** are values: `Ok x` or `Err e` (`exn`).  For stateful code the post-state
  is returned next to the exception because Python code mutates state before raising.
* **Randomness** is an explicit argument: the uniform draws, kernel draws, prior samples.
  A theorem "for every draw" therefore covers every behaviour of the generator.
* **Models** (subclasses of `Model`) are records of functions: likelihood, validity,
  canonicalisation, time step.  Theorems quantify over all such records.
* **External numerics** (matrix square root, eigen-decomposition, optimisers, DBSCAN)
  are function arguments.  What a theorem needs of them is an explicit hypothesis.

## 3. Trusted base

* Coq's kernel (8.16.1).
* The axioms which `Print Assumptions` lists; the listing is printed by the build below
  every property theorem, and summarised in section 5.
* The reading of the Python code that the model expresses.  Not modelled at all:
  floating-point rounding outside `FltModel.v` and `FcModel.v`, overflow, NumPy broadcasting of wrongly shaped arguments outside `Nd*.v`, memory use,
  plotting (except the geometry of error ellipses, C116), IPython/ipyparallel transport, OpenCL itself, pickling, warnings
  machinery (except where a warning is part of a property), file I/O.

## 4. Plan per property

| id | modelled and proved how |
|---|---|
| C01 A Bayes update is Bayes' rule | `SMCUpdater.update`/`hypothetical_update` as functions on an updater state; equality with the textbook quotient. |
| C02 Weights stay a probability vector over any history | `step` over an operation list with exceptions; invariant by induction; refutations for 'ignore'/'warn'/'reset'. |
| C03 Predicting an update does not perform it | frame equality on the whole state, plus agreement lemma with `update`. |
| C04 Data and normalization records tell the history | history invariant relating records to the operation list (ghost history). |
| C05 Total log-likelihood is the log evidence | induction over data list: product of recorded norms = evidence sum. |
| C06 Order of data does not matter | closed form of the weights after a data list, invariant under `Permutation`. |
| C07 Batch processing equals one-by-one processing | batch as fold; schedule characterised by `(i+1) mod interval = 0`. |
| C08 Zero-weight policies do what they say | case analysis over the policy type; reset branch expected to be refuted. |
| C09 Effective sample size is between one and the number of particles | Cauchy-Schwarz on lists; history invariant for `min_n_ess`. |
| C10 Resampling happens exactly when the effective sample size drops below the threshold | iff on one update; counter invariant on histories. |
| C11 Reset restarts from the prior | `reset` with column selection; frame lemma. |
| C12 Particle order is irrelevant | `Permutation` of (weight, location) pairs; symmetric functions. |
| C13 Bayes risk is the expected posterior variance | `bayes_risk` over extended numbers; spec = sum over outcomes of posterior variance; NaN refutation. |
| C14 Expected information gain is mutual information | `expected_information_gain` over extended numbers; mutual information spec; Gibbs inequality. |
| C15 A particle distribution is normalized on construction | constructor model; normalisation lemma. |
| C16 Sampling a particle distribution follows the weights | `searchsorted(side='right')` characterised by cumulative intervals. |
| C17 Mean and covariance are those of the weighted cloud | weighted sums; covariance identity, PSD by quadratic form; Cauchy-Schwarz for correlation. |
| C18 Credible region has at least the requested mass and is greedy-minimal | argsort as arbitrary sorting permutation; greedy prefix; level 1 refutation. |
| C19 Entropy estimate is bounded | Jensen through `ln x <= x - 1`. |
| C20 Clusters partition the particles and explain the whole variance | masks from labels; total variance compared to cloud covariance (refutation expected). |
| C21 Liu-West output shape and weights | retry loop with fuel = maxiter; output length and weights. |
| C22 Postselected Liu-West particles are valid | loop invariant: finished indices valid. |
| C23 Liu-West parameters stay consistent | setter history. |
| C24 Liu-West preserves mean and covariance in expectation | exact first and second moments over ancestor distribution and kernel moments. |
| C25 A retried Liu-West particle is redrawn around its own ancestor | loop with per-particle centres; refutation by trace. |
| C26 Simulated outcomes follow the likelihood | inverse-CDF selection; interval characterisation. |
| C27 Call and simulation counters are exact | counter semantics over call sequences; per-wrapper table. |
| C28 Integer domains enumerate exactly their members | `Z` arithmetic; NoDup enumeration. |
| C29 Product domains behave as Cartesian products | list product; roundtrip through records; constructor refutation. |
| C30 Multinomial domains enumerate all count vectors | combinations with replacement modelled; bijection with count vectors; stars and bars. |
| C31 Two-outcome models give probabilities | real analysis on each `pr0`. |
| C32 Binomial model is n independent shots | Pascal/binomial theorem; sum over boolean strings. |
| C33 Multinomial model is n independent draws | multinomial theorem by induction on outcomes; log-space computation with zero masking. |
| C34 Poisoned likelihoods remain probabilities close to the truth | clip lemmas; constructor model of the chained comparison (refutation). |
| C35 Likelihood tempering preserves the ordering of hypotheses | `Rpower` monotonicity. |
| C36 Random walks move only what they should | timestep frame lemma; name/number count. |
| C37 Gaussian hyperparameterized likelihood is a density | pointwise comparison with the density (refutation), Gaussian family algebra. |
| C38 Randomized benchmarking conversions and decay | field identities; powers of numbers in [0,1]. |
| C39 Analytic scores are derivatives of the log-likelihood | derivatives with stdlib/Coquelicot `is_derive`. |
| C40 Fisher information is symmetric positive semidefinite | quadratic form of sums of outer products. |
| C41 Model distance is a metric | L1 and L2 metric laws on lists. |
| C42 Model chains report the whole stack | inductive stack of models. |
| C43 Record joining and separating are inverse | byte-list model of struct arrays. |
| C44 Simplex coordinates round-trip | stick-breaking induction. |
| C45 pretty_time can be read back | `Z` division; decoding function. |
| C46 uniquify keeps first occurrences in order | list induction. |
| C47 Hedged binomial estimates are proper | `nra` inequalities. |
| C48 Uniform samples stay in the box | `lra` on affine maps. |
| C49 Samples have shape (n, n_rvs) | inductive syntax of distributions. |
| C50 Postselected samples are valid or an error is raised | retry loop. |
| C51 Constrained-sum samples have the requested total | field identity; refutation for negative totals. |
| C52 Shape parameters reproduce the requested moments | `field` identities. |
| C53 Log-normal samples are log-normal | refutation with explicit mu, sigma. |
| C54 Particle guess heuristic picks a usable experiment | retry loop. |
| C55 Exponentially sparse heuristic follows the record | powers; option combinations (refutation for missing `other_fields`). |
| C56 Experiment designer remembers the best design | designer state machine; NULL optimiser refutation. |
| C57 Parallel likelihood equals serial likelihood | `array_split` model; schedule as permutation of completion order. |
| C58 Parallel simulation returns what the serial model would | nested-list concatenation along axes; refutation by shape. |
| C59 GPU precession model equals the CPU model under every schedule | flat buffer written by work items in any order. |
| C60 Gell-Mann basis is an orthonormal Hermitian basis | complex matrices as pairs of reals; index bijection; telescoping sums. |
| C61 Tensor product and Pauli bases are orthonormal | Kronecker product trace factorisation. |
| C62 States and parameter vectors round-trip | linear algebra on index functions. |
| C63 Canonicalized states have unit trace | scaling identity; frame of zeroed steps. |
| C64 GADFLI prior has the requested mean | affine expectation over any linear expectation of the draws, and over the Beta(1, beta) quantile integrated with Coquelicot; eigenvalue of extreme point; refutation at the maximally mixed mean. |
| C65 Adaptive likelihood estimation terminates with probabilities | loop over data stream; termination measure; non-termination refutation. |
| C66 Finite differences are exact on quadratics | `field`/`ring` identities. |
| C67 Outcome cutoff can be changed | setter model with fuel; divergence for every fuel. |
| C68 Mixed approximate updater covers every particle once | mask assembly. |
| C69 Bayesian information accumulates additively and privately | accumulator fold; heap cell for aliasing. |
| C70 Performance runs record every experiment | fold over experiments; error-policy as global state. |
| C71 Ensemble heuristic runs one member with positive probability | `np.random.choice` by its documented algorithm; the chosen index satisfies the cumulative-interval predicate. |
| C72 Adaptive likelihood estimation uses the number of samples drawn | fuelled loop over rounds; trial count against draws, refuted unless `min_samp = samp_step`. |
| C73 Serial tasks run once | two-field state machine with an evaluation log; invariant over call sequences. |
| C74 Enclosing ellipsoid iteration keeps weights a distribution and encloses every point up to its tolerance | vectors and matrices as index functions; rank-one inverse update, Schur complement, leverage bound; fuelled loop invariant. Stopping: the product of the pivots of the moment matrix grows by a fixed factor in every pass above the tolerance and is bounded. Volume: det X det H <= (tr HX / n)^n for the moment matrix X and the lifted form H of any enclosing ellipsoid. |
| C75 Credible region membership tests the documented region | `in_credible_region` branch by branch with SciPy objects as contract-carrying arguments; matrix inverse uniqueness. |
| C76 Credible regions hold at least the requested mass | C18 plus convex-hull predicate; Jensen for positive semidefinite forms. |
| C77 Rescaled particle distances form a metric scaled by the model | distance per pair of rows; Minkowski from the weighted Cauchy-Schwarz inequality. |
| C78 KL divergence estimate is the divergence from the kernel density estimate | extended numbers for the logarithm; kernel an arbitrary function; closed form of the bias. |
| C79 Posterior marginal is a normalised density | linspace, linear interpolation and np.gradient over lists; interpolant shown monotone, trapezoid sum telescopes. Gaussian smoothing is C121. |
| C80 Posterior mesh evaluates the density at the mesh points | meshgrid, transpose and reshape as index arithmetic. |
| C81 Cluster metric is a fraction of explained variance | on top of C20; Cauchy-Schwarz within and between clusters. |
| C82 Weighted pairwise distances shrink with weight | base metric an arbitrary function; numpy power on the reals with its zero cases. |
| C83 Canonical particles | SmcModel as for C01; invariant over histories for an arbitrary predicate P, and independence of canon when the flag is off (SmcProps2) |
| C84 Call counter | calls field of SmcModel; charge function written over the particle count, summed along the elementary expansion of the history (SmcProps2) |
| C85 Real interval | DomModel real_domain over extended numbers; case analysis (DomProps) |
| C86 Random-walk covariance | expectation as any linear functional with E1=1 (MomSpec); steps of grw_step shown linear in the noise (MomProofs2.step_linear), covariance of each of the four factor layouts from new_grw; Cholesky factor is a function argument with its specification as hypothesis |
| C87 Sampler moments | same expectation functional applied to DistModel.sample; scipy/numpy draws are arguments with first two moments as hypotheses; truncated draws are between the computed limits |
| C88 Parameter layout of stacks | induction over wrapper lists of StackModel; multinomial n_outcomes refuted (unbound module name) |
| C89 Relations between reference models | algebra over TwoModel likelihoods |
| C90 State samplers | StateModel over TomoModel's dm_sample and Cplx; la.qr and normal draws are arguments; class instantiation modelled as abstract-method resolution over the MRO; HilbertSchmidtUniform (never instantiable) and unchecked rank refuted |
| C91 Interpolated distributions | InterpModel: compactspace with scipy's logistic ppf as a formula, trapezoid sums, interp1d from RoModel; inverse proved against the piecewise linear CDF; documented coordinate refuted |
| C92 Gradients of log densities | derivable_pt_lim of the log density for the normal families with any normalisation, partial derivatives for the multivariate one; expectation functional of MomSpec for the initial information; Uniform with a single row refuted |
| C93 State measurement heuristics | HeurModel over TomoModel and DesModel records; Pauli elements shown to square to the identity through the tensor construction; Born's rule from c62_born |
| C94 Heisenberg-Weyl operators | closed form of the entries by induction on the powers; roots of unity through cos/sin and the geometric sum |
| C95 Process heuristics | Choi operator of an arbitrary linear map; kron index arithmetic; RandomPauliHeuristic inside ProductHeuristic refuted (wrong dimension) |
| C96 Best of k | argmax characterised; quadratic form equals the covariance of the predicted expectation value; diffusive model refuted |
| C97 Data columns | SimpleModel; induction over the column dictionary with row-wise description of arrays; string dtypes and np.dtype records refuted |
| C98 Ready-made estimators | batch update from uniform weights without resampling is the normalised likelihood product (SimpleProofs); prior support from C50; freq_min and single-line files refuted |
| C99 Simulated multinomial counts | arrays as shape and C-order elements; reshape, transpose, apply_along_axis, stack; numpy's multinomial as its chain of binomials, whose law is shown to be that of counts of independent shots. Strides and memory layout not modelled. Tuple sizes refuted. |
| C100 Simulated hyperparameterized readings | readings computed from an abstract underlying outcome and normal variates; covariance under any expectation. Independence between repetitions refuted. |
| C101 Printed uncertainties | str.format interpreted on the very templates of the code (FmtModel); an independent reader of the text, in the reading of the source and in the reading of TeX (FmtSpec); decades through powerRZ. Lost digits, lost braces and the six decimals refuted |
| C102 Significant figures | numpy's assert_almost_equal as its documented rule over extended numbers; decade of the reference; negative references and the announced bound refuted |
| C103 counts and shots | Two runs of the updater model (SmcModel) over the count data and over the shots; likelihoods linked through DerModel.binomial_like and multinomial_like; the product of count likelihoods is the product of shot likelihoods times a factor free of the particle (CountProofs), so both runs normalise to the same posterior; the factor is the number of orderings (CountProps) |
| C104 averaged learning | LearnSpec.records enumerates the data tree of an arbitrary adaptive strategy; runs of SmcModel.update over every branch; path likelihoods sum to one over the tree, so the normalised weights average back to the prior; covariance by the law of total covariance (LearnProofs, LearnProps) |
| C105 consistency | runs of SmcModel.update over prefixes of an infinite data stream; posterior odds are exponentials of empirical log-likelihood gaps, these converge to a Kullback-Leibler divergence that is positive by the strict Gibbs inequality (LearnProofs, LearnProps) |
| C106 Hadamard test | `ht_fill` models the masked assignment of simulate_experiment entry by entry, `ht_pr0` the likelihood; the share of draws giving 0 converges to (1+λ)/2·c0 + (1-λ)/2·c1, which is the likelihood λ·c0 + (1-λ)·c1 only if λ = 1 or c0 = c1 (refutation) |
| C107 legacy Pauli models | numpy broadcasting modelled by `bc`; Born rule against the trace with 2×2 matrices; refutations for several experiments, the rebit visibility, and abstract classes / missing static method |
| C108 matrix square root | sqrtm_psd over complex matrices with eigh as an argument; spectral sums (TomoProofs3.vwv), Pythagoras in the Frobenius inner product, uniqueness of positive roots by the kernel argument (MatProofs) |
| C109 ellipsoid volume | unit_volume through the gamma function's recursion, Cavalieri's principle with explicit antiderivatives of cos^n and asin, slices by completing the square, determinants by elimination (MatProofs2); det, sqrtm, inv, gamma are arguments with contracts |
| C110 learning with resampling is unbiased | lookahead averages the updater's final states over predicted outcomes and over the resampler's draws (uniform law that is only used on step functions, any kernel expectation); martingale proof by induction on rounds; the Liu-West call is shown to answer exactly the Liu-West points of independent picks (draws_picks, call_value), whose first and second moments are computed; every proposal accepted at once, static particles |
| C111 honest score | path likelihoods of particles over a whole record (LearnSpec); Gibbs' inequality applied to the predictive probability, equality case included |
| C112 credible regions smallest and nested | the region is a prefix of the particles in order of decreasing weight; exchange argument through the positive part of weight minus threshold |
| C113 aligned at the right | arrays as shape and entry function, slices [-m:] with -0 as in Python; index arithmetic |
| C114 records and timers | field lists with NumPy's distinct-name check; timer with optional stop time, context manager without finally |
| C115 progress bars | perf_test_multiple with an abstract bar whose operations may fail, the IPython bar as an instance, a note-taking bar for what is reported |
| C116 error ellipses | arctan2, eigsorted and Matplotlib's patch as a set of points; trigonometric identities, Chebyshev's inequality for the particle cloud |
| C117 mixtures | constructor with its exception handler, class form; the law through counts of independent records and relabelling invariance of the shuffle |
| C118 How fast the updater learns | The updater's runs over all records of n experiments, weighted by the likelihood of one particle (RateSpec): Ville's inequality for the true weight, Bhattacharyya bound and exponential rate for the others, expected quadratic loss, and a bound on the total squared Hellinger distance of predictions (no identifiability needed). |
| C119 double cumulative sums | `FltModel.v` repeats the functions that search in cumulative sums with Flocq's IEEE rounding instead of exact reals; monotone rounding gives order, relative errors give counts of roundings. The unguarded index of the resampler, the guarded one of `sample`, the credible mask and the argmax of the simulator each have a refutation with a concrete draw and a bound on its chance. |
| C120 rounding of updates | `f_run` in `FltModel.v` is the update loop with rounded products, sums (any tree) and quotients. Proportionality to prior weight times likelihood is kept up to two roundings per update, the total up to d + 1, and both together give the distance to the exact run of `SmcModel.v`. Overflow is not modelled; underflow is excluded by a hypothesis with a sufficient condition (`c120_no_underflow`). |
| C121 smoothed marginal | GfModel.v models the smoothing branch (reflected indices, truncated normalised kernel, correlation) on top of RoModel.posterior_marginal. A symmetric kernel over a mirror extension keeps the total: offsets k and -k together sweep one full period. Averages keep ranges and shrink squares (Jensen). |
| C122 covariance in doubles | FcModel.v repeats np.dot, einsum, subtraction, correlation and the one-parameter square root with rounding after each operation (FltModel.rnd, any summation tree). Signed error calculus: |xh - x| <= ((1+u)^k - 1) a with a the sum of absolute values. Witnesses evaluated exactly on integers times powers of two. |
| C123 convergence in the number of particles | ConvSpec.v: exact evidence and posterior as averages over the prior. Weak law by Chebyshev for each prefix of the record; on the good event every update is regular and the run is a ratio of two sample means. Algebra of convergence in probability for the covariance. |
| C124 likelihood and score arrays | `Nd.v` models NumPy arrays as shape plus index function (broadcasting, transpose, tile, concatenate, fancy indexing, reshape); `NdModel.v` runs each likelihood/score operation by operation; `implements` states the documented layout; proved for nine models, five scores, Fisher information, time step; refusals of wrong shapes |
| C125 vectorised updater | `NdModel2.v` hyp_arrays, bayes_risk_array, information_gain_array against SmcModel/RiskModel at every index, for any `implements` likelihood |
| C126 derived model arrays | binomial_likelihood, multinomial_likelihood, hyper_likelihood over any `implements` likelihood; explicit laws and AssertionError cases |
| C127 update on arrays | `update_arrays` keeps the outcome and experiment axes; exact behaviour for any sizes, agreement with SmcModel for one outcome and experiment, refutation of the zero-weight protection for several |
| C128 resampling and convergence | PfSpec states the exact filtering recursion (weigh by the likelihood, normalise, move) and what a resampler owes (`faithful`); PfProofs/PfProofs2 bound the mean squared error of every posterior average by induction on the data with explicit constants over n, through either branch of the resampling test; PfProofs3 shows LwModel with a = 1, h = 0 meets the contract; a = 0.98, h = 0 is refuted on a two-point prior |
| C129 unbiased total likelihood | same setting as C128; induction over the data: the product of the evidences times a posterior average is a martingale under updates with either branch of the resampling test, a run ending early loses at most eps times a power of the likelihood bound; Markov inequality; LwModel with a = 1, h = 0 unbiased; a = 0.98, h = 0 refuted for two particles |
| C130 class definitions | C3 linearisation, ABCMeta and constructor chains as a small interpreter for class statements; the table of all classes with their bases and names is read off the sources; soundness and completeness of the linearisation by induction over programs, facts about the library by computation |
| C131 calibration | joint law of truth and record of an adaptive session as a sum over record trees; the record law factors as predictive times posterior (C128), so coverage, calibration and least error are properties of the final weights; strictness from a positive-probability record |
| C132 experiment records | NumPy record arrays with named columns; dtypes and field accesses of every model as functions; stacks are those of C42 with their constructor checks; at most one counting model by induction over constructor calls, then two cases |
| C133 announced information is gained | on SmcModel.v, PartModel.v (est_entropy) and RiskModel.v (expected_information_gain), with the studies of C131: chain rule of entropy over adaptively chosen records by induction on the length; bounds by Gibbs' inequality; guessing bound by counting records |
| C134 detection of QuTiP | LooseVersion as a tokenizer over ASCII strings with Python's list order; dotted numbers parse to their components by induction on the digits; the order of number lists is proved total and transitive; import outcomes are a sum type |
| C135 A displayed basis can be read back | LtxModel: the two formatting functions, {:0.3e} with its carry, join, the HTML templates; LtxSpec: a reader of displayed complex numbers and of matrices. Reading after displaying is proved to be within the stated precision for every finite entry; cells never contain the separators; refutations for the two claims the code misses. |
| C136 A label names the element beside it | LabModel: str.format with one argument, TomographyBasis.__init__ (labels), gell_mann/tensor_product/pauli with labels on top of TomoModel, __getitem__/__iter__, modelparam_names, axis labels. Positions in a product are digits in a mixed radix (LabSpec.pos); entries of the element at a position are proved to be products of the entries of the factor elements at the same digits as the label. Joined labels are unique because the tensor sign cannot overlap itself. |
| C137 The configuration is read as it was saved | CfgModel: ensuredir, preffilename, read_config, save_config over a file system of directories and files, with os.path.split/dirname/join/expanduser/expandvars, os.makedirs (recursion on heads) and mkdir, open for writing, and access rights as arbitrary predicates; the text format of configparser is any pair of functions. Directories made are shown to be initial parts of the name; round trip by the shape of successful saves; histories by induction on the list of calls. |
| C138 Citing a paper changes nothing | DueModel: the try statement of _due.py over an arbitrary package (broken with any exception, or loaded with any set of names), the stub collector, and constructors looked up along the method resolution orders of ClsModel (C130) with assignments made by decorate_init and by decorated constructors. Case analysis for the import; a look-up that finds the same class as before is shown to leave every chain of constructors unchanged; extensions of the library by induction on the class statements. |
| C139 The helpers for particle statistics agree with ParticleDistribution | UtlModel: arrays with one or two axes with the broadcasting of numpy, outer_product, particle_meanfn and particle_covariance_mtx with its warning. Sums are compared entry by entry with PartModel; the eigenvalues by the quadratic form of C17. |
| C140 Enumerations number their names | EnuModel: dictionaries in the order of insertion, enum with positional and keyword names, the reverse mapping, and the two enumerations of the library. Dictionary laws by induction on the insertions; the algorithms are compared with DesModel (C56). |
| C141 Rebit plots | Drawing as a list of marks and an optional exception (PicModel.v); exact success condition and figure; disc from positivity and Parseval in an orthonormal Hermitian basis (PicProofs.v) |
| C142 Plots of an updater | Figure as a list of marks and an optional failure (FigModel.v); slice.indices against the rule of the Python manual by divisibility; exact success conditions |
| C143 The self-tests of models and domains accept exactly the ones with the documented shapes and members | SelfModel.v models the mixins ConcreteSimulatableTest, ConcreteModelTest, ConcreteDifferentiableModelTest and ConcreteDomainTest, test_model, assert_warns, MockModel and MockDirectView, and simulate_experiment on arrays; SelfProps.v proves each test equivalent to what passing it means, that permuted axes are caught, that MockModel passes, and refutes: the verdict is returned (it is printed only), a domain without values is tested in finite time, map_async gives results (MockAsyncMapResult is a function without return), swapped axes of update_timestep are caught when there are as many parameters as experiments, the values of a likelihood are tested |
| C144 conjugate coin posterior | ConjProps: moments of the particle cloud, carried through the modelled SMC updates, binomial_like and bayes_risk; two Gauss nodes as the concrete cloud |
| C145 outcomes that rule particles out | DecProps: history of modelled updates and resamplings, survivors counted by index sets; four particles as the concrete cloud |
| C146 approximate likelihoods | NearProps: two runs of the modelled updater compared factor by factor; poisoned_entry of DerModel as the instance |
| C147 A die's posterior is the conjugate Dirichlet one | DirSpec (dirichlet_moment, dirichlet_moments), DirProofs (Bayes' rule on mixed moments: dir_bayes, dir_step, dir_history), DirProps; uses die_like (TwoModel), multinomial_like (DerModel), update/run (SmcModel), bayes_risk1 (RiskModel); induction on the data |
| C148 The posterior depends on the cloud only through the distribution it represents | RepSpec (average, pushed, same_distribution), RepProps over update/run (SmcModel), est_mean/est_cov (PartModel), bayes_risk1/eig1 (RiskModel); one update as an identity of averages, induction on the data; the effective sample size does depend on the representation (example) |
| C149 Amplified updates approach the maximum likelihood estimate | AmpProps over update/run (SmcModel) with the powered likelihood (mle_entry, DerModel); weights proportional to prior times likelihood^power, geometric decay of the weight off the best particle, limit of the mean; partial because for large powers the evidence falls below machine epsilon and the default policy refuses the update (c149_limit_refuted), unless the best particle is certain of the data (c149_certain) |
| C150 The reported Fisher information bounds every estimator | CrSpec (plans, means and variances of statistics, information along a plan), CrProps over fisher, coin_score, prec_score (TwoModel) and bim_weighted (MiscModel); the derivative of a mean is its covariance with the summed score, the scores of successive experiments are uncorrelated, Cauchy-Schwarz; equality for coin flips |
| C151 The Bayesian information bounds the mean squared error | VtSpec (smooth densities and models, information and squared error at a parameter), VtProps over fisher, coin_score (TwoModel) and bcrb_init/bcrb_run (MiscModel); integration by parts of prior times bias (Coquelicot RInt), Cauchy-Schwarz; c151_interval keeps the boundary terms for densities that do not vanish; one parameter only |
| C152 Symmetric priors | `SymSpec` has laws invariant under a gate and exchangeable rows as conditions on an expectation functional (`MomSpec`); `SymProps` computes the effect of the four gates on the sampled Bloch vector (`StateModel.ginibre_row`), derives mean and covariance, identifies `haar_row` with the one-column Ginibre row of the decomposed matrix, and treats `DistModel.constrain`. That normal variates have these invariances is not proved. |
| C153 Misspecified data | `MisSpec.settled` (limiting frequencies unrelated to the likelihoods), `fit`, `miss`; `MisProps` writes the likelihood of the first n data as the exponential of n times a frequency-weighted average of log-likelihoods and takes limits, on top of `SmcModel.run` and the odds of `LearnProofs`; the total via `VarProps.total_is_prediction`. |
| C154 Learning does not depend on units | Relational proof over two configurations (UnitSpec.v same_problem): each operation of SmcModel commutes with conversion of locations, outcomes and experiments; LwModel, DesModel.pgh and TwoModel.inv_like shown to convert; c154_experiment joins them; counterexample for unconverted zero_cov_comp. Column resets (only=...) are left out. |
| C155 Particle guess heuristic at every scale | pgh (DesModel) with the inversion model (TwoModel): form of the experiments via C54, overlap cos(1/2), rate via C118 with its regularity hypothesis discharged, Fisher information from the scores, Cauchy-Schwarz for the average over pairs (each drawn with its weight, as sample_index does), mirror counterexample |
| C156 What the randomized benchmarking model describes | RbSpec.v defines gates, depolarizing noise, sequences, Kraus operators and measurement on matrices independently of the model; noise commutes with unitaries and composes, so a sequence is one noise of strength p^m (induction over the gates); identifiability by differences; learning through C153 |
| C157 Which experiments identify the parameters of each model | General theorem from C153 (relative entropy positive unless the predictions agree) and its converse from the product form of the posterior; per model the set of parameters with equal predictions, by solving the equations of TwoModel.v; confused parameters as `_refuted` theorems |
| C158 Comparing models and priors by their total likelihoods | BfSpec.v states two updaters over the same outcomes; maximal inequality by induction over the tree of records for two consistent families of record probabilities (predictive); averages by Gibbs inequality; growth from C153; prior ratios from the product form of the posterior |
| C159 What a notebook displays | `updater_html` and `model_html` in `DispModel.v` write the templates out; a reader for tags, table rows, bold words and list items (`DispSpec.v`) knows nothing of them; scanning is compositional, so every page is read back piece by piece; unescaped names and the raw `\n` separator refuted by witness. |
| C160 What an updater reports besides its posterior | TrkModel.v writes every method of the updater out again with tracked divergences, warnings and the debug log; a simulation shows that the reports do not influence the updater of SmcModel.v, and the reports are characterised per operation and over histories (TrkProps.v) |
| C161 Whose changes an updater sees | HeapModel.v writes every method of the updater out again over a store in which attributes are addresses, distinguishing writes in place from new arrays; a simulation relates it to SmcModel.v, a frame relation says which addresses an operation may write, and interleavings with callers are events (HeapProofs.v, HeapProps.v) |
| C162 Noise, coarser readings and discarded shots only destroy information | DegSpec.v says when one experiment is a noisy version of another, for any two modelled updaters holding the same particles. Both inequalities come from one lemma about subadditive homogeneous functions of two sums (squares over sums for the risk and the Fisher information, the log-sum inequality for the information); C13 and C14 carry them to the numbers the code computes. The table that forgets one of n+1 shots at random gives the statement about shot numbers. Strict improvement by parameter-dependent decay is proved on UnknownT2Model. |
| C163 How often an updater resamples | On the updater model of C01-C12: FreqSpec.v has the histories (one checked update per datum), the configuration with another threshold and resamplers returning equal weights. Invariants over runs: total weight at most one (so that the effective sample size is at least one), ratio of largest to smallest weight at most (b/a)^j after j updates (so that it is at least n (a/b)^j). The two-threshold statement compares single calls, batches included. Three updates of two particles show that the count is not monotone. FreqProps2.v shows that the Liu-West model satisfies what is assumed of resamplers here and in good_config (used throughout C01-C12). |
| C164 A posterior can be handed on as the prior of another updater | `hands_on` says that the prior of a configuration is `pd_sample` of another updater's weights and locations (HandModel.v); the average over the draws is the iterated average over independent uniform numbers (`uniform_law`, met by the Riemann integral).  The law of the cloud is computed slot by slot; it agrees with a law on finitely many tapes of numbers, to which the convergence theorems of C123 apply; the exact target is identified with the posterior of the old updater by the closed form of C123.  Chains of updaters (HandProps2.v) by induction over the blocks of data.  Not modelled: the old updater changing while the new one exists (every reset then draws from its current cloud, for which the theorems hold as stated), `SMCUpdaterBCRB`, which needs `grad_log_pdf` of its prior and an updater has none. |
| C165 Data simulated from an updater's own draws are what it predicts, and its posterior is the law of the truth | `closed_loop` (LoopModel.v) composes the existing models of `ParticleDistribution.sample` and `FiniteOutcomeModel.simulate_experiment` in the order of `perf_test`, averaging over independent uniform numbers (`uniform_law`).  Every simulated outcome is reduced to the slot its number falls in, giving the joint law of truth and record as a finite sum; the rest follows from the closed form of the posterior.  Simplified: the policy sees the outcomes so far, not the updater; the truth does not move in time; updates do not resample.  Not modelled: the performance array and timing. |

## 5. Axioms

Union over all theorems: `ClassicalDedekindReals.sig_forall_dec`, `ClassicalDedekindReals.sig_not_dec`, `Classical_Prop.classic`, `FunctionalExtensionality.functional_extensionality_dep`, `functional_extensionality_dep`.
All of them belong to the Coq standard library (classical real numbers, functional extensionality, excluded middle);
the development declares none.  What `Print Assumptions` lists for each theorem, grouped by equal lists:

* **no axiom (closed under the global context)** (220 theorems): `c137_unix_name`, `c137_windows_name`, `c137_elsewhere`, `c137_one_platform`, `c137_only_directories`, `c137_directory_made`, `c137_empty_appdata`, `c137_saved_is_read`, `c137_last_save_counts`, `c137_other_files_kept`, `c137_directories_kept`, `c137_reading_keeps_files`, `c137_no_file`, `c137_modern_python_refuted`, `c137_unreadable_refuted`, `c137_failed_save_refuted`, `c137_reading_makes_directory_refuted`, `c137_file_in_the_way_refuted`, `c137_no_appdata_refuted`, `c130_order`, `c130_refused`, `c130_abstract`, `c130_instances`, `c130_library_partial`, `c130_library_refuted`, `c130_subclass`, `c130_missing_method`, `c130_one_sample_at_a_time`, `c130_mixin_last_refuted`, `c130_constructors`, `c130_models_are_initialised`, `c130_library_models`, `c32_construction`, `c32_wrong_exception_refuted`, `c36_dimension_mismatch`, `c36_slices`, `c54_scalar_field_needs_one_parameter`, `c54_no_iterations`, `c55_default_other_fields_refuted`, `c56_constructor`, `c159_model`, `c159_chain`, `c159_separator_refuted`, `c48_constructor`, `c49_mixture_constructor`, `c50_first_valid_proposals`, `c50_all_valid`, `c50_error`, `c50_success`, `c52_arguments`, `c29_separate_arguments`, `c29_list_argument_refuted`, `c29_values_and_count`, `c29_empty_factor_refuted`, `c29_membership`, `c29_to_then_from`, `c29_from_then_to`, `c29_finite_continuous`, `c30_lists_each_count_vector_once`, `c30_n_members`, `c30_membership`, `c30_example_point`, `c43_join_then_separate`, `c43_separate_then_join`, `c43_empty_arrays_refuted`, `c43_length_mismatch_rejected`, `c138_import`, `c138_reported`, `c138_interrupt`, `c138_absent_partial`, `c138_absent_refuted`, `c138_functions`, `c138_undecorated`, `c138_library`, `c138_extensions`, `c138_single_inheritance`, `c138_skipped_refuted`, `c140_values`, `c140_numbered`, `c140_reverse`, `c140_reverse_name`, `c140_inverse`, `c140_inverse_numbered`, `c140_repeated_refuted`, `c140_keyword_refuted`, `c140_reserved_refuted`, `c140_library`, `c140_designer`, `c132_one_counting_model`, `c132_declared_dtype`, `c132_arrays_exist`, `c132_clash_refuted`, `c132_reads_by_name`, `c132_experiments_arrive`, `c132_multinomial_ignores_n_meas_refuted`, `c132_precession_takes_records`, `c132_missing_field`, `c132_unused_time`, `c132_rmfield`, `c132_rmfield_undoes_counting`, `c142_slice`, `c142_whole`, `c142_no_mpltools`, `c142_risk`, `c161_resampling_keeps_old`, `c96_no_draws`, `c136_numbered`, `c136_no_label`, `c136_braces_refuted`, `c136_subscript_refuted`, `c136_names`, `c136_dimension`, `c136_field_refuted`, `c67_setter_refuted`, `c67_constructor_partial`, `c69_keywords`, `c69_misspelt_keyword_refuted`, `c70_error_policy`, `c70_trials`, `c70_error_policy_refuted`, `c73_runs_once`, `c117_rows_reach_the_class`, `c117_no_positional_arguments_refuted`, `c117_wrong_number_of_rows`, `c117_wrong_list`, `c124_default_timestep`, `c57_parallel_equals_serial`, `c57_serial_branch`, `c57_no_view`, `c57_lost_engine`, `c57_default_threshold`, `c57_even_split`, `c58_serial_branch_partial`, `c58_no_view`, `c58_one_engine`, `c58_split_by_models_refuted`, `c58_split_by_models_blocks`, `c58_uneven_split_refuted`, `c58_split_by_experiments_refuted`, `c15_both_rejected`, `c113_one_shape`, `c113_entries_from_the_right`, `c114_records_exist_iff_names_are_free`, `c114_fields`, `c114_single_parameter`, `c114_clash_refuted`, `c115_bar_changes_nothing`, `c115_ipython_bar`, `c115_closed_widget`, `c115_work_before_a_failure`, `c115_finished_in_every_case`, `c115_what_is_reported`, `c115_descriptions`, `c115_full_bar_refuted`, `c115_broken_bar_masks_refuted`, `c143_sizes`, `c143_sizes_refuted`, `c143_outcomes`, `c143_every_value`, `c143_likelihood`, `c143_simulate`, `c143_canonicalize`, `c143_fisher`, `c143_domains`, `c143_domain_of_none`, `c143_models_valid`, `c143_transposed_likelihood`, `c143_transposed_simulate`, `c143_assert_warns`, `c143_assert_warns_exception`, `c143_map_sync`, `c143_map_async_refuted`, `c143_multinomial_domain`, `c143_in_domain`, `c98_other_types`, `c11_reset_both_rejected`, `c83_resample_canonical`, `c27_call_count`, `c27_sim_count`, `c27_outermost`, `c27_mle_calls_refuted`, `c27_binomial_sims_refuted`, `c27_repeat_ignored_refuted`, `c27_uncounted_base_refuted`, `c42_chain`, `c42_parameter_count`, `c42_constant_outcomes_honest`, `c88_names_extend`, `c88_base_names_first`, `c88_two_outcome_wrappers`, `c88_varying_models_refused`, `c88_multinomial_outcomes_refuted`, `c88_differentiable`, `c88_random_walk`, `c27_forwarded`, `c27_binomial_below`, `c27_parallel_below`, `c90_rank_check`, `c90_rank_unchecked_refuted`, `c90_instances`, `c90_hilbert_schmidt_refuted`, `c90_shape`, `c61_tensor_distribution_refuted`, `c38_order`, `c46_each_element_once`, `c46_order_of_first_appearance`, `c134_sufficient_version`, `c134_order`, `c134_weaker_requirements`, `c134_default_requirement`, `c134_check_agrees`, `c134_absent`, `c134_the_module`, `c134_suffix_passes`, `c134_candidate_refuted`, `c134_trailing_zero_refuted`, `c134_silent_refuted`, `c134_no_distutils_refuted`, `c134_message_refuted`, `c134_models_copy_refuted`

* **`ClassicalDedekindReals.sig_forall_dec`** (39 theorems): `c34_exactly_one_argument`, `c36_random_walk_adds_sample`, `c55_plain_number`, `c55_time_field`, `c55_succeeds`, `c157_die`, `c136_tensor_distinct`, `c136_iterate`, `c136_iterate_short`, `c136_index`, `c136_index_list`, `c136_index_other`, `c70_rows`, `c70_failure`, `c124_coin`, `c124_noisy_coin`, `c124_die`, `c124_randomized_benchmarking`, `c124_interleaved_benchmarking`, `c124_no_outcomes`, `c15_only_dimension`, `c17_mean_is_weighted_average`, `c17_meanfn_identity`, `c17_meanfn`, `c113_empty_axis_refuted`, `c113_one_index`, `c114_timer`, `c114_running_timer`, `c114_failed_block_refuted`, `c148_mean`, `c143_update_timestep`, `c143_transposed_timestep`, `c89_coin_is_die`, `c89_loaded_die`, `c89_die_mixture`, `c139_mean`, `c139_same_mean`, `c139_same_meanfn`, `c139_refused`

* **`ClassicalDedekindReals.sig_forall_dec`, `FunctionalExtensionality.functional_extensionality_dep`** (424 theorems): `c158_prior_evidence`, `c158_prior_posterior`, `c131_total`, `c131_any_region`, `c131_credible_region`, `c131_weights_are_calibrated`, `c131_error_of_an_estimate`, `c131_mean_is_best`, `c131_only_the_mean_is_best`, `c131_longer_studies_are_better`, `c131_risk_is_least_error`, `c131_least_risk_experiment`, `c144_estimates`, `c144_counts`, `c144_risk`, `c144_risk_array`, `c123_prediction_is_unbiased`, `c123_posterior_average`, `c123_averages_settle`, `c123_mean_settles`, `c123_covariance_settles`, `c123_finite_priors`, `c103_binomial_counts`, `c150_adaptive`, `c150_unbiased`, `c150_script`, `c150_coin`, `c150_coin_attained`, `c145_history`, `c145_min_n_ess_kept`, `c162_risk_never_improves`, `c162_computed_risks`, `c162_fisher`, `c32_count_likelihood`, `c32_distribution`, `c32_single_shot`, `c47_estimate_range`, `c47_increasing`, `c47_no_data_refuted`, `c54_experiment_from_distinct_particles`, `c54_runtime_error_iff`, `c54_runtime_error_any_distance`, `c54_infinite_distance_refuted`, `c54_default`, `c54_uninitialised_fields_refuted`, `c55_follows_the_record`, `c56_best_so_far_partial`, `c56_unstored`, `c56_null_refuted`, `c56_null_forever`, `c56_ncg_flat_refuted`, `c56_nan_refuted`, `c56_callable_guess_refuted`, `c71_ensemble_calls_a_possible_member`, `c147_estimates`, `c147_risk`, `c48_affine_in_the_draw`, `c48_inside_the_box`, `c48_constant`, `c49_shape`, `c49_shape_or_postselection_fails`, `c49_product_concatenates_columns`, `c49_mixture_takes_rows_from_components`, `c49_discrete_uniform_refuted`, `c49_product_of_bits_refuted`, `c49_empty_mixture_sample_refuted`, `c50_postselected_distribution`, `c51_positive_totals`, `c51_negative_totals_refuted`, `c51_entries_keep_their_sign`, `c51_zero_total`, `c51_distribution`, `c52_beta_moments_of_shapes`, `c52_beta_requested_moments`, `c52_beta_round_trip`, `c52_beta_moments_round_trip`, `c52_gamma_moments_of_shapes`, `c52_gamma_requested_moments`, `c52_gamma_round_trip`, `c52_betabin_is_a_distribution`, `c52_betabin_moments_of_shapes`, `c52_betabin_round_trip`, `c52_betabin_requested_moments`, `c52_betabin_single_trial`, `c28_finite_lists_each_member_once`, `c28_n_members`, `c28_n_members_reversed_refuted`, `c28_membership`, `c28_any_finite_bounds`, `c28_member_iff_listed`, `c28_fractional_bound_admits_smaller_refuted`, `c28_example_point`, `c85_membership`, `c85_nan_rejected`, `c85_example_point`, `c85_example_point_refuted`, `c163_never_below_zero`, `c163_never_below_one_over_n`, `c163_always_above_one`, `c163_spacing`, `c163_first_resampling`, `c163_count_is_not_monotone_refuted`, `c155_experiment`, `c155_average_information`, `c164_law`, `c164_particles`, `c164_unbiased`, `c164_error`, `c164_target`, `c164_prediction`, `c164_posterior`, `c164_agree`, `c164_mean`, `c164_covariance`, `c161_same_updater`, `c161_same_history`, `c161_given_up`, `c161_normalization_record`, `c161_data_record`, `c161_update_in_place`, `c161_reset`, `c161_partial_reset`, `c161_careful_callers`, `c161_records_are_not_read`, `c161_snapshot_refuted`, `c161_caller_reaches_posterior_refuted`, `c95_preparation`, `c96_best`, `c96_succeeds`, `c96_diffusive_refuted`, `c157_never_learned`, `c157_noisy_coin`, `c157_binomial`, `c157_tomography`, `c157_tomography_refuted`, `c133_guessing`, `c133_experiments_needed`, `c91_table`, `c91_inverse_transform`, `c91_monotone`, `c91_unnormalised`, `c92_uniform`, `c92_uniform_single_refuted`, `c92_outer_product`, `c92_initial_information`, `c104_records_are_a_distribution`, `c104_normalizations_multiply_to_the_prediction`, `c104_average_posterior_is_prior`, `c104_average_mean`, `c104_total_covariance`, `c104_variance_shrinks`, `c105_odds`, `c106_likelihood`, `c106_likelihood_is_a_probability`, `c106_simulated_entries`, `c106_simulated_law`, `c106_agreement`, `c106_simulation_refuted`, `c107_born_rule`, `c107_probability`, `c107_several_experiments_refuted`, `c107_rebit`, `c107_rebit_visibility_refuted`, `c107_multi`, `c107_unusable_refuted`, `c165_law`, `c165_records`, `c165_conditional`, `c165_loss`, `c165_region`, `c165_unbiased`, `c165_best`, `c24_mean_preserved`, `c24_covariance_preserved`, `c24_covariance_preserved_only_if`, `c109_outer_products`, `c72_count_matches_iff`, `c66_central_exact`, `c66_scalar_steps`, `c66_zero_step_refuted`, `c66_score_steps`, `c68_each_particle_once`, `c68_heaviest`, `c68_bayes`, `c68_assertion`, `c68_all_good_refuted`, `c69_construction`, `c69_additive`, `c69_adaptive`, `c69_order`, `c69_frame`, `c69_caller_array_refuted`, `c69_integer_array_refuted`, `c69_monotone`, `c117_class_form_is_list_form`, `c117_rows_are_independent_draws`, `c117_unshuffled_in_order`, `c117_one_by_one`, `c117_law`, `c117_rows_independent`, `c117_unshuffled`, `c87_gamma`, `c87_uniform`, `c87_slanted`, `c87_multivariate_normal`, `c99_samples`, `c99_single_sample`, `c99_tuple_size_refuted`, `c99_law`, `c99_simulated_counts`, `c99_counts_in_domain`, `c99_nothing_to_simulate`, `c124_tomography`, `c124_score_coin`, `c124_score_randomized_benchmarking`, `c124_score_interleaved_benchmarking`, `c124_fisher_information`, `c125_hypothetical_update`, `c125_bayes_risk`, `c126_binomial`, `c126_binomial_invalid`, `c127_first_outcome_first_experiment`, `c127_single_update`, `c127_zero_weight_test_refuted`, `c146_weights`, `c146_averages`, `c146_mean`, `c146_n_ess`, `c59_same_validity`, `c15_constructor_normalises`, `c16_particle_returned_exactly_on_its_interval`, `c16_intervals_cover_and_are_disjoint`, `c16_sample`, `c16_sample_total`, `c17_mean_within_range`, `c17_covariance_is_mean_outer_deviation`, `c17_covariance_symmetric`, `c17_covariance_positive_semidefinite`, `c17_affine_equivariance`, `c18_credible_region`, `c18_level_one_refuted`, `c20_clusters_partition`, `c20_total_variance_single_cluster_partial`, `c20_total_variance_refuted`, `c20_reported_total`, `c112_smallest`, `c112_nested`, `c112_equal_weights`, `c128_no_early_end`, `c128_posterior_average`, `c128_averages_converge`, `c128_mean_converges`, `c128_covariance_converges`, `c128_finite_priors`, `c118_generated_is_a_distribution`, `c118_true_weight_rarely_dips`, `c118_inverse_weight_does_not_grow`, `c156_composition`, `c156_sequence`, `c156_interleaved`, `c156_survival`, `c156_interleaved_survival`, `c156_fidelity`, `c156_fidelity_of_sequence`, `c156_negative_scale_refuted`, `c156_identifiable`, `c156_two_lengths_refuted`, `c156_perfect_gate_refuted`, `c110_averages_are_kept`, `c110_rounds_are_a_distribution`, `c110_total_covariance`, `c74_slack_tends_to_one`, `c148_history`, `c148_estimates`, `c148_risk`, `c148_representations`, `c13_any_evidence`, `c13_small_evidence_refuted`, `c79_marginal_partial`, `c79_normalised`, `c79_default_range_loses_minimum`, `c79_default_range_refuted`, `c79_coinciding_particles_nan`, `c79_resolution_one`, `c81_metric_in_unit_interval`, `c81_explained_share_refuted`, `c81_no_variance_nan`, `c79_pointwise`, `c143_endless_refuted`, `c143_score`, `c143_report`, `c143_timestep_refuted`, `c143_simulate_array`, `c143_shape_is_enough`, `c143_mock`, `c143_values_refuted`, `c143_no_experiments`, `c143_returns_nothing`, `c143_verdict_refuted`, `c143_unknown_type`, `c143_integer_domain`, `c143_real_domain`, `c97_routing`, `c97_missing_is_an_error`, `c97_unknown_field_is_an_error`, `c97_positions_and_names_agree`, `c97_counts_are_kept`, `c97_numbers_are_kept`, `c97_fractions_are_dropped`, `c97_scalar_types`, `c97_string_dtype_refuted`, `c97_record_dtype_refuted`, `c98_one_datum_at_a_time`, `c98_benchmarking_is_bayes`, `c01_update_is_bayes_rule`, `c02_weights_stay_probability`, `c03_hypothetical_update_changes_nothing`, `c03_arrays_agree_with_single_calls`, `c03_prediction_is_what_update_installs`, `c04_records_tell_the_history`, `c06_data_order_irrelevant`, `c07_batch_length_mismatch`, `c07_batch_is_one_by_one`, `c08_error_and_skip_leave_posterior`, `c08_ignore_and_warn_carry_on`, `c08_policy_has_no_influence_above_threshold`, `c08_reset_policy_partial`, `c09_n_ess_bounds`, `c09_min_n_ess_never_increases`, `c09_min_n_ess_bounds_observed`, `c10_resample_iff_ess_low`, `c10_resample_count_is_exact`, `c10_just_resampled_flag`, `c11_reset_from_prior`, `c11_reset_only_params`, `c12_update_commutes_with_permutation`, `c12_estimates_invariant`, `c13_bayes_risk_is_expected_posterior_loss`, `c13_expected_loss_bounds`, `c13_array_of_experiments`, `c02_permissive_policies_refuted`, `c02_small_threshold_refuted`, `c08_reset_policy_refuted`, `c10_flag_after_reset_refuted`, `c02_new_updater`, `c83_always_canonical`, `c83_flag_off`, `c84_single_call`, `c84_history`, `c84_prediction`, `c26_inverse_cdf`, `c26_impossible_outcomes_never_occur`, `c26_missing_mass_reports_zero`, `c26_other_domain_refuted`, `c26_varying_outcomes_refuted`, `c42_passed_through`, `c42_constant_outcomes_refuted`, `c88_base_part_valid`, `c88_hyper_valid`, `c88_walk_valid`, `c90_ginibre_uniform`, `c90_ginibre_dimension`, `c152_ginibre_mean`, `c152_constrained_mean`, `c152_constrained_covariance`, `c62_params_roundtrip`, `c62_state_roundtrip`, `c62_born`, `c62_covariance_superop`, `c64_lambda_range`, `c64_extreme_point`, `c64_mean`, `c64_maximally_mixed_refuted`, `c64_rank_deficient_refuted`, `c63_validity`, `c62_diffusive_born`, `c64_mean_of_any_law`, `c64_samples_are_states`, `c160_new`, `c31_coin`, `c31_noisy_coin`, `c31_randomized_benchmarking`, `c31_interleaved_benchmarking`, `c31_tomography`, `c31_die`, `c38_conversions`, `c38_decay`, `c38_interleaved_decay`, `c38_length_zero`, `c38_perfect_gate`, `c39_coin_mean`, `c39_randomized_benchmarking_mean`, `c39_interleaved_benchmarking_mean`, `c40_symmetric`, `c40_positive_semidefinite`, `c40_binomial`, `c40_coin_value`, `c41_distance_is_a_metric`, `c41_zero_scale_is_blind`, `c31_valid_parameters`, `c38_valid`, `c38_interleaved_valid`, `c38_valid_exactly`, `c89_valid_frequencies`, `c89_noisy_coin`, `c89_noiseless_coin`, `c154_operation`, `c154_history`, `c154_start`, `c154_session`, `c154_mean`, `c154_covariance`, `c154_heuristic`, `c45_reads_back`, `c45_injective`, `c45_same_print_close`, `c45_recursion_stops`, `c139_stretched_refuted`, `c139_same_covariance`, `c139_no_warning`, `c139_warning_refuted`, `c139_outer`, `c139_outer_row_refuted`, `c139_outer_positive`

* **`ClassicalDedekindReals.sig_forall_dec`, `ClassicalDedekindReals.sig_not_dec`, `FunctionalExtensionality.functional_extensionality_dep`** (215 theorems): `c150_cloud`, `c34_range_and_error`, `c34_scale_finite`, `c34_argument_check_refuted`, `c36_slots_match_names`, `c36_cholesky_names`, `c36_validity`, `c36_likelihood_ignores_walk_parameters`, `c36_only_walking_parameters_move`, `c36_negative_index_refuted`, `c36_transformation_refuted`, `c36_separable_transformation`, `c36_size_mismatch_exception`, `c37_components_partial`, `c37_unit_variance`, `c37_density_refuted`, `c37_variance_check`, `c47_error_bound`, `c47_error_vanishes`, `c36_accepts`, `c53_what_is_sampled`, `c53_refuted`, `c142_covariance`, `c142_covariance_index_refuted`, `c142_tick_labels_refuted`, `c142_marginal`, `c142_true_models_refuted`, `c142_contour`, `c145_liu_west`, `c21_what_updaters_rely_on`, `c163_liu_west_sound`, `c163_liu_west_even`, `c163_liu_west_spacing`, `c121_off`, `c121_smoothed`, `c121_conserved`, `c121_small`, `c121_zero_range`, `c121_coinciding`, `c121_integral_refuted`, `c155_predictions`, `c155_mirror_refuted`, `c155_fisher`, `c155_information`, `c94_commutation`, `c94_orthogonal`, `c94_group`, `c94_unitary`, `c93_born`, `c93_pauli`, `c93_qubits_only`, `c93_stabilizer`, `c93_record`, `c93_no_other_fields`, `c95_process`, `c95_product_pauli_refuted`, `c95_product_stabilizer`, `c94_defined`, `c157_inversion_confuses`, `c157_precession_confuses`, `c157_precession_half_turn`, `c157_precession_aliases_refuted`, `c157_two_inversions`, `c91_documented_coordinate_refuted`, `c136_gell_mann`, `c136_tensor`, `c136_tensor_distinct_refuted`, `c136_pauli`, `c136_scale_refuted`, `c136_rebit_axes_refuted`, `c136_iterate_tensor`, `c136_iterate_pauli`, `c136_iterate_gell_mann`, `c21_shape_weights_and_calls`, `c21_square_root_failure`, `c22_leftover_exactly_the_invalid`, `c23_consistent_after_any_assignments`, `c23_override_never_changed`, `c24_draw`, `c24_draw_precomputed`, `c24_zero_covariance_refuted`, `c24_zero_covariance_value`, `c25_own_ancestor_refuted`, `c25_centre_of_some_ancestor_partial`, `c25_rounds`, `c108_root_is_psd`, `c108_exact`, `c108_nearest`, `c109_contracts`, `c65_terminates_partial`, `c65_nontermination_refuted`, `c65_fractional_step_refuted`, `c72_sample_count`, `c72_biased_refuted`, `c86_zero_mean`, `c86_fixed_diagonal`, `c86_fixed_dense`, `c86_learned_diagonal`, `c86_learned_dense`, `c86_estimate`, `c37_simulated_moments`, `c87_normal`, `c87_truncated`, `c87_different_samples`, `c100_readings`, `c100_pairs_uncorrelated`, `c100_repetitions_share_noise_refuted`, `c100_repetitions_correlated_refuted`, `c124_flat_parameters`, `c124_simple_inversion`, `c124_simple_precession`, `c124_unknown_t2`, `c124_score_simple_inversion`, `c124_score_simple_precession`, `c124_wrong_width`, `c124_width_check_refuted`, `c126_hyperparameterized`, `c126_hyperparameterized_invalid`, `c146_poisoned`, `c59_gpu_equals_cpu`, `c17_correlations`, `c128_liu_west`, `c128_example`, `c128_shrinking_refuted`, `c141_states_in_disc`, `c141_states_in_circle`, `c141_identity_axis_refuted`, `c141_qutrit_refuted`, `c141_prior`, `c141_prior_inside`, `c116_default_axes`, `c116_default_axes_onto`, `c116_default_axes_pauli_refuted`, `c118_overlap`, `c118_wrong_particle_decays`, `c118_exponential_rate`, `c118_posterior_average_decays`, `c118_expected_loss_decays`, `c118_confidence`, `c110_resampled_mean`, `c110_resampled_covariance`, `c110_liu_west_mean`, `c110_liu_west_total_covariance`, `c110_liu_west_variance`, `c110_example`, `c74_weights_stay_probability`, `c74_never_fails`, `c74_encloses_within_tolerance`, `c74_centre_and_shape`, `c75_pce_is_mahalanobis`, `c75_pce_level_zero_refuted`, `c75_mvee_tests_returned_matrix`, `c75_hull_is_convex_hull_of_credible_particles`, `c75_unknown_method_refuted`, `c75_single_parameter_refuted`, `c76_hull_region_is_convex`, `c76_hull_mass`, `c76_mvee_contains_credible_particles`, `c75_documented_ellipsoid_refuted`, `c74_exact_enclosure_refuted`, `c74_stops`, `c74_stops_and_encloses`, `c74_no_enclosing_ellipsoid_is_smaller`, `c74_minimal_volume_up_to_slack`, `c77_distance_value`, `c77_metric_laws`, `c77_two_updaters`, `c77_second_argument_refuted`, `c80_mesh_value`, `c80_square_mesh_partial`, `c98_precession_is_bayes`, `c98_precession_range`, `c98_freq_min_refuted`, `c98_single_line_refuted`, `c90_density_operator`, `c90_real_ginibre`, `c90_haar`, `c90_haar_dimension`, `c152_ginibre_covariance`, `c152_pure`, `c152_haar_row`, `c152_haar_moments`, `c60_gell_mann`, `c60_gell_mann_independent`, `c61_tensor_product`, `c61_tensor_elements`, `c61_pauli`, `c61_pauli_one`, `c63_unit_trace`, `c63_one_row_each`, `c63_density`, `c63_density_fixed`, `c63_accepts`, `c63_diffusion_raw`, `c63_diffusion`, `c63_diffusion_components`, `c63_diffusion_density`, `c31_inversion`, `c31_precession`, `c31_accelerated_precession`, `c39_inversion_mean`, `c39_precession_mean`, `c40_inversion_value`, `c41_rescaled_distance_is_a_metric`, `c41_rescaled_distance_value`, `c89_visibility`, `c89_no_dephasing`, `c89_fair_limit`, `c89_detuning`, `c154_inversion`, `c154_precession`, `c154_liu_west`, `c154_resampler`, `c154_zero_covariance_refuted`, `c154_experiment`

* **`ClassicalDedekindReals.sig_forall_dec`, `ClassicalDedekindReals.sig_not_dec`, `functional_extensionality_dep`** (1 theorems): `c129_liu_west`

* **`ClassicalDedekindReals.sig_forall_dec`, `ClassicalDedekindReals.sig_not_dec`, `Classical_Prop.classic`, `FunctionalExtensionality.functional_extensionality_dep`** (210 theorems): `c149_weights`, `c149_mass`, `c149_mean`, `c149_limit_partial`, `c149_certain`, `c149_limit_refuted`, `c158_factor`, `c158_misleading_evidence`, `c158_own_data`, `c158_average_factor`, `c158_growth`, `c158_opinions_approach`, `c144_conjugate`, `c144_count_history`, `c123_total_likelihood`, `c103_multinomial_counts`, `c150_precession`, `c145_nested`, `c162_information_never_grows`, `c162_computed_information`, `c162_noisy_coin`, `c162_more_shots`, `c162_parameter_dependent_noise_refuted`, `c33_count_likelihood`, `c33_sums_to_one`, `c33_zero_probability_outcome`, `c35_order_and_zeros`, `c35_power_one`, `c35_integer_power`, `c35_repeated_updates`, `c56_least_risk_and_cost`, `c56_least_risk_times_cost`, `c147_rolls`, `c147_counts`, `c159_updater`, `c159_escape_refuted`, `c53_only_at_the_defaults_partial`, `c122_error`, `c122_variance_floor`, `c122_single`, `c122_psd_refuted`, `c122_symmetry_refuted`, `c142_contour_refuted`, `c40_counts`, `c119_cumsum_monotone`, `c119_cumsum_error`, `c119_ancestor`, `c119_ancestor_index_error_refuted`, `c119_ancestor_failure_chance`, `c119_ancestor_law`, `c119_sample`, `c119_sample_zero_weight_refuted`, `c119_credible`, `c119_credible_level_refuted`, `c119_simulated_outcome`, `c119_impossible_outcome_refuted`, `c119_impossible_outcome_chance`, `c120_sum`, `c120_weights`, `c120_total`, `c120_not_taken_for_zero`, `c120_below_eps`, `c120_run`, `c120_normalisation`, `c120_no_underflow`, `c120_ness`, `c120_mean`, `c101_within_half_the_uncertainty`, `c101_within_five_uncertainties`, `c101_uncertainty_vanishes`, `c101_digits_refuted`, `c101_typeset`, `c101_typeset_refuted`, `c101_zero_uncertainty`, `c101_exact_number_refuted`, `c102_passes_iff`, `c102_relative`, `c102_bound_refuted`, `c102_negative_refuted`, `c102_zero`, `c121_width_refuted`, `c155_overlap`, `c155_two_particles`, `c155_two_particles_unconditional`, `c164_total_likelihood`, `c164_stages`, `c164_stages_evidence`, `c161_caller_reaches_record_refuted`, `c157_learned`, `c157_t2`, `c157_t2_one_time_refuted`, `c133_one_experiment`, `c133_information_range`, `c133_useless_experiments`, `c133_chain_rule`, `c133_announced_is_gained`, `c133_entropy_falls_on_average`, `c133_speed_limit`, `c133_surprises_refuted`, `c91_grid`, `c91_samples`, `c92_normal`, `c92_multivariate`, `c92_postselected`, `c105_other_particles_vanish`, `c105_averages_converge`, `c105_mean_and_covariance_converge`, `c135_value`, `c135_finite`, `c135_integers`, `c135_integers_refuted`, `c135_significant_refuted`, `c135_signs`, `c135_matrix`, `c135_repr`, `c135_labels`, `c109_value`, `c109_unit_balls`, `c109_slices`, `c153_worse_particles_vanish`, `c153_best_particles_take_all`, `c153_averages`, `c153_rate`, `c153_total`, `c153_closest`, `c153_truth`, `c66_score_exact`, `c99_simulation_matches_likelihood`, `c125_expected_information_gain`, `c126_multinomial`, `c146_total_likelihood`, `c19_entropy_bounds`, `c19_entropy_uniform`, `c19_zero_weights_contribute_nothing`, `c19_entropy_is_shannon`, `c128_total_likelihood`, `c141_posterior`, `c141_posterior_inside`, `c141_default_true_state_refuted`, `c141_prior_without_mean_refuted`, `c141_modern_matplotlib_refuted`, `c141_unknown_region_refuted`, `c141_ellipse_refuted`, `c116_ellipse_is_mahalanobis_ball`, `c116_long_axis_first`, `c116_rebit_ellipse`, `c116_coverage`, `c118_predictions_merge`, `c118_few_surprises`, `c156_others_vanish`, `c156_estimates_converge`, `c148_total_likelihood`, `c148_gain`, `c14_any_evidence`, `c14_negative_refuted`, `c78_kl_partial`, `c78_unit_bandwidth`, `c78_disjoint_support`, `c78_bandwidth_refuted`, `c80_mesh_refuted`, `c82_value`, `c82_symmetric`, `c82_uniform`, `c82_decreasing`, `c82_zero_weight`, `c82_power_zero`, `c05_log_total_likelihood_is_log_evidence`, `c13_last_outcome_impossible_refuted`, `c14_information_gain_is_mutual_information`, `c14_mutual_information_bounds`, `c14_zero_probability_refuted`, `c14_information_or_nan`, `c64_beta_law`, `c64_beta_mean`, `c64_mean_beta_draws`, `c160_step`, `c160_history`, `c160_untracked`, `c160_one_per_resampling`, `c160_failed_resampling`, `c160_number`, `c160_causes`, `c160_no_negative_weights`, `c160_few_particles`, `c160_enough_particles`, `c160_update_warnings`, `c160_resample_warnings`, `c160_twice`, `c160_debug`, `c31_unknown_t2`, `c39_inversion`, `c39_precession`, `c39_coin`, `c39_coin_boundary_refuted`, `c39_randomized_benchmarking`, `c39_interleaved_benchmarking`, `c44_to_simplex_is_a_probability_vector`, `c44_round_trip`, `c44_round_trip_back`, `c44_origin_is_uniform`, `c44_empty_vector`, `c111_best_particle`, `c111_total_is_the_best_score`, `c111_posterior_attains_it`, `c111_only_the_posterior_attains_it`, `c151_interval`, `c151_bound`, `c151_script`, `c151_code`, `c151_coin`

* **`ClassicalDedekindReals.sig_forall_dec`, `ClassicalDedekindReals.sig_not_dec`, `Classical_Prop.classic`, `functional_extensionality_dep`** (6 theorems): `c129_total_likelihood`, `c129_exactly_unbiased`, `c129_unnormalised_average`, `c129_overestimates_are_rare`, `c129_example`, `c129_shrinking_refuted`

## 6. Outcome per property

| id | status | file | note |
|---|---|---|---|
| C01 | proved | SmcProps.v | Evidence at least machine epsilon (otherwise the code skips the renormalisation) and threshold below one are the hypotheses; the resample check is shown to be the only difference when it is enabled. |
| C02 | partial | SmcProps.v | Proved for the policies error/skip/unknown with threshold >= machine epsilon, for every finite history with caught exceptions. The claim for ignore/warn/reset and for thresholds below machine epsilon is false of the code: refuted by witnesses. |
| C03 | proved | SmcProps.v | Frame over all modelled attributes, array entries agree with single calls, and prediction equals what update installs. |
| C04 | proved | SmcProps.v | Any history; each batch is replaced by the executed prefix of its plan. |
| C05 | proved | SmcProps.v | Also covers models with a time step (likelihood along the path of each particle). |
| C06 | proved | SmcProps.v | Hypothesis 'regular' (evidence at least eps at every step, for both orders) expresses 'no zero-weight event'. |
| C07 | proved | SmcProps.v | For every non-zero interval (negative included). |
| C08 | partial | SmcProps.v | All policies proved except 'reset', whose clause is false of the code: after re-sampling the prior the vanishing weights are written over the uniform ones (c08_reset_policy_partial says exactly what happens, c08_reset_policy_refuted gives the witness). |
| C09 | proved | SmcProps.v |  |
| C10 | partial | SmcProps.v | The iff, the counter and the flag after update/resample are proved. 'Latest operation' read to include reset() is false: the flag is left set (c10_flag_after_reset_refuted). |
| C11 | proved | SmcProps.v |  |
| C12 | proved | SmcProps.v | Policy 'reset' excluded (it draws a fresh cloud); time step must itself be permutation equivariant. |
| C13 | partial | RiskProps.v, SmcProps.v | Equality and bounds proved when the last outcome of the domain has positive evidence and every other one either is impossible or has evidence at least eps. c13_any_evidence: with any other evidences the result misses the expected posterior loss by at most the total evidence of the outcomes below eps times the Q-weighted size of the cloud; c13_small_evidence_refuted shows that the miss is real. With an impossible last outcome the code returns NaN: refuted. |
| C14 | partial | RiskProps2.v, SmcProps.v | Equality and bounds proved for strictly positive weights and likelihoods; a zero product of weight and likelihood makes the code return NaN: refuted. c14_information_or_nan: the number is the mutual information exactly when all products are positive, NaN otherwise. Outcomes with evidence below machine epsilon are left unnormalised: c14_any_evidence bounds the shortfall by the sum of -p ln p over them and shows that the number never exceeds the mutual information; it can be negative (c14_negative_refuted). |
| C15 | proved | PartProps.v |  |
| C16 | proved | PartProps.v | Draws are real numbers in [0,1); totality is also proved for weights that miss one. |
| C17 | proved | PartProps.v |  |
| C18 | partial | PartProps.v | Proved for 0 <= level < 1. At level 1 exactly the code indexes past the end: IndexError (refuted). |
| C19 | proved | PartProps.v |  |
| C20 | partial | PartProps.v | Partition of the particles into clusters proved. The total-variance identity between clusters is false of the code (refuted); the single-cluster case is proved. c20_reported_total gives the exact total the code reports. |
| C21 | proved | FreqProps2.v, LwProps.v | A non-finite square-root error raises ResamplerError, proved separately. |
| C22 | proved | LwProps.v |  |
| C23 | proved | LwProps.v |  |
| C24 | partial | LwProps.v | Mean and covariance proved for every non-zero covariance, with the converse. For a cloud of zero covariance the code adds zero_cov_comp, so the covariance is not preserved (refuted); its exact value is c24_zero_covariance_value. |
| C25 | partial | LwProps.v | False of the code (refuted by a two-particle witness): the retry uses the first remaining centres. Proved instead, for every rejection pattern: c25_rounds, the exact rule (round t, r-th open particle, r-th drawn ancestor); a first draw uses its own ancestor (c24_draw). |
| C26 | partial | StackProps.v | Proved for the standard domain 0..n-1: the returned outcome is the inverse-CDF image of the draw, each outcome's set of draws is an interval of length Pr(d), impossible outcomes never occur. Refuted for other domains (domain.values is indexed by values already taken from domain.values, so {1,2} reports 2 or raises IndexError) and for models with a varying number of outcomes (AttributeError). |
| C27 | partial | StackProps.v, StackProps2.v | Proved: counts equal the requested totals for every call history of a stack whose layers forward calls one to one. Refuted: MLE likelihood calls are not counted, BinomialModel simulations are not counted, repeat is ignored by GaussianHyperparameterized and Multinomial models, and the UnknownT2 and noisy coin bases do not count. |
| C28 | partial | DomProps.v | Proved for all integer and infinite bounds; n_members is the list length exactly when max >= min-1. Reversed bounds give a negative n_members and fractional bounds are rounded towards zero (both refuted). |
| C29 | partial | DomProps.v | Proved for factors given as separate arguments and non-empty factors. One list argument raises AttributeError, an empty factor makes values raise ValueError (both refuted). |
| C30 | proved | DomProps.v | n_members is modelled with exact binomials, not scipy's float binom. |
| C31 | proved | TwoProps.v | All eight models, plus the die; the experiment-range hypothesis is only needed for t >= 0 (unknown T2) and alpha, beta in [0,1] (noisy coin). |
| C32 | partial | DerProps.v | Proved in full for the likelihood (sum over shot records, distribution, single shot, construction over stand-alone models). Refuted: wrapping a powered binomial model raises TypeError instead of ValueError. |
| C33 | proved | DerProps.v | Likelihood equals the total mass of all records with the given counts; the sum is taken over the model's own outcome domain enumeration. |
| C34 | partial | DerProps.v | Range and perturbation bound proved in both modes. Refuted: the constructor never raises (both arguments: tol wins; neither: first likelihood call raises TypeError). |
| C35 | proved | DerProps.v | Order, zeros, power one and, in the SMC updater model, p updates equal one update of power p. |
| C36 | partial | DerProps.v | Proved for selections without negative indices and no (or a coordinatewise, inverted) transformation. Refuted: a negative index can slip through and walk another parameter; a mixing transformation moves undeclared parameters; a size mismatch raises AttributeError. |
| C37 | partial | DerProps.v, MomProps.v | Refuted: the density omits the factor 1/sigma of each component (and this changes posteriors). Proved: exact relation to the mixture density, equality for unit variances, rejection of non-positive variances. |
| C38 | proved | TwoProps.v | Both conversions, decay and bounds for the plain and the interleaved protocol, perfect gate. |
| C39 | partial | TwoProps.v | Proved for inversion, precession, coin with 0<p<1 and all components of plain and interleaved benchmarking; expectation zero proved for inversion, precession, coin and both kinds of benchmarking. Refuted for the coin at p=0 (p=1): likelihood one but score NaN. |
| C40 | proved | FishProps.v, TwoProps.v | Quadratic form identity, symmetry, positive semidefiniteness, binomial factor; n_meas times the single-shot matrix is the Fisher information of the count distribution itself (c40_counts). |
| C41 | proved | TwoProps.v | Both distances; the exact separation hypothesis is shown necessary. |
| C42 | partial | StackProps.v | Chain, base, underlying model, pass-through of outcomes/validity and parameter count proved for every stack. The claim that constant outcome count is inherited honestly is refuted (the derived class does not forward the property), with a positive theorem for stacks whose wrappers do. |
| C43 | partial | DomProps.v | Both round trips proved for non-empty arrays; an array without elements joins but separating it raises ValueError (refuted). |
| C44 | proved | UtilProps.v | All lengths, all real vectors; also the origin maps to the uniform vector. numpy's removed alias np.float in from_simplex is read as float. |
| C45 | proved | UtilProps.v | Strings are modelled; a separate reader recovers the fields. Decimal seconds are rounded to nearest with ties up (Python: to even). |
| C46 | proved | UtilProps.v | For element types whose == is equality and which are hashable. |
| C47 | partial | DerProps.v | Proved whenever N + 2h > 0; N = h = 0 gives 0/0 (refuted there). |
| C48 | proved | DistProps.v | Proved for every list of ranges, row number and draw in [0,1): each coordinate is low + draw*(high-low), lies in [low, high] (strictly below high when low < high) and equals low at draw 0. The constructor takes one pair or a list of rows and raises IndexError on a row shorter than two. The upper edge is not reached because NumPy draws are below 1. |
| C49 | partial | DistProps.v | Proved by induction over arbitrarily nested documented distributions for n > 0: the shape is (n, n_rvs) or postselection raised RuntimeError; products concatenate factor rows; mixtures are a permutation of component blocks whose sizes sum to n. Refuted: DiscreteUniformDistribution.sample returns shape (n,) (so products of them are one-index arrays of all draws in sequence), and MixtureDistribution.sample(0) raises ValueError. The mixture constructor's parametrised form (one class plus dist_args) is treated in C117. |
| C50 | proved | DistProps.v | Proved for every stream of answers of the wrapped distribution, every validity predicate, n and maxiters: success returns for each index its first valid proposal; RuntimeError happens exactly when some index has no valid proposal after maxiters rounds; also stated for the class wrapping any documented distribution. |
| C51 | partial | DistProps.v | Proved for positive totals. Refuted for every negative total: the factor sign(total) makes the row sum to minus desired_total. A zero total gives NaN. |
| C52 | proved | DistProps.v | Beta-binomial moments are proved from the finite outcome sums (Vandermonde and absorption identities). Beta and gamma moments are compared with the textbook moment formulas (ratios of rising factorials), which are specification, not derived from the densities. Admissibility conditions are stated; a beta-binomial with one trial has no inverse, which is shown. |
| C53 | partial | DistProps.v | Refuted: the class samples mu + sigma*exp(z). It equals exp(mu + sigma z) for all z exactly when mu = 0 and sigma = 1. |
| C54 | proved | DesProps.v | Proved for every distance function with non-negative finite values, every draw stream, dtype and option. RuntimeError exactly when all maxiters pairs are at distance 0. Side findings, also proved: fields neither set by the heuristic nor by other_fields are uninitialised memory; a scalar inversion field refuses particles with several parameters; maxiters = 0 raises UnboundLocalError. |
| C55 | partial | DesProps.v | Proved for histories of any length and for a named time field with other_fields given. Refuted: a time field with the default other_fields=None raises AttributeError. |
| C56 | partial | DesProps.v, DesProps2.v | Proved for histories of any length with CG and NELDER_MEAD when the optimizer reports the objective at its point and no value is NaN. Refuted for NULL (no cost is ever stored, so the last guess wins), for NCG after the flat-gradient fallback (TypeError in Python 3), and after a NaN cost (never replaced). Callable guesses always raise TypeError, Heuristic guesses NotImplementedError. SciPy's optimizers are replies supplied from outside. |
| C57 | proved | ParProps.v | Proved for every entrywise serial likelihood (the Model interface: entry (o, m, e) depends only on o, m, e), every engine count of at least one, threshold, array and completion order. An engine that never delivers makes the call fail (c57_lost_engine); pickling is not modelled. |
| C58 | partial | ParProps.v | Proved on the serial branch and for one engine. Refuted for two or more engines: results are concatenated along axis 0 (models) or axis 1 (experiments), one axis too low, so the shape is wrong for every input that does not raise, and unequal chunks raise ValueError. |
| C59 | proved | ParProps.v | Proved for every schedule that runs each work item once and every initial buffer content. Reals replace float32. |
| C60 | proved | TomoProps.v | Every dimension d >= 1; the program's plane assignments are modelled in order and their index arithmetic proved to hit every plane exactly once. Dimension 0 raises IndexError. |
| C61 | proved | TomoProps.v | Any non-empty list of tomographic factors; pauli_basis(n) for every n >= 1 (n = 0 raises TypeError). c61_tensor_distribution_refuted: TensorProductDistribution passes a generator and its constructor always raises AttributeError. |
| C62 | proved | TomoProps.v | Round trips and Born rule for every basis meeting the stated hypotheses; also the covariance superoperator. |
| C63 | proved | TomoProps.v | Unit trace for any eigensolver output, for calls that return; positivity, fixed points and acceptance assume the eigensolver returns a unitary eigendecomposition of Hermitian input (np.linalg.eig does not promise orthogonal vectors for degenerate eigenvalues). Noise is one real draw per model and parameter. |
| C64 | partial | TomoProps.v, TomoProps2.v | Mean and positivity proved for minimal eigenvalue strictly between 0 and 1/d, for any law of the fiducial state with mean I/d and any independent law of the damping with the Beta(1,beta) mean (c64_mean_of_any_law), in particular for the Beta(1,beta) law itself as an integral over its quantile function (c64_beta_law, c64_beta_mean, c64_mean_beta_draws); every sample is a density operator. Refuted: the maximally mixed mean gives NaN, and rank-deficient means raise ValueError on sampling. |
| C65 | partial | MiscProps.v | Termination and the probability property hold when 1 <= samp_step <= min_samp (as integers); refuted otherwise: the constructor accepts samp_step > min_samp (all-ones data make the estimate exceed one, the error NaN, and the loop endless) and samp_step in (0,1), truncated to 0. |
| C66 | proved | MiscProps.v | Exact for FiniteDifference.central and ScoreMixin.score (log-derivative); a zero step gives NaN (shown). |
| C67 | partial | MiscProps.v | Refuted: the setter assigns its own property and always ends in RecursionError; the constructor argument can be read back. |
| C68 | partial | MiscProps.v | Partition, heaviest-first, good mass above the mixture ratio, min_good and Bayes form proved for every argsort and shuffle; refuted in that the method raises AssertionError exactly when every particle is good (mixture_ratio >= 1, or one particle). |
| C69 | partial | MiscProps.v | Additivity, order independence, adaptive matrix, monotonicity proved; privacy refuted (initial_bim is stored by reference and mutated; an integer array makes every update a TypeError); resample_a is silently dropped. |
| C70 | partial | MiscProps.v | Row contents proved for every successful run; error policy restored whenever the call returns, refuted when a trial fails without allow_failures. |
| C71 | proved | DesProps.v | np.random.choice is modelled by its documented algorithm (checks, cumulative sum, right search). |
| C72 | partial | MiscProps.v | N = min_samp + (r-1) samp_step proved; equals the r*samp_step samples drawn iff min_samp = samp_step; otherwise refuted with a witness. |
| C73 | proved | MiscProps.v | One evaluation per success, no caching of failures. |
| C74 | proved | RegProps.v, RegProps2.v | For all spanning clouds and inverse routines: weights stay a distribution, no failure, the loop stops for every positive tolerance, the result encloses every point up to an explicit slack that tends to 1, and no enclosing ellipsoid is smaller, so the volume is minimal up to that slack. Exact enclosure at the default tolerance is false (c74_exact_enclosure_refuted); the claim speaks of the tolerance. |
| C75 | partial | RegProps.v | All three tests characterised; la.inv, Delaunay and chi2.ppf by their contracts. Refuted: documented orientation of the returned matrix, unknown method strings, level with zero quantile, one-parameter distributions. |
| C76 | proved | RegProps.v | Mass and convexity under the Delaunay contract; the ellipsoid statement carries the tolerance slack of C74. |
| C77 | partial | RoProps.v | Value and metric laws proved when the first argument is an updater. Refuted when only the second argument carries the model: Q is then ignored. |
| C78 | partial | RoProps.v | Holds for bandwidth one. In general the code differs from the divergence by a proved closed-form term; refuted for the default bandwidth 1/100 and Gaussian kernel. |
| C79 | partial | RoProps.v, RoProps2.v | Equally spaced points, non-negativity and trapezoid integral proved for every range whose doubled upper end covers the particles, every value pinned down as a difference quotient of the piecewise linear distribution function; normalised on a range strictly containing the particles. Refuted for the default range (weight at the smallest location is lost) and for coinciding particles (NaN). Smoothing is C121. |
| C80 | partial | RoProps.v | Exact value of every entry proved; the documented orientation is refuted (square meshes are transposed, only the diagonal is right). |
| C81 | partial | RoProps.v | Metric lies in the unit interval for positive total. Refuted: it is not the explained share of the particle variance, because cluster moments use un-normalised weights, and zero variance silently gives NaN. |
| C82 | proved | RoProps.v | Zero weights are covered separately: infinite or NaN distances. |
| C83 | proved | SmcProps2.v | P is arbitrary; time-step hypothesis is needed because smc.py does not canonicalise after update_timestep. only_params resets canonicalise only the selected columns and are excluded. |
| C84 | proved | SmcProps2.v | Counter is the base class call_count of the updated model, advanced by Model.likelihood. |
| C85 | proved | DomProps.v | With both bounds at +inf the only member is infinite and the example point 0 is outside: c85_example_point_refuted. |
| C86 | proved | MomProps.v | Cholesky correctness and unit-covariance noise are hypotheses (external numerics) |
| C87 | proved | MomProps.v | moments of the underlying unit draws are hypotheses |
| C88 | partial | StackProps2.v | multinomial n_outcomes refuted (NameError) |
| C89 | proved | TwoProps2.v | floating-point rounding not modelled |
| C90 | partial | StateProps.v | HilbertSchmidtUniform cannot be instantiated and GinibreReditDistribution does not check its rank (refuted) |
| C91 | partial | InterpProps.v | the coordinate in compactspace's docstring is the logistic density, which takes every value twice, while the grid is equally spaced in the logistic CDF (c91_documented_coordinate_refuted) |
| C92 | partial | InterpProps.v | UniformDistribution returns 12/width^2 in another shape for a batch of one model (c92_uniform_single_refuted); everything else proved |
| C93 | proved | HeurProps.v | QuTiP eigenvectors are arbitrary unit vectors; random choices are arguments; conversion of the operator list by np.random.choice is not modelled |
| C94 | proved | HeurProps.v | floating-point rounding not modelled |
| C95 | partial | HeurProps.v | ProductHeuristic with RandomPauliHeuristic always raises ValueError because that class takes its dimension from the channel model (c95_product_pauli_refuted); preparation enters transposed |
| C96 | partial | HeurProps.v | with DiffusiveTomographyModel every call raises ValueError (c96_diffusive_refuted); k = 0 raises |
| C97 | partial | SimpleProps.v | a dtype given as a string (which scalar models of the package declare) or as an np.dtype record makes the call fail (c97_string_dtype_refuted, c97_record_dtype_refuted); negative numbers cast to unsigned are not modelled faithfully |
| C98 | partial | SimpleProps2.v | closed form for runs without a resampling step, otherwise one update per datum in order (c98_one_datum_at_a_time); freq_min does not bound the estimate (c98_freq_min_refuted); a text of one line raises IndexError (c98_single_line_refuted) |
| C99 | partial | MultProps.v | Counts, law, domain and agreement with the likelihood proved for all inputs. Refuted: the documented tuple sizes always end in ValueError. |
| C100 | partial | MultProps.v | Readings and noise across models and experiments proved. Refuted: all repetitions share one normal draw. |
| C101 | partial | FmtProps.v | Error bounds, exactness and typesetting proved where they hold; for ordinary values the printed uncertainty vanishes in part of every decade (c101_uncertainty_vanishes, c101_digits_refuted), negative or two-digit exponents are not typeset (c101_typeset_refuted), and zero uncertainty prints six decimals only (c101_exact_number_refuted). |
| C102 | partial | FmtProps.v | Exact condition proved for positive references and zero; the announced bound of half a unit is refuted, and negative references agree with everything (c102_negative_refuted). |
| C103 | proved | CountProps.v | Updates without resample check, evidence at least machine epsilon at every step, static models (update_timestep is the identity). |
| C104 | proved | LearnProps.v | Updates without resample check; a data record of positive predicted probability must keep the evidence above machine epsilon at each step. Mean and covariance for static models, weights also for drifting particles. |
| C105 | proved | LearnProps.v | Without resampling, static models, likelihoods bounded below by machine epsilon on the possible outcomes, the true particle being one of the cloud. |
| C106 | partial | LegProps.v | The likelihood formula, its range, the entry-by-entry meaning of the simulation and its limiting law are proved. The claim itself is false: simulation picks the first state with probability (1+lam)/2 while the likelihood uses lam; c106_agreement gives the exact condition for agreement and c106_simulation_refuted a witness. The uniform variate is modelled as equally spaced and the integer as equiprobable. random_integers and the choice of state are as in the code; HTCircuitModel cannot be instantiated (C107). |
| C107 | partial | LegProps.v | Born rule and range proved for one experiment (qubit), formula for rebit and multi-qubit, shape for multi-qubit. False in general: several experiments pair up or raise ValueError for the qubit model, the rebit model ignores visibility, the classes leave abstract methods open so none can be instantiated, and pr0_to_likelihood_array is not an attribute of Model. |
| C108 | proved | MatProps.v | For every dimension. eigh enters through its contract (orthonormal complete eigenvectors); positivity needs no contract. check_finite and rounding are not modelled. |
| C109 | proved | MatProps.v | Volume is characterised by Cavalieri's principle (slices along the first coordinate, integral by antiderivatives) and the value 1 in dimension 0. Contracts: gamma at half-integers, det of the principal root is the root of the elimination determinant (c109_contracts derives it from multiplicativity), la.inv. |
| C110 | proved | ReProps.v | Static particles, canonicalisation that does nothing, every outcome either impossible or at least machine epsilon likely, all proposals accepted in the first pass (postselection that rejects would bias). A uniform number enters only through the slot of the weights it falls into; the Riemann integral is shown to be such a law. c110_resampled_covariance shows that the cloud's own covariance shrinks by 1 - 1/n on average (the documented preservation holds for the law of a new particle, C24). |
| C111 | proved | VarProps.v | Records of regular updates (the zero-weight branches not taken), no resampling in between; candidates are distributions on particles that had prior weight and positive likelihood of the record. |
| C112 | proved | PartProps2.v | Levels below one (C18 shows the code fails at level one); ties among weights are covered since any ascending argsort is allowed. |
| C113 | partial | PerfProps.v | An axis of length zero breaks alignment (c113_empty_axis_refuted: [-0:] keeps everything); c113_one_index ties the array model to the one-index form used in the performance loop (C70). |
| C114 | proved | PerfProps.v | NumPy's rule that record field names are distinct is part of the model; c114_failed_block_refuted: a block that raises never stops its timer. |
| C115 | proved | PerfProps.v | Creating the bar is assumed to succeed. c115_full_bar_refuted: the bar never reaches its maximum; c115_broken_bar_masks_refuted: a bar that fails masks successful trials. |
| C116 | proved | PlotProps.v, PlotProps2.v | The eigensolver is an arbitrary orthonormal eigendecomposition; signed zeros of arctan2 are not distinguished; colours and labels are left out. Also proved: with the Gell-Mann basis the default axes show the Z and X coordinates of rebits, filling the drawn circle; with the Pauli basis they do not show Z (c116_default_axes_pauli_refuted). |
| C117 | partial | MixProps.v, MixProps2.v | c117_no_positional_arguments_refuted: the documented None for classes without positional arguments always raises AttributeError. c117_law and c117_rows_independent give the law for all components that draw their rows one by one (c117_one_by_one: every documented one except postselected ones, nested mixtures and DiscreteUniform), over component laws with finitely many values |
| C118 | proved | RateProps.v | Assumes updates without resampling and, as in C104/C105, that no record possible under the truth meets an evidence below the zero threshold; with moving particles (timestep) unless stated static. |
| C119 | partial | FltProps.v | Refuted as stated: with ten weights 1/10 and the largest draw 1 - 2^-53 the Liu-West resampler raises IndexError, sample can return a last particle of weight zero, a credible level of 1 - 2^-53 raises IndexError, and the simulator returns an impossible first outcome (c119_*_refuted). Proved: order and error of cumulative sums, correct behaviour for every draw below the last cumulative sum, and the chance of the other draws. Overflow not modelled. |
| C120 | proved | FltProps2.v | Likelihood values are taken as the model returns them; overflow not modelled; c120_run and c120_normalisation assume no underflow (sufficient condition: c120_no_underflow) and no resampling. |
| C121 | partial | GfProps.v | Proved for every input: an average over a Gaussian of standard deviation smoothing*res/(res-1) (mirrored at the ends, cut off after about four standard deviations), non-negative, with the same sum over the grid, within the range of the plain values and with no larger sum of squares; tiny widths and widths <= 0 change nothing. Refuted: the documented width (off by the factor res/(res-1)) and conservation of the trapezoid integral (it changes by the end values, exact formula proved). A range of length zero raises OverflowError. scipy.ndimage.gaussian_filter1d is modelled from its documentation. |
| C122 | partial | FcProps.v | Error bound for every entry, any signs and any order of summation, relative to the second moments; a computed variance is never below minus that error; a single particle has covariance exactly zero. Refuted: particles 1 and 1+3/2^52 have computed variance -2^-52 (warning, NaN correlation, and a Liu-West step without any noise), and the matrix is not symmetric for two particles with weights 3/4 and 1/4. No overflow, no fused multiply-add. |
| C123 | proved | ConvProps.v | Explicit constants (relative spread of the likelihoods of the prefixes of the record) and rate one over the number of particles. Chances are values of a positive linear functional on bounded functions of the draws with pairwise independent particles; c123_finite_priors builds it for every prior with finitely many values. Particles may move one by one between data. Runs that meet the zero-weight rules are part of the bound. No resampling (C110 covers its unbiasedness). |
| C124 | partial | NdProps.v | Exact arithmetic on shape/index arrays (Nd.v). The die needs outcomes in 0..d-1 and the tomography model measurement vectors of the model's dimension. c124_width_check_refuted records the one hole in the shape checks: SimpleInversionModel accepts a parameter array with one column per experiment and pairs column k with experiment k. |
| C125 | proved | NdProps.v | For any like_arr meeting the documented layout (C124 shows the built-in models do). Risk and information gain need at least two outcomes, as the last one is obtained by subtraction; agreement is with SmcModel.hypothetical_update and RiskModel.bayes_risk1/eig1. |
| C126 | proved | NdProps2.v | For any underlying likelihood array with the documented layout. scipy's binomial pmf, gammaln and normal pdf are taken to be exact. c126_*_invalid are the assertion failures. |
| C127 | partial | NdProps2.v | Full statement false: c127_zero_weight_test_refuted shows that with several outcomes or experiments the zero-weight test sums over all of them, so a first pair impossible for every particle passes and all-zero weights are stored. c127_first_outcome_first_experiment is the exact behaviour, c127_single_update the documented use. |
| C128 | proved | PfProps.v | error bound and convergence for every faithful resampler, Liu-West with a = 1, h = 0 shown faithful; c128_shrinking_refuted: with a = 0.98, h = 0 averages do not converge. Time steps are deterministic per particle; random draws enter as abstract expectation functionals (Riemann integral for the uniform). |
| C129 | proved | UbProps.v | for every unbiased and faithful resampler and any number of particles; Liu-West with a = 1, h = 0 shown unbiased; c129_shrinking_refuted: strictly biased with a = 0.98, h = 0. Random draws enter as abstract expectation functionals. |
| C130 | partial | ClsProps.v | Six exported or documented classes cannot be instantiated (c130_library_refuted): HilbertSchmidtUniform, four legacy tomography models, UnstructuredFrequencyModel. Everything else is proved, for all programs extending the library. What constructors do besides continuing to other constructors, and their arguments, are not part of this model. |
| C131 | proved | CalProps.v | The truth is drawn from the initial cloud with its weights; nothing is resampled and no warning or error arises on a possible record (study). c131_longer_studies_are_better takes particles that do not move between experiments, c131_risk_is_least_error the conditions under which bayes_risk is exact (C13). |
| C132 | partial | ExpProps.v | Proved as stated, except that MultinomialModel's likelihood does not look at n_meas at all (c132_multinomial_ignores_n_meas_refuted), and that a base model with a field n_meas of its own gives a dtype of which no array can be created, which the constructor does not notice (c132_clash_refuted). NumPy's behaviour on assigning records to a number field (ValueError) is the one test_models.py:188-196 expects; newer versions raise TypeError. |
| C133 | proved | IgProps.v | Exact real arithmetic, no resampling. The identity with the reported gains needs likelihoods of at least machine epsilon (below that expected_information_gain reports non-finite numbers, see C14); the identity with the mutual information does not. c133_surprises_refuted shows that monotone entropy per update is false. |
| C134 | partial | VerProps.v | Version strings are ASCII; LooseVersion is modelled from its documented regular expression. Proved for dotted version numbers; refuted beyond them: release candidates pass (c134_candidate_refuted), trailing zeros matter, numbers against letters raise TypeError out of get_qutip_module, without distutils nothing is found, the message of require_qutip names a version that fails, and heisenberg_weyl_operators of tomography/models.py always raises. |
| C135 | partial | LtxProps.v | The claim about integers missed by at most the tolerance is false on one side: int() truncates, so 1 - 5e-11 is displayed as 1.000 (c135_integers_refuted; c135_integers for the other side). Three decimals are not significant figures: 0.0014 is displayed as 0.001 (c135_significant_refuted). A negative imaginary part is displayed with both signs, 'a + -b i' (c135_signs). The reader of numbers and matrices is written in LtxSpec.v without the printer. Numbers are exact reals or infinities/NaN; negative zero is not distinguished. |
| C136 | partial | LabProps.v, LabProps2.v | Exceptions found and proved: a label text with a braced name (ordinary LaTeX) makes the constructor raise KeyError (c136_braces_refuted); subscripts carry no braces, so typeset only the first ten numbers are subscripts (c136_subscript_refuted); labels that contain a tensor sign themselves can collide (c136_tensor_distinct_refuted); the Pauli labels name matrices sqrt(2) times the elements (c136_scale_refuted); the default axes of rebit plots are labelled sigma_x and sigma_y (c136_rebit_axes_refuted). A text with a replacement field of its own raises IndexError (c136_field_refuted). Dimensions multiply and every tensor product iterates over all its elements. str.format is modelled for one positional argument with empty, named and doubled braces. The Qobj constructor called by __getitem__ is not modelled. |
| C137 | partial | CfgProps.v | Exceptions found and proved: SafeConfigParser is gone since Python 3.12, so that read_config always raises there (c137_modern_python_refuted); an unreadable file counts as empty (c137_unreadable_refuted); a failure while writing has already emptied the file (c137_failed_save_refuted); reading makes the directory (c137_reading_makes_directory_refuted); a file called .config makes reading find nothing and saving fail (c137_file_in_the_way_refuted); without APPDATA the file goes to a directory of that literal name (c137_no_appdata_refuted). Path names are compared as strings; drives, links and dots are not modelled. |
| C138 | partial | DueProps.v | Exceptions found and proved: since Python 3.6 a missing package raises ModuleNotFoundError, whose name is not ImportError, so that every import logs an error (c138_absent_refuted); decorate_init gives UnknownT2Model the constructor of FiniteOutcomeModel as its own, so that with multiple inheritance a constructor that comes between the two is skipped (c138_skipped_refuted, c138_mixin). Classes derived by single inheritance, and all others without such a constructor, are covered. KeyboardInterrupt and the like are passed on (c138_interrupt). |
| C139 | partial | UtlProps.v | Exceptions found and proved: a single weight, or a table with a single row, is stretched to the other's length instead of being refused (c139_stretched_refuted); weights that do not add up to one cause the warning without any numerical error (c139_warning_refuted); outer_product of an array with one row and two axes is the squared length (c139_outer_row_refuted). |
| C140 | partial | EnuProps.v | Exceptions found and proved: a repeated name keeps its last number only and the first then belongs to no name (c140_repeated_refuted); a keyword can take a number's name away (c140_keyword_refuted); the name reverse_mapping is lost (c140_reserved_refuted). |
| C141 | partial | PicProps.v | The default true_state=None, a prior without a mean, matplotlib without axes.color_cycle and an unknown region contradict the natural reading (refuted); a qutrit and the error ellipse can leave the circle (refuted); matplotlib and the eigensolver are not modelled |
| C142 | partial | FigProps.v | A list of indices or one index always fails, given tick labels are not selected by the slice, further true models are ignored, the contour inherits the transposed mesh, and risk fails for experiments with several fields (refuted) |
| C143 | partial | SelfProps.v | Each test is proved equivalent to the meaning of passing it. Refuted parts: test_model returns None whatever the outcome (c143_verdict_refuted); an empty first domain makes the tests run forever (c143_endless_refuted); map_async always gives None (c143_map_async_refuted); with as many parameters as experiments a swapped update_timestep passes (c143_timestep_refuted); a likelihood constantly 7 passes (c143_values_refuted); without experiments two of the tested sizes coincide (c143_sizes_refuted). |
| C144 | proved | ConjProps.v | Updates without resample check, static model, evidence at least machine epsilon at every step (implied by eps (a+b+n) <= a, b for single shots). |
| C145 | proved | DecProps.v, FreqProps2.v | Evidence at least machine epsilon at every update; the resampler is any function that returns equal weights for as many particles (as LiuWestResampler does). |
| C146 | proved | NearProps.v | Updates without resample check, static models, evidence at least machine epsilon in both runs. |
| C147 | proved | DirProps.v |  |
| C148 | proved | RepProps.v |  |
| C149 | partial | AmpProps.v | c149_weights, c149_mass and c149_mean hold for every power that keeps the evidence of each update at least machine epsilon; c149_limit_partial is the limit under that condition and c149_certain the full limit when the best particle gives the data probability one. The limit as documented is false in the code: c149_limit_refuted shows that when every particle gives some outcome probability at most q < 1, all large enough powers make the update raise RuntimeError and leave the cloud unchanged. |
| C150 | proved | CrProps.v |  |
| C151 | proved | VtProps.v |  |
| C152 | proved | SymProps.v |  |
| C153 | proved | MisProps.v |  |
| C154 | proved | UnitProps.v |  |
| C155 | proved | GuessProps.v |  |
| C156 | proved | RbProps.v |  |
| C157 | proved | IdProps.v |  |
| C158 | proved | BfProps.v |  |
| C159 | proved | DispProps.v |  |
| C160 | proved | TrkProps.v |  |
| C161 | proved | HeapProps.v |  |
| C162 | proved | DegProps.v |  |
| C163 | proved | FreqProps.v, FreqProps2.v |  |
| C164 | proved | HandProps.v, HandProps2.v |  |
| C165 | proved | LoopProps.v |  |
