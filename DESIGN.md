# Formal model of abcpy: design

Source modelled: `/repo` (eth-cscs/abcpy at the pinned commit), read as text; nothing is executed.
Prover: Coq/Rocq 8.16.1. All files live in `rocq/theories`, logical prefix `Verif`.

## 1. Method

* Every Python function that is modelled becomes a total Gallina function mirroring it branch by branch.
  Each definition has a comment with file and lines; simplifications are stated in that comment.
* Python exceptions are values (`res A := Ok a | Err e`), Python `None` is `option`.
* Objects and shared mutable state (the model graph, the per-node `visited` mark, stored value,
  `calculated_pdf`, caches, journals, inference objects between calls) are explicit records threaded through the functions.
* Random generators, simulators, user densities and third-party numerics are *oracles*: Section variables or
  explicit function arguments / lists of outcomes, universally quantified in every theorem.
* Unbounded `while` loops take fuel and return `OutOfFuel`; theorems speak about every fuel on which the loop
  ends, and where termination is a property it is proved separately.
* Floating point is replaced by exact arithmetic: `Q` when only field operations and comparisons occur (`num` adds infinities and NaN),
  `R` when `exp`, `log`, `sqrt` occur (`xr` adds infinities and NaN). Rounding is modelled only where the code itself rounds
  on purpose (float32 bounds of the transformers, truncation of counts).
* Files: `M_*.v` models, `S_*.v` specifications (readable without the model), `L_*.v` proofs,
  `P_*.v` property theorems with `Print Assumptions` and `Example`s that meet the hypotheses.
* If the code violates a property, the file contains `..._refuted` with a concrete witness (or a proof that it fails for every input of a class)
  plus the strongest true theorem; both are listed below.

## 2. Trusted base

* Coq's kernel (and `coqchk`).
* The reading of the Python source recorded in the comments.
* Axioms: section 6 lists what `Print Assumptions` reports for each theorem. Only theorems about real numbers depend on
  standard-library axioms of `Coq.Reals` / `Coq.Logic`; all others are closed under the global context.
* Improper integrals (C58, C98) are those of Coquelicot, which adds no axioms of its own.
* Hypotheses about third-party code appear as hypotheses of the theorems that use them (for instance: `randint(a, b)` returns values in
  `[a, b)`; `ot.emd2` is an exact solver; a classifier predicts a class it was trained on).

## 3. Which code is modelled

| source | modelled | not modelled |
|--------|----------|--------------|
| `graphtools.py` | all walks: sampling, densities, mapping, get/set parameters, names, ordering, simulate (M_Graph, M_APM) | `pdf_of_prior`'s optional mapping argument beyond what the schemes pass |
| `acceptedparametersmanager.py` | all (M_Graph `get_mapping`, M_APM) | broadcasting is the identity |
| `probabilisticmodels.py` | InputConnector (M_Connector); values, marks, checks, arithmetic models (M_Graph) | string/print methods; arithmetic models with 2-dimensional operands use position 0 as the code does |
| `continuousmodels.py`, `discretemodels.py` | Uniform, Normal, StudentT, LogNormal, Exponential, Bernoulli, Binomial, Poisson, DiscreteUniform (M_Priors); MultivariateNormal, MultiStudentT (M_MVPrior) | scipy's multivariate normal density; numpy's samplers are replaced by inverse transforms where a law is claimed |
| `inferences.py` | perturb, DrawFromPrior, RejectionABC, PMCABC, PMC, SABC, ABCsubsim, RSMCABC, APMCABC, SMCABC, MCMCMetropoliHastings incl. restart, bounds, adaptation | logging; the graph is represented by its parameter vector (C95 proves that the workers cannot tell the difference, for graphs without arithmetic nodes; M_Worker) |
| `perturbationkernel.py` | JointPerturbationKernel, RandomWalkKernel, NetworkRandomWalkKernel, DefaultKernel; drivers and covariance matrices of MultivariateNormal and StudentT kernels (M_Kernel, M_Cov); draw and density of the StudentT kernel (M_TKernel) | the density of the normal kernel (scipy) is a parameter |
| `output.py` | Journal recording, getters, ESS, posterior mean, covariance and histogram (M_Posterior), resample, Wass_convergence_plot numbers, GenerateFromJournal, what is drawn where by plot_posterior_distr, plot_ESS and traceplot (M_Plot) | density estimates, layout and files of plots, pickling |
| `transformers.py` | all (M_Transform, M_Scaler) | overflow of exp beyond 709 |
| `statistics.py` | all; neural networks are arbitrary row functions (M_Stats); NeuralEmbedding with modes, scaler, saving and loading (M_Pipeline) | ragged inputs |
| `distances.py` | cache, Euclidean, PenLogReg/LogReg values, declared maxima and signs, the checks of SABC and SMCABC (M_Declared), Wasserstein, SlicedWasserstein (M_Sliced), Gamma, KL, MMD, Energy, Hellinger | classifiers, optimal transport solver (hypotheses) |
| `approx_lhd.py` | cache; SynLikelihood and SemiParametricSynLikelihood (M_Syn); PenLogReg with its reference data and folds (M_PenLik, M_KNN) | covariance estimator, matrix inverse, kernel density estimator, quantile function, LogitNet (parameters) |
| `jointdistances.py`, `jointapprox_lhd.py` | all (M_Joint) | |
| `modelselections.py` | RandomForest (M_Select) | the forests |
| `backends/mpi.py`, `mpimanager.py`, `__init__.py` | leader, scheduler, worker loops as an asynchronous transition system; communicator layout (M_MPI, M_Roles); a leader and the workers of its team with nested execution, collective calls matched by position (M_Nested); drivers that react to the answers of the scheduler, running together with the leaders (M_MPIDriver); one map with any chunk_size (M_MPIChunk) | MPI transport (assumed reliable, FIFO per pair of ranks), pickling apart from object identity in M_Select |
| `backends/spark.py`, `backends/base.py` | all (M_Spark): commands of a driver, lists with aliasing, lazy data sets | pyspark itself |
| `utils.py` | all (M_Cached, M_Wass) | |
| `NN_utilities` | networks with derivatives (M_NN), similarity matrices and data sets (M_Similarity), trainer (M_Trainer), training routines with their loaders and default arguments (M_NNTrain), losses (M_Losses), Jacobian utilities (M_Jacobian; autograd is a parameter) | torch optimisers |
| `statisticslearning.py` | data generation and splitting, Semiautomatic (M_Learn), score matching training loop (M_ScoreTrain), constructors and get_statistics of the network methods (M_Pipeline), plot_losses (M_LossPlot) | optimisers, devices |

## 4. Properties

| id | property | status | file | scope of the proof |
|----|----------|--------|------|--------------------|
| C01 | All graph walks agree on the order of the free parameters | proved | P_Graph | For observed models none of which is an input of another; without that condition the walks disagree (C01_observed_input_refuted). |
| C02 | set_parameters followed by get_parameters gives the values back | proved | P_Graph | As stated. |
| C03 | Graph operations leave the graph reusable | proved | P_Graph, P_GraphExact | Full for the corrected statement; the exceptional case is C03_short_list_refuted. |
| C04 | The joint prior density multiplies each free parameter's density exactly once | proved | P_Graph, P_GraphExact | Exact value for every vector of the right shape; the intended once-per-parameter product holds for accepted vectors with each discrete node on one path (C04_prior_density_once) and is refuted otherwise. |
| C05 | Prior sampling is ancestral sampling | proved | P_Graph, P_GraphExact | Arithmetic nodes included, through the relation Fresh of S_Fresh.v. Assumes that a simulator's answer passes its own output check and that operations have two inputs. |
| C06 | Rejected set_parameters is reported and its effect is delimited | proved | P_Graph | The extra theorem shows that the verdict itself depends on previously stored values. |
| C07 | Input connectors flatten nested parameter lists in order | proved | P_Connector | InputConnector: flattening order, index errors and getitem proved for every input list; negative index -dim-1.. is accepted at construction and only fails later (refuted instance). |
| C08 | Arithmetic on random variables uses one draw per variable | proved | P_Graph, P_GraphExact | All operators and nestings through the relation Fresh of S_Fresh.v; division by zero is 0 in the model (Q). |
| C09 | Distributed map/collect equals sequential map under every schedule | proved | P_MPI | Every schedule, every number of leaders (one process per model), every correct program. Two uses BackendDummy accepts fail under MPI: mapping a mapped data set, collecting a data set that was not mapped. |
| C10 | A failing work item surfaces as an exception at collect and never loses other items | proved | P_MPI | Proved for exceptions that can be rebuilt from one string; an exception class that cannot kills the leader and the map hangs; a returned exception object is raised. |
| C11 | Data-set identifiers and broadcast values stay coherent on all ranks | proved | P_MPI | Identifiers for every program; stores and deletions for correct programs. |
| C12 | A journal keeps exactly what its type promises | proved | P_Journal | All seven getters after every history of add calls. |
| C13 | Reported effective sample size lies between 1 and n | proved | P_Journal | Weights in the (n,1) shape all schemes record; a flat weight vector is a TypeError (C13_flat_refuted). |
| C14 | Posterior mean is a convex combination of the stored samples | proved | P_Journal | Needs at least two samples: with one, np.squeeze drops the sample axis and np.average raises (C14_one_sample_refuted). |
| C15 | Resampling a journal only reproduces stored samples, under the right names | proved | P_Journal | Holds when parameter names are distinct; with a shared name the claim is false (C15_shared_name_refuted). |
| C16 | Rejection ABC returns n samples, all below the threshold | proved | P_Rejection | Holds whenever a journal is returned, apart from NaN distances which are accepted (C16_nan_refuted). Returns one exactly under the stated conditions; 1 sample or more than 46340 samples and thresholds not below dist_max always raise. |
| C17 | Rejection ABC with simulation budget keeps the closest simulations | proved | P_Rejection | Holds whenever a journal is returned; errors for ties below the quantile and for distances with finite dist_max are exhibited. |
| C18 | PMC-ABC thresholds never increase and are respected | proved | P_PMCABC | NaN distances excepted. Side findings: the caller's threshold list is overwritten, a second call starts from the old population, restarting grows the stored list. |
| C19 | Importance weights are non-negative and normalised | proved | P_APMCABC, P_PMC, P_PMCABC, P_SMCABC | PMCABC (and its zero-density failure), APMCABC (retained weights normalised, recorded ones not), SMCABC (as long as some particle survives each reweighting; NaN otherwise). PMC: positive and summing to 1 for finite likelihoods and positive kernel densities, but the prior density enters twice. |
| C20 | Replenishment SMC keeps a full population below a shrinking threshold | proved | P_RSMCABC, P_Round | Full characterisation of a run of RSMCABC, and the cases in which the claim fails. |
| C21 | An accepted move is the one that was simulated | proved | P_APMCABC, P_PMCABC, P_RSMCABC, P_SABC, P_SMCABC, P_Subsim | Proved for PMCABC, APMCABC, SMCABC moves, ABCsubsim and SABC; false for RSMCABC (reported parameters are the old ones) and SMCABC's one-hit kernel. |
| C22 | Adaptive population Monte Carlo keeps the best alpha fraction | proved | P_APMCABC | The unconditional claims (threshold never increases, n particles) are false; the exact behaviour and a sufficient condition are proved. |
| C23 | SMC-ABC thresholds decrease to the final threshold | proved | P_SMCABC, P_Threshold | Full characterisation of a run of SMCABC for both versions and all three kernels. |
| C24 | Particles and their simulated data stay paired in SMC-ABC | proved | P_SMCABC | Distances always belong to the stored simulations; parameters and simulations belong together only without resampling (refuted otherwise, for both versions). |
| C25 | Subset simulation returns n_samples samples with decreasing annealing parameter | proved | P_Subsim | Full characterisation of a run of ABCsubsim on a fresh object. The claim holds when chain_length divides n_samples; the annealing parameter is the mean of two sorted distances (not one of them) and may increase; restarting from a journal always fails. |
| C26 | SABC smoothing and acceptance probabilities are well-formed | proved | P_SABC, P_Threshold | Full characterisation of a run of SABC on a fresh object. The three claims hold for non-negative distances and a positive epsilon in the first iteration; later iterations compare with a ratio that can exceed 1. Restarting from a journal and calling sample twice fail. |
| C27 | Metropolis-Hastings returns a chain of the requested length | proved | P_MCMC | Fresh runs; the walk is described move by move (S_MCMC.Walk). |
| C28 | The Metropolis-Hastings acceptance rule satisfies detailed balance | proved | P_MCMC, P_Transform | Floats as extended reals; positive prior densities and finite likelihoods (zero likelihoods separately); C28_bounded for BoundedVarTransformer. |
| C29 | Restarting a chain from a journal continues it | proved | P_MCMC | Composition holds for a restart without burn-in with the generator carried over; the code's default burn-in of 1000 is run again on restart (C29_burnin_again). |
| C30 | Bounded-variable transformation is a bijection | proved | P_Transform, P_Transform2, P_Transform3 | For two or more float variables whose bounds are float32 numbers; false for one variable (IndexError), for integer arrays, and near bounds that float32 rounds. |
| C31 | Reported log-Jacobians are the true ones | proved | P_Transform, P_Transform2 | Inverse Jacobian up to the float32 rounding of log(upper-lower) and the cutoffs at 100, both bounded. |
| C32 | Joint perturbation kernels perturb every parameter once and multiply densities | proved | P_Kernel | Overlap is refused; missing coverage is not (refuted: the proposal is then too short and set_parameters raises).  Draws and densities of the single kernels are parameters. |
| C33 | The random-walk kernel's probability mass function is that of its moves | proved | P_Exact, P_Kernel | True for one value; false for two or more values (only the first is looked at), for array values of two or more numbers, and for the network kernel on rows of numbers or Python integers. |
| C34 | perturb reports success exactly when the new parameters were installed | proved | P_Infer | Both halves of the claim are false; the exact behaviour is proved. |
| C35 | Polynomial expansion of statistics | proved | P_Stats | Row-wise action, size, and standardisation of every statistics stage over extended reals; neural networks are an arbitrary function.  Standardisation is false when a reference column is constant (division by zero). |
| C36 | Caching of the observed statistics is transparent | proved | P_Distance, P_Reuse | Transparent when the cached list is not changed in place and compared arrays have equal length; false otherwise (refuted). |
| C37 | Euclidean distance between data sets | proved | P_Distance | Mean of pairwise distances; symmetric, non-negative, triangle inequality; distance of a multi-observation data set to itself is not 0 (refuted). |
| C38 | Kernel discrepancy estimators have the documented sign | proved | P_MMD | Real arithmetic on finite statistics, sigma not 0.  Positive definiteness of the Gaussian kernel and negative type of |x-y|^beta (0<beta<=2) are proved from the definitions.  Non-negativity is false for the unbiased estimator, the default of MMD (refuted). |
| C39 | Divergence estimators respect their declared range | proved | P_KNN, P_KNN2 | Extended reals, gam > 0; classifiers are arbitrary functions.  The squared Hellinger estimate stays below its maximum but is not non-negative as declared (refuted).  One shared point (k copies in the other data set) makes all three estimates minus infinity (refuted), so the data are accepted with any threshold; repeated points make KL and Gamma plus infinity. |
| C40 | Discrete priors are probability mass functions matching their samplers | proved | P_Exact, P_Priors | Probabilities sum to one and samplers follow them. Refuted parts: Binomial at negative or non-integer points, Poisson truncating its mean, DiscreteUniform between integers, NaN parameters accepted. |
| C41 | Uniform priors: density, support and acceptance agree | proved | P_Uniform | For boxes with interior and finite points. Refuted parts: NaN accepted with density 0, flat boxes have infinite density, more than two lists accepted with a density that disagrees with the samples. |
| C42 | Work items get distinct random seeds | proved | P_Rejection, P_Seeds | The claim is false; the exact condition under which the seeds are distinct is proved, with counterexamples, and the consequence of equal seeds. |
| C43 | Chunked prior sampling returns exactly the requested number of samples | proved | P_Seeds | For n > 0 pairs; sample_par_sim_pairs(0) raises ValueError. |
| C44 | Posterior predictive simulations are aligned with the stored parameters | proved | P_Generate, P_Generate2 | Alignment for every journal, schedule and worker history when the observed model and its inputs are not arithmetic nodes and every stored parameter is acceptable to the graph; the cases where the code breaks the claim (parameters refused by set_parameters are used anyway; discarding ends in AttributeError; journals without type_model give KeyError) are separate theorems. |
| C45 | Joint distances and likelihoods combine the parts as documented | proved | P_Joint | True for lists of the right length; wrong numbers are refused at construction, but surplus data sets are ignored silently (refuted), too few give IndexError, weights with sum zero are accepted (refuted) and a zero weight on an infinite maximum gives NaN (refuted). |
| C46 | Reference tables label every simulation with its own model | proved | P_Select | Labels, table and choice for the sequential backend; with backends that pickle results every label is 0 and the first candidate is always chosen; absent candidates break posterior_probability. Forests, the statistics and the simulators are arbitrary functions; a forest is assumed to predict a class it was trained on. |
| C47 | Memoised functions are transparent | proved | P_Cached | For functions whose result depends on the argument only; once per argument for arguments on which the function does not raise (refuted otherwise). |
| C48 | Similarity sets for distance learning are reflexive, symmetric and non-trivial | proved | P_Similarity | Symmetric always; reflexive and non-trivial when no two samples are equal, false with duplicates (refuted: the matrix is all False and no error is raised). Items have the right targets; loops may be endless. |
| C49 | Forward-mode derivatives of the default network are the true derivatives | proved | P_Exact, P_NN | All depths, widths, weights and batches; the nonlinearity is any function with the derivatives torch's graph returns, needed only at the values it is applied to (so it covers ReLU away from 0). Real arithmetic. |
| C50 | Accepted-parameter bookkeeping returns the column of the requested model | proved | P_APM | As stated. |
| C51 | Nested-MPI roles partition the ranks | proved | P_Roles | Proved for scheduler ranks [0] (the only value the factory passes). Other lists: team property only; counterexamples for the map loop and for refusal of bad lists. |
| C52 | Cross-validation fold labels cover both samples evenly | proved | P_KNN | True as stated; that every fold is used when there are at least as many observations as folds is false (refuted). |
| C53 | Sample-quality distances use normalised weights | proved | P_Exact, P_Wass | ot.emd2 is an exact solver (hypothesis, proved satisfiable). Also proved: metric, dependence on the distributions only, series. |
| C54 | Adaptation of the proposal covariance during burn-in | proved | P_MCMC | Exact characterisation; states are taken in the original space although proposals are made in the transformed one, and a proposal outside the prior skips the adaptation. |
| C55 | Scaled transformations are bijections onto the feature range | proved | P_Scaler | sklearn's MinMaxScaler is modelled in M_Scaler (not part of the repository). |
| C56 | Bounds given to MCMC reach the parameters they name | proved | P_Bounds | If and only if, for scalar parameters with different names; false for multi-dimensional parameters. |
| C58 | Continuous priors: density and sampler describe the same law | proved | P_Normal, P_TKernel, P_Uniform | The Normal, LogNormal and Exponential densities integrate to one, with their means and variances (improper integrals); the samples have these densities for any generator of standard normal numbers, whose distribution function is unique. Refuted parts: the second Normal parameter is the standard deviation, not the documented variance; the mean of LogNormal is not the documented mu; StudentT.pdf shifts the array it is given. |
| C59 | A simulation uses the parameters just set | proved | P_Generate | Positive part for observed models with no arithmetic node among their inputs; counterexample with an arithmetic node. |
| C60 | Training stops early at the right epoch and keeps the best weights | proved | P_Trainer | Stopping rule and lists for all runs. The last clause is false: state_dict returns references to the live tensors, so the weights returned are those of the last epoch (refuted). |
| C61 | The losses used to learn statistics are what they claim to be | proved | P_Exact, P_Losses | Reals stand for floats; derivative tensors are arguments of the losses; the noise distribution is finite (sign vectors are proved to be an instance, the Gaussian one is not). |
| C62 | Training data for learning statistics pair each parameter with its own simulations | proved | P_Learn | Mixed rows with several simulations per parameter and a polynomial expansion, or several root models, are proved as refutations. |
| C63 | Score matching training uses every sample once per epoch and stops where it says | proved | P_ScoreTrain | Optimisers, networks and schedulers are oracles; the learning rate enters through the number of scheduler steps. |
| C64 | The sliced Wasserstein distance is the root mean square of projected distances | proved | P_Sliced | ot.lp.emd2_1d is a parameter specified as an exact solver (C64_solver_exists shows one exists); equal weights; real arithmetic. |
| C57 | The covariance matrices used for the moves are the widened weighted covariances | proved | P_Cov | np.cov is modelled after numpy's documented computation; real arithmetic without rounding. |
| C65 | Synthetic likelihoods are Gaussian and Gaussian-copula log densities | proved | P_Syn | ledoit_wolf, matrix inverse, log-determinant, kernel density estimator and norm.ppf are parameters; real arithmetic; statistics are finite. |
| C66 | The logistic regression likelihood is the log odds of simulations against one reference sample | proved | P_PenLik, P_PenLik2 | LogitNet is a parameter (an arbitrary function of training data, labels and folds that may raise); prior and simulator are parameters that raise nothing; real arithmetic. |
| C67 | Automatic derivatives of a batch are the derivatives of each sample | proved | P_Jacobian | torch.autograd is a parameter assumed to return the derivative whenever it exists (kinks that cancel inside a network are not modelled); real arithmetic; jacobian_hessian for two-dimensional inputs. |
| C68 | Learned statistics are applied to new data exactly as in training, also after saving and loading | proved | P_Pipeline, P_Pipeline2, P_SaveLoad | The training routine is a parameter returning the final numbers of the network; float32 rounding is a parameter function; a network class is its names, shapes and forward pass in both modes; devices are not modelled. |
| C69 | Multivariate priors accept exactly the covariance matrices they can use, and their density and samples match | proved | P_MVPrior, P_MVPrior2, P_MVPrior3, P_TKernel | Real arithmetic; np.linalg.det and inv are parameters assumed correct for the matrix at hand; numpy's normal and chi-square generators are parameters; scipy's multivariate_normal density is not modelled. |
| C70 | The posterior covariance is the weighted covariance of all parameter coordinates | proved | P_Posterior, P_Posterior2 | Real arithmetic, finite numbers; np.hstack and np.cov are modelled after their numpy sources. |
| C71 | The posterior histogram puts the weight of every sample into exactly one cell | proved | P_Posterior3 | Real arithmetic, finite numbers (non-finite samples, which numpy refuses, are not modelled); np.histogramdd is modelled after its numpy source: outer edges, linspace, searchsorted, ravel_multi_index, bincount. |
| C72 | A team of MPI processes executes nested calls together and does not deadlock | proved | P_Nested | Collective operations are matched by position; a barrier is entered and left in two steps; a broadcast does not block the root. The nested function is one local step. |
| C73 | Random numbers of simulations with and without nested execution | proved | P_Nested2 | Unpickled copies of the arguments are used by the leader too, so the generator of the caller stays as it is. |
| C74 | Law of a sample of rejection ABC | proved | P_Law | Draws with finitely many outcomes; an attempt is one draw. Workers with different seeds are not claimed to be independent. |
| C75 | A step of MCMCMetropoliHastings leaves the posterior invariant | proved | P_Law2 | The uniform number enters by the length of the set of its values that accept. Positions form a finite set (a lattice in the transformed space). |
| C76 | Weighted samples of PMCABC stand for the ABC posterior | proved | P_Law3 | Every proposal can be assigned to the model; each operation uses one draw; limits are taken in the number of available draws. |
| C77 | What a Markov move of SMCABC leaves invariant | proved | P_Law4 | Every proposal can be assigned to the model; coins have the right probability for the acceptance probabilities that occur; limits are taken in the number of available draws. |
| C78 | What the r-hit moves of SMCABC leave invariant | proved | P_Law5 | Every proposal can be assigned to the model; simulator, perturbation, coin and choice are programs over a finite law of draws that produce the laws assumed (the case shows such programs, with coins built from fair bits); limits are taken in the number of available draws. |
| C79 | Samples from the prior follow the prior density | proved | P_PriorLaw | Finite laws of draws; values are rationals in lowest terms; discrete nodes are reached on one path (otherwise C04_discrete_factor_refuted); graphs without arithmetic nodes (otherwise C05_operation_value_refuted). |
| C80 | A posterior plot shows every parameter's own samples, weights, mean and range in its own panel | proved | P_Plot, P_Plot2 | A figure is the list of what is drawn into each of its axes; density estimates, sizes, ticks and files are not modelled; numbers are rationals. |
| C81 | A chain of ABCsubsim leaves the ABC posterior invariant | proved | P_Law6 | Random draws are a list of independent draws with finitely many outcomes; laws are limits as the number of available draws grows. The chain is proved and the invariance refuted for two moves. |
| C82 | Drivers get the same results from the Spark backend as from the sequential one | proved | P_Spark | pyspark is modelled by what it documents: lazy RDDs, functions pickled at the first job, one copy of self per slice, slices in order. List elements have no identity. |
| C83 | Invariant law of the moves of SABC and law of its first population | proved | P_Law7 | np.exp is any function whose values are the given ratios of weights; numbers of draws tend to infinity (loops without bound). Iterations without resampling, from the second on. |
| C84 | Training routines show every sample once per epoch and follow the loss asked for | proved | P_NNTrain, P_NNTrain2 | Random draws, shuffling (a permutation), the optimiser's step on a loss function and float rounding of losses are parameters; broadcasting of outputs and targets of different sizes is not modelled. |
| C85 | Drivers give the same results over MPI as on the sequential backend | proved | P_MPIDriver | Each leader computes alone (teams with workers: C10, C80); MPI messages are reliable and ordered as in M_MPI; names bound again delete the old object at once (reference counting); functions carry the broadcast values the leaders would look up (C11_broadcast_seen). |
| C86 | Averages over the journal approach posterior expectations | proved | P_Consist, P_Consist2 | Workers have independent draws (in the code their seeds are drawn from 1..n^2-1 and can coincide, C42); draws have finite discrete laws; one draw per attempt gives parameters and data (P_Consist), separate draws for index, perturbation and data (P_Consist2, as C76). P_Consist2 is conditional on the population before the last iteration, with a function parametric in n. |
| C87 | What the weighted samples of PMC stand for | proved | P_Consist3 | Draws have finite discrete laws; choosing n indices uses n draws, a perturbation and a simulation one draw each; workers and the main generator have independent draws (the code derives worker seeds from the main generator); log likelihoods are finite; conditional on the population before the last iteration; no rounding. |
| C88 | MCMCMetropoliHastings forgets its start and its averages converge | proved | P_Law8 | Draws have finite discrete laws; a perturbation, a simulation, a uniform number and a sample of the prior take one draw each; the uniform numbers are below every acceptance probability that occurs with exactly that probability (as real uniform numbers are); the matrices that adaptation can produce form a finite list; runs that do not start from a journal (resumed runs: C88_law, C88_forget); no rounding. |
| C89 | How likely work items share a random seed | proved | P_Collide | randint is taken to draw independently, every value of its range with the same probability; C89_rejection is about runs in which every seed of the range reaches an acceptance (otherwise the code does not return). |
| C90 | Averages over RejectionABC samples converge although workers can share a seed | proved | P_Consist4 | RandomState(seed) is a family of independent streams, one per seed (C86 gives every worker its own stream); one draw gives parameters and data of an attempt; seeds are equally likely and independent; no rounding. |
| C91 | The population that APMCABC records stands for the prior, not the posterior | proved | P_Consist5 | One iteration, from a given retained population; laws of draws are finite and workers have independent streams (C90 for shared seeds in RejectionABC); no rounding. The property that the recorded population stands for the ABC posterior is false: C91_posterior_refuted. |
| C92 | Replenishing in RSMCABC resamples the retained particles with distances of other parameters | proved | P_Law9 | C92_worker, C92_iteration, C92_params and C92_average: laws of draws are finite and workers have independent streams; kernels whose density is that of the perturbation; no rounding; one iteration after the first, from a given retained population. C92_shrinks: runs not started from a journal. That the recorded distances belong to the recorded parameters is false: C92_distance_refuted. |
| C93 | The reweighted population of SMCABC stands for the ABC posterior at the threshold it chose; after resampling it does not | proved | P_Reweight | First iteration and the reweighting that follows it; laws of draws are finite and workers have independent streams; no rounding. That moves after resampling keep the posterior is false: C93_resampled_refuted. |
| C94 | Without resampling, the population SMCABC records after its moves stands for the ABC posterior at the new threshold | proved | P_Reweight2, P_Reweight3, P_Reweight4 | C94_moved: default kernel (number 0); C94_hits: the r-hit kernels 1 and 2; C94_second: second iteration, default kernel; C94_second_hits: second iteration, r-hit kernels with one distance per data set (n_samples_per_param = 1). Laws of draws are finite, workers have independent streams, no rounding, set_parameters succeeds. The second-iteration theorems assume what C77_exact and the r-hit theorems of C78 need (constant chance of staying inside the prior; C77_truncated_refuted shows that it is needed) and a first threshold that all distances are below. |
| C95 | The workers of the inference schemes see the graph only through its parameter values | proved | P_Worker, P_Worker2 | Runs in which sample_from_prior does not end within the given number of rounds are excluded (the result of the loop is then OutOfFuel). Programs offer parameter vectors of the declared dimensions; the kernel's own reading of the graph structure is part of its draw (C01, C04). The backend is sequential. |
| C96 | The results of a parallel map do not depend on which process executes a work item | proved | P_Spread | Maps in which a bounded loop does not end (OutOfFuel) are excluded. The transport of items and results by MPI is the subject of C09, C10 and C85, for pure functions; here only the graph copy an item finds matters. Counterexample for children met before their parents: C96_child_first_refuted. |
| C97 | Declared maxima and signs of the distances, and what SABC accepts | proved | P_Declared, P_Declared2 | The maxima hold for every class. What SABC accepts is finite and non-negative for exact transport solvers and for kernels that are positive definite (or minus a distance of negative type); every class it refuses has negative estimates. Refuted: the squared Hellinger distance declares non-negative estimates but has no lower bound (the sum over points is not divided by their number), and the biased MMD declares them for any kernel. |
| C98 | The Student t kernel reports the density of the perturbation it draws | proved | P_TKernel | Real arithmetic; numpy's normal and chi-square generators, determinant and inverse are parameters (assumed correct for the matrix at hand); gamma is assumed to have the value of its integral at the one point used.  The normal kernel's density (scipy) is not modelled. |
| C99 | The plot of the losses shows the losses of the epochs that were run | proved | P_LossPlot | The figure is modelled by its curves (label, colour, points); axis labels and legend are not modelled. |
| C100 | Only chunks of one item are mapped correctly by the MPI backend | proved | P_MPIChunk | One map by itself, process_per_model = 1, messages buffered (a send does not wait for its receiver); exceptions of the function are values (C09 covers how collect raises them). Another chunk_size than 1 has to be assigned to the attribute of the backend. |

## 5. Findings (code deviates from its documentation or from the property)

Each item names the theorem that proves it.

**Graphs and priors**
* A discrete parameter's probability is multiplied once per path to the observed models (`C04_discrete_factor_refuted`).
* `set_parameters` checks a child against the old value of its parent; `pdf_of_prior` and `GenerateFromJournal` ignore the refusal
  (`C04_stale_parent_refuted`, `C06_history_dependent_refuted`, `C44_refused_parameters_refuted`).
* `set_parameters` never refreshes the stored value of arithmetic nodes, so a simulation afterwards uses the stale value (`C59_operation_stale_refuted`).
* A parameter list that is too short raises IndexError and leaves marks up (`C03_short_list_refuted`).
* Arithmetic nodes redraw shared variables in nested expressions; `number ** model` raises the base to itself
  (`C08_nested_refuted`, `C08_rpow_refuted`, `C08_rpow_nested_refuted`, `C05_operation_value_refuted`).
* Observed models that are inputs of other observed models: the walks disagree (`C01_observed_input_refuted`).
* A negative connector index is accepted at construction and fails later (`C07_negative_index_refuted`).
* Binomial at negative or non-integer points, Poisson truncating its mean, DiscreteUniform positive between integers, NaN parameters accepted,
  flat Uniform boxes, Normal's documented variance being the standard deviation, LogNormal's documented mean not being its mean, StudentT.pdf changing its argument
  (`C40_*_refuted`, `C41_*_refuted`, `C58_*_refuted`).

**MPI backend**
* Mapping a mapped data set kills the scheduler; collecting an unmapped one kills the leader (`C09_map_of_map_refuted`, `C09_collect_raw_refuted`).
* An exception class that cannot be rebuilt from one string kills the leader; a returned exception object is raised (`C10_*_refuted`).
* A second scheduler rank makes map hang; bad rank lists are not refused (`C51_*_refuted`).
* With a chunk_size above 1 items are computed and returned several times, or the map never ends (`C100_refuted`, `C100_remainder`).

**Journal**
* Flat weights make the ESS a TypeError; one sample makes the posterior mean fail; resampling with a shared name collapses columns; a RejectionABC
  journal in budget mode cannot be resampled (`C13_flat_refuted`, `C14_one_sample_refuted`, `C15_shared_name_refuted`, `C17_resample_refuted`).
* GenerateFromJournal: `discard_too_large_values` ends in AttributeError (`C44_discard_refuted`).

**Inference schemes**
* RejectionABC: n = 1 or n > 46340 raises; NaN distances accepted; ties at the quantile raise (`C16_*_refuted`, `C17_*_refuted`).
* PMCABC: overwrites the caller's threshold list, second call starts from the previous population, restart grows the stored list (`C18_*_refuted`);
  zero kernel density gives NaN weights (`C19_pmcabc_refuted`).
* PMC: prior density enters twice (`C19_pmc_prior_twice_refuted`).
* RSMCABC: accepted moves never change the parameters; reaching the final threshold raises; restart and second call fail
  (`C21_rsmcabc_refuted`, `C20_*`).
* APMCABC: threshold may increase, population size drifts, recorded weights unnormalised, early stop records nothing (`C22_*_refuted`, `C19_apmcabc_refuted`).
* SMCABC: resampling permutes parameters but not simulations; early stop records nothing; NaN weights (`C24_*refuted*`, `C23_*_refuted`, `C19_smcabc_refuted`).
* ABCsubsim: annealing parameter may increase and is no distance; sizes off when the chain length does not divide n; restart fails (`C25_*`).
* SABC: smoothing not monotone at the minimum; last candidates lost; counts appended each step; acceptance ratio may exceed 1; restart fails (`C26_*`).
* MCMC: adaptation in the wrong space and skipped after out-of-prior proposals; burn-in re-run on restart; bounds misplaced for multi-dimensional parameters
  (`C54_*_refuted`, `C29_*`, `C56_multidim_refuted`).
* `perturb`: success on attempt 11 reported as failure, rejected parameters reported as success after 100 failures (`C34_*_refuted`).
* Worker seeds may coincide (`C42_*_refuted`).

**Kernels, transformers, statistics, distances**
* Joint kernels do not check coverage; random-walk pmf looks at the first value only; network kernel uses the wrong row for scalars (`C32_uncovered_refuted`, `C33_*_refuted`).
* With infinitely many degrees of freedom the Student t kernel draws but its density is not a number; with a singular matrix it raises where the normal kernel does not
  (`C98_infinite_refuted`, `C98_singular`).
* One variable, integer arrays and float32-rounded bounds break the bounded transformer (`C30_*_refuted`, `C30_float32`).
* Standardisation divides by zero on constant columns (`C35_constant_refuted`).
* The cache of the observed statistics is stale after in-place changes and for other shapes (`C36_*_refuted`).
* Euclidean distance of a data set to itself is positive; unbiased MMD can be negative; Hellinger estimate can be negative; folds unused
  (`C37_self_refuted`, `C38_unbiased_refuted`, `C39_*_refuted`, `C52_all_used_refuted`).
* One point shared by the two data sets makes the KL, Gamma and Hellinger estimates minus infinity, so such data pass every threshold (`C39_shared_refuted`).
* SABC accepts the squared Hellinger distance, whose estimate has no lower bound because the sum over points is not divided by their number, and the biased
  MMD with any kernel (`C97_hellinger_refuted`, `C97_kernel_refuted`).
* Joint distances ignore surplus data sets and accept weights of sum zero (`C45_*_refuted`).
* `cached` re-evaluates raising calls (`C47_raising_refuted`). Similarity matrices may be all False (`C48_duplicates_refuted`).

**Model selection**
* With a backend that pickles results every label is 0 and the first candidate is always selected (`C46_pickled_refuted`); vector data make training fail;
  an absent candidate breaks or mislabels `posterior_probability` (`C46_*_refuted`).

**Covariances, likelihoods, statistics learning**
* Covariance matrices: one positive weight gives NaN; a single particle with two or more parameters raises or gives the spread among its coordinates;
  kernels beyond the given factors are dropped by PMC; equal particles give the zero matrix (`C57_*`).
* The sliced Wasserstein distance changes between calls and is zero for some different distributions whatever the finite set of directions
  (`C64_redraw_refuted`, `C64_zero_refuted`).
* Synthetic likelihood: ties break the unit diagonal; integer observed statistics never give a finite value (`C65_ties_refuted`, `C65_integer_refuted`).
* Logistic regression likelihood: all reference data use one prior draw; one statistic or one simulation always raises (`C66_marginal_refuted`, `C66_one_statistic_refuted`).
* Training: the best weights are not restored (`C60_restored_refuted`); empty batches give NaN losses (`C61_*`); several simulations per parameter mix rows for
  polynomial statistics (`C62_*_refuted`); reported score matching losses are divided by one batch too many and early stopping without a
  validation set is ignored (`C63_*_refuted`).
* Jacobian utilities: networks that mix samples (batch normalisation) get derivatives summed over the batch, three-dimensional inputs the wrong second
  derivatives, and NaN is never refused (`C67_mixing_refuted`, `C67_third_dimension_refuted`, `C67_check_refuted`).
* Learned statistics: without a validation set the network is served in training mode; with a scaler, data are rounded to float32 before scaling (in training:
  after), which merges simulations or puts them on a bound; the default exponential family network loaded by its sizes silently gets another nonlinearity;
  standard deviations are not saved (`C68_mode_refuted`, `C68_offset_refuted`, `C68_bounds_refuted`, `C68_reload_softplus_refuted`, `C68_scale_not_saved_refuted`).
* Multivariate priors: asymmetric, indefinite matrices with small entries, an infinite variance and NaN degrees of freedom are accepted; with infinitely many
  degrees of freedom the Student density is NaN although sampling works; the branch for a model as mean of MultiStudentT is never reached
  (`C69_accepted_refuted`, `C69_infinite_df_refuted`, `C69_constructed`).
* Posterior covariance: NaN for a single positive weight; the returned names do not name the rows of the matrix; two parameters stored as numbers break it and
  the histogram (`C70_one_weight_refuted`, `C70_names_refuted`, `C70_numbers_refuted`, `C71_numbers_refuted`).
* Nested execution: if the nested function raises on any process of a team or cannot be pickled, the team never finishes; the workers keep broadcast values
  the leader has deleted; the leader's generator is not advanced, so that models and repeated simulations share random numbers and the r-hit kernel counts
  the same simulation again and again (`C72_exception_refuted`, `C72_delete_refuted`, `C73_reuse_refuted`, `C73_hits_refuted`).
* PMCABC: the perturbation is repeated until it is inside the prior, for a fixed index, but the weights use the density of the kernel without this restriction;
  with a bounded prior the weighted samples are biased, although a comment says the truncation is fine (`C76_truncated_refuted`, `C76_weighted`).
* SMCABC: the same truncation in a Markov move is not compensated either; the invariant law is the ABC posterior times the chance of staying inside the prior
  (`C77_truncated_refuted`, `C77_invariant`). The Metropolis-Hastings sampler rejects proposals outside the prior instead, which is right (`C75_invariant`). The two r-hit kernels have the same defect (`C78_truncated_refuted`): in detailed balance with prior density times probability of a hit times that chance (`C78_first_law`, `C78_second_law`, `C78_first`, `C78_second`).
* Prior: a pass of `sample_from_prior` in which a node refuses its inputs is repeated, so that samples follow the prior conditioned on accepted inputs;
  `pdf_of_prior` is not divided by the chance of acceptance (`C79_refusals_refuted`, `C79_prior_law`; equal if nothing is refused, `C79_no_refusals`).
* Plots of a journal: `plot_posterior_distr` writes the computed ranges into the caller's dictionary, so that a second plot with it can cut off all samples
  (`C80_ranges_kept_refuted`); an array of two numbers is refused as a range because its shape is compared with the number 2 (`C80_array_range_refuted`); rows of coordinates
  are labelled as if every parameter had one (`C80_two_coordinates_refuted`); a name given twice puts the samples of another parameter under it (`C80_twice_refuted`); above 257
  parameters `x is not y` holds on the diagonal (`C80_matrix_many_refuted`); plain numbers and flat weights cannot be plotted (`C80_flat_refuted`).
- ABCsubsim proposes every move of a chain from the chain's first parameters (`self.perturb(index)` perturbs row `index` of the kernels' parameters), but accepts it with the
  Metropolis-Hastings ratio of the current ones: from the second move on the ABC posterior is not left invariant (`C81_second_refuted`; `C81_first`, `C81_independent` say what is).
- Random numbers drawn from a generator kept in a Distance object (`SlicedWasserstein.rng`, `LogReg`'s seeds) repeat on Spark: every slice of every map starts from the driver's copy, which never
  advances (`C82_generator_refuted`); on BackendDummy they do not. GenerateFromJournal defines no `__getstate__`, so its backend would be pickled with it: on Spark `generate` always fails (`C82_generate_refuted`).
- SABC moves n_update members (by default as many as there are) in one iteration, all from the population at its start. A member picked by two workers is moved by the last accepted proposal, which is
  not a reversible move: the annealed posterior is not left invariant although the kernel is symmetric and never leaves the prior (`C83_batch_refuted`; with one worker it is, `C83_move`). The acceptance
  ratio has no kernel densities (wrong for the random-walk kernels on networks, `C83_skew_refuted`) and ignores that perturbations are repeated until inside the prior (`C83_bounded_refuted`).
- The default argument `loader_kwargs={}` of the training routines and of the three classes is one dictionary that is updated in place: after a training on the GPU, a later one of the same class with
  cuda=False gets a worker process and pinned memory (`C84_leak_refuted`); a dictionary given by the caller is changed too (`C84_store`).
- contrastive_training with positive_weight: the targets of one batch are tensors (samples without a similar one) and integers (the others); when the first is a tensor, collating fails with a
  TypeError (`C84_mixed_refuted`; never without weight or when every sample has a similar one, `C84_collates`).
- The losses reported for an epoch are means of batch means, not means over the samples, when the last batch is smaller (`C84_mean_refuted`), which is what early stopping compares. A network that lies on
  the GPU cannot be trained with cuda=False (`C84_stranded`); FP_nn_training refuses lr=None, the other two routines use 1e-3 (`C84_refused`).
- Over MPI every item of a map is computed from its own copy of self, so a generator kept in the distance (LogReg, SlicedWasserstein) gives every simulation the same random numbers, whatever the schedule,
  while the sequential backend goes on from one to the next (`C85_generator_refuted`). What tasks leave in self is lost between items (`C85_items`); drivers whose tasks do not look at it agree with the
  sequential backend on every schedule (`C85_agree`). GenerateFromJournal keeps its backend in self and cannot be pickled when the backend cannot (`C85_generate_refuted`).
- PMCABC with a bounded prior: the weighted average over the recorded population does not approach the posterior mean; in an example the probability of being more than 1/30 away from it tends to 1 with the
  number of samples (`C86_pmcabc_refuted`). It does when all kernels have the same mass inside the prior (`C86_pmcabc`, `C86_posterior`), and for RejectionABC always (`C86_rejection`).
- PMC: because the prior density enters the weights twice (`C19_pmc_prior_twice_refuted`), averages over the journal approach expectations under prior squared times likelihood: with a prior that is not
  constant the probability of being away from the posterior mean tends to 1 with the number of samples (`C87_prior_refuted`; `C87_law`, `C87_target` and `C87_uniform` say what is approached).
- MCMCMetropoliHastings: with a gap in the prior that no proposal crosses, averages over the journal stay away from the posterior mean with probability 1, however long the run (`C88_gap_refuted`); when
  proposals connect all positions they approach it from every start, with the adaptation of the covariance matrices confined to burn-in (`C88_sample`).
- RejectionABC, ModelSelections and StatisticsLearning draw n seeds from randint(1, n*n): two of them agree with a probability between 1/4 and 1/2 whatever n (`C89_square`), and the journal of RejectionABC
  then holds the same row twice (`C89_rejection`), so it has fewer independent samples than it reports. With the 32-bit range of the other schemes this stays below 1/8000 up to 1000 samples, but exceeds 1/2
  from 100000 on (`C89_wide`); the repair in DrawFromPrior, although not complete (`C42_distinct_refuted`), is effective (`C89_repair`, `C89_repair_million`).
- What the repeated seeds cost: if different seeds stand for independent streams, the mean square error of averages over the journal of RejectionABC is 1 + 1/(n+1) times that of independent workers
  (`C90_cost`), so the averages still converge (`C90_rejection`); the assumption of independent workers in C86 is not essential.
- APMCABC records the retained particles with weights that sum to 1 together with the new ones, whose weights prior/(sum of w K) are about 1 each and do not depend on the distance. So the journal's
  weighted samples stand for the prior: averages over them approach prior expectations (`C91_first`, `C91_prior`), with a case in which the posterior mean and the retained average are 1/2 and the
  recorded average is within 1/10 of the prior mean 1 with a probability that tends to 1 (`C91_posterior_refuted`).
- RSMCABC's replenishing never moves a particle: a worker returns the parameters of the chosen retained particle with the distance of whatever proposal was accepted, so an iteration is a random
  resampling with repetition of the retained particles (`C92_worker`, `C92_params`), the number of different parameter vectors is at most n - round(n alpha) from the second iteration on and never
  grows (`C92_shrinks`) while all weights stay 1/n, and a particle is recorded with a distance its parameters cannot produce (`C92_distance_refuted`).
- SMCABC resamples the parameters but not the stored data: after resampling a move compares a proposal with data of another particle; where those have no distance below the threshold every proposal is
  accepted however far it is (`C93_resampled_refuted`: recorded mean 1/4 instead of 0). Without resampling the reweighted population stands for the posterior at the chosen threshold (`C93_reweighted`).
  Without resampling the moves keep that: the recorded population of the second iteration stands for the posterior at its threshold, with an error controlled by the check of the effective sample size
  (`C94_moved`, `C94_hits`, `C94_second`).
- The schemes' models represent the graph by its parameter vector. C95 proves that this loses nothing on graphs without arithmetic nodes (`C95_worker`, `C95_pmcabc`); with an arithmetic node two graphs with
  the same parameters simulate from different inputs (`C95_operation_refuted`), and after a draw that its own node refuses sample_from_prior returns what the graph held before (`C95_refused_draw_refuted`).
- With the same seeds a run can depend on the backend. `C96_child_first_refuted`: X ~ U(0,10), Y ~ U(X,10), an observed model that names Y only; set_parameters checks a proposed Y against the X of the
  previous work item of the same process, so one process returns (8, 6) and two processes return (4, 3) for the second item. The other ways: a hundred refused proposals in a row, and a threshold that
  is not below dist_max (PMCABC then returns what the graph copy held). Outside these cases results do not depend on the distribution of the work (`C96_pmcabc`, `C96_smcabc`, ...).
- plot_losses labels its abscissa "Training epoch" but always starts at 1: after a training with start_epoch_training > 0 all points are drawn at the wrong epoch (`C99_epochs_refuted`). The check on the
  lengths of the two lists can never fail (`C99_fit`, `C99_score`).

## 6. Assumptions per theorem (`Print Assumptions`)

Only these standard-library axioms occur:

* A1 `Coq.Reals.ClassicalDedekindReals.sig_forall_dec`
* A2 `Coq.Reals.ClassicalDedekindReals.sig_not_dec`
* A3 `Coq.Logic.FunctionalExtensionality.functional_extensionality_dep`
* A4 `Coq.Logic.Classical_Prop.classic`

**none (closed under the global context)** (325 theorems):
`C01_order_agreement`, `C01_observed_input_refuted`, `C02_set_get`, `C02_get_set_same`, `C03_reusable`, `C03_short_list_refuted`, `C03_like_new`, `C03_returns`, `C04_prior_density_once`, `C04_discrete_factor_refuted`, `C04_stale_parent_refuted`, `C04_prior_density_exact`, `C05_ancestral`, `C05_operation_value_refuted`, `C05_ancestral_exact`, `C06_set_outcome`, `C06_history_dependent_refuted`, `C07_flatten`, `C07_type_error`, `C07_negative_index_refuted`, `C07_getitem`, `C08_operation`, `C08_self_difference`, `C08_nested_refuted`, `C08_rpow_refuted`, `C08_rpow_nested_refuted`, `C08_every_operation`, `C09_map_collect`, `C09_single`, `C09_refinement`, `C09_terminates`, `C09_map_of_map_refuted`, `C09_collect_raw_refuted`, `C10_exception`, `C10_unbuildable_refuted`, `C10_returned_exception_refuted`, `C11_ids_fresh`, `C11_broadcast_seen`, `C11_stores`, `C11_delete_independent`, `C12_history`, `C12_bad_type`, `C13_ess`, `C13_flat_refuted`, `C14_convex`, `C14_rescale`, `C14_permute`, `C14_same_iteration`, `C14_one_sample_refuted`, `C15_resample`, `C15_refuses`, `C15_shared_name_refuted`, `C16_threshold`, `C16_total`, `C16_sizes_refuted`, `C16_unbound_refuted`, `C16_nan_refuted`, `C17_budget`, `C17_budget_spent`, `C17_count`, `C17_equal_refuted`, `C17_bounded_distance_refuted`, `C17_resample_refuted`, `C18_run`, `C18_respected`, `C18_nonincreasing`, `C18_caller_list_refuted`, `C18_second_call_refuted`, `C18_restart_configuration_refuted`, `C19_pmcabc`, `C19_pmcabc_refuted`, `C19_apmcabc`, `C19_apmcabc_refuted`, `C19_smcabc`, `C19_smcabc_refuted`, `C19_smcabc_bernton_refuted`, `C20_run`, `C20_population`, `C20_final_threshold_raises`, `C20_zero_attempts_raise`, `C20_restart_refuted`, `C20_nothing_to_replenish_refuted`, `C20_second_call_refuted`, `C20_round`, `C21_pmcabc`, `C21_pmcabc_refuted`, `C21_rsmcabc_never_moves`, `C21_rsmcabc_refuted`, `C21_apmcabc`, `C24_moves`, `C21_smcabc_one_hit_refuted`, `C21_subsim`, `C21_sabc`, `C22_run`, `C22_retained`, `C22_threshold`, `C22_threshold_refuted`, `C22_size_refuted`, `C22_early_stop_refuted`, `C22_ties_refuted`, `C22_restart_refuted`, `C23_bisection_terminates`, `C23_bisection_interval`, `C23_bisection_bracket`, `C23_bisection_no_change`, `C23_run`, `C23_restart`, `C23_thresholds`, `C23_early_stop_refuted`, `C23_second_call_refuted`, `C23_restart_refuted`, `C23_bernton_threshold`, `C23_delmoral_threshold`, `C24_distances`, `C24_paired`, `C24_refuted`, `C24_refuted_delmoral`, `C25_run`, `C25_sizes`, `C25_sizes_general`, `C25_annealing`, `C25_below`, `C25_covariances`, `C25_chain_length`, `C25_too_few`, `C25_restart`, `C25_annealing_refuted`, `C25_decreasing_refuted`, `C25_sizes_refuted`, `C25_zero_refuted`, `C26_run`, `C26_smooth`, `C26_smooth_range`, `C26_probability`, `C26_replaced`, `C26_sizes`, `C26_restart`, `C26_second_call`, `C26_monotone_refuted`, `C26_counts_refuted`, `C26_lost_refuted`, `C26_zero_refuted`, `C26_ratio_refuted`, `C26_smooth_range_refuted`, `C26_second_call_refuted`, `C26_mean`, `C27_run`, `C27_chain`, `C27_no_samples`, `C29_restart`, `C29_composition`, `C29_split`, `C30_init`, `C32_check`, `C32_update`, `C32_perturb`, `C32_pdf`, `C32_structure`, `C32_default`, `C32_uncovered_refuted`, `C32_default_kinds`, `C33_moves`, `C33_single`, `C33_many_refuted`, `C33_array_refuted`, `C33_network`, `C33_network_product`, `C33_network_scalars_refuted`, `C33_network_int_refuted`, `C33_draws`, `C33_network_unreachable`, `C33_own_numbers`, `C34_success`, `C34_failure`, `C34_total`, `C34_success_refuted`, `C34_failure_refuted`, `C34_proposal_installed`, `C34_graph_set_ok`, `C40_outputs`, `C42_range`, `C42_distinct`, `C42_distinct_refuted`, `C42_equal_seeds`, `C42_rejection_refuted`, `C43_sample`, `C43_pairs`, `C43_none_refuted`, `C43_zero_chunk_refuted`, `C44_acceptable`, `C44_aligned`, `C44_refused`, `C44_refused_parameters_refuted`, `C44_discard_refuted`, `C44_single`, `C46_drawn`, `C46_label`, `C47_transparent`, `C47_once`, `C47_arguments`, `C47_stable`, `C47_raising_refuted`, `C47_stateful_refuted`, `C48_triplet`, `C48_pairs`, `C49_refused`, `C49_sizes`, `C49_discard_last`, `C50_columns`, `C50_named_columns`, `C50_update`, `C50_recorded_fits`, `C50_history`, `C51_default`, `C51_teams`, `C51_second_scheduler_refuted`, `C51_refusal_refuted`, `C51_factory`, `C51_refused`, `C51_ranks`, `C52_labels`, `C52_used`, `C52_all_used_refuted`, `C54_adaptation`, `C54_space_refuted`, `C54_skipped_refuted`, `C56_bounds`, `C59_simulation_of_parameters`, `C59_operation_stale_refuted`, `C60_run`, `C60_refused`, `C60_restored_refuted`, `C63_batches`, `C63_run`, `C63_reported_refuted`, `C63_left_over`, `C63_endless`, `C63_restored_refuted`, `C69_normal_samples`, `C70_same_iteration`, `C72_progress`, `C72_bounded`, `C72_completes`, `C72_same_calls`, `C72_lockstep`, `C72_delete_refuted`, `C72_exception_refuted`, `C73_plain`, `C73_nested`, `C73_reuse_refuted`, `C73_hits`, `C73_hits_refuted`, `C80_matrix`, `C80_matrix_many_refuted`, `C80_singles`, `C80_doubles`, `C80_padded`, `C80_errors`, `C80_array_range_refuted`, `C80_traceplot`, `C80_ess`, `C80_ranges_kept_refuted`, `C80_two_coordinates_refuted`, `C80_twice_refuted`, `C80_flat_refuted`, `C80_trace_unknown`, `C80_tuple_refuted`, `C82_agree`, `C82_results`, `C82_self`, `C82_again`, `C82_rejection`, `C82_generator_refuted`, `C82_timing_refuted`, `C82_pickled`, `C82_generate_refuted`, `C82_chain`, `C82_put`, `C84_place`, `C85_agree`, `C85_ends`, `C85_self`, `C85_items`, `C85_rejection`, `C85_generator_refuted`, `C85_generate_refuted`, `C92_shrinks`, `C95_worker`, `C95_first`, `C95_indistinguishable`, `C95_rejection`, `C95_pmcabc`, `C95_operation_refuted`, `C95_refused_draw_refuted`, `C95_rsmcabc`, `C95_apmcabc`, `C95_smcabc`, `C95_sabc`, `C95_subsim`, `C95_subsim_cov`, `C95_mcmc`, `C96_rejection`, `C96_rsmcabc_first`, `C96_apmcabc_first`, `C96_smcabc_first`, `C96_sabc_first`, `C96_pmcabc`, `C96_pmcabc_weight`, `C96_rsmcabc`, `C96_apmcabc`, `C96_smcabc`, `C96_sabc`, `C96_subsim_first`, `C96_subsim`, `C96_subsim_cov`, `C96_child_first_refuted`, `C96_hierarchy`, `C99_fit`, `C99_score`, `C99_epochs_refuted`, `C100_result`, `C100_one`, `C100_refuted`, `C100_remainder`, `C100_end`.

**A1 A2 A3 A4** (108 theorems):
`C19_pmc_run`, `C19_pmc_iteration`, `C19_pmc`, `C19_pmc_sample`, `C19_pmc_inipoints`, `C19_pmc_prior_twice_refuted`, `C20_attempts_nonneg`, `C28_bounded`, `C30_transform`, `C30_roundtrip`, `C30_onto`, `C30_refused`, `C30_single_refuted`, `C30_float32`, `C30_integer_refuted`, `C30_integers`, `C30_infinite`, `C30_nan_refuted`, `C31_jacobian`, `C31_inverse`, `C31_volume`, `C31_integers`, `C38_euclidean`, `C38_energy`, `C38_options`, `C38_unbiased_refuted`, `C38_declared`, `C39_refused`, `C39_kl`, `C39_gamma`, `C39_hellinger`, `C39_hellinger_range`, `C39_hellinger_symmetric`, `C39_hellinger_refuted`, `C39_self_refuted`, `C39_shared_refuted`, `C39_repeated`, `C53_solver_exists`, `C55_fit`, `C55_roundtrip`, `C55_jacobian`, `C58_exponential`, `C58_lognormal`, `C58_student`, `C58_student_repeated_refuted`, `C58_mixture`, `C58_standard`, `C58_normal_law`, `C58_normal_cdf`, `C58_lognormal_law`, `C58_lognormal_mean_refuted`, `C58_exponential_law`, `C64_solver_exists`, `C64_redraw_refuted`, `C65_gaussian`, `C65_ratio`, `C65_order`, `C65_join`, `C65_peak`, `C65_likelihood`, `C66_value`, `C68_served`, `C68_training_data`, `C68_scaling`, `C68_mode`, `C68_expfam`, `C68_mode_refuted`, `C68_offset_refuted`, `C68_bounds_refuted`, `C68_roundtrip`, `C68_reload`, `C68_reload_softplus_refuted`, `C68_refusals`, `C68_scale_not_saved_refuted`, `C68_default_networks`, `C68_wrong_width`, `C69_accepted`, `C69_cholesky`, `C69_accepted_refuted`, `C69_constructed`, `C69_density`, `C69_density_shape`, `C69_density_one`, `C69_infinite_df_refuted`, `C69_mixture`, `C87_law`, `C87_average`, `C87_enough`, `C87_prior_refuted`, `C88_gap_refuted`, `C89_exact`, `C89_square`, `C89_rejection`, `C89_wide`, `C95_pmc_likelihood`, `C96_pmc_likelihood`, `C97_maximum`, `C97_sabc`, `C97_refusals`, `C97_hellinger_refuted`, `C97_kernel_refuted`, `C97_smcabc`, `C97_smcabc_refusal`, `C98_density`, `C98_symmetric`, `C98_joint`, `C98_singular`, `C98_infinite_refuted`.

**A1 A2 A3** (87 theorems):
`C28_balance`, `C28_untransformed`, `C28_zero_likelihood`, `C28_dummy`, `C35_standardised`, `C35_constant_refuted`, `C37_value`, `C37_metric`, `C37_single`, `C37_self_refuted`, `C38_gaussian`, `C38_gaussian_nonneg`, `C39_neighbours`, `C40_poisson`, `C40_poisson_mean_refuted`, `C40_poisson_samples`, `C45_sum`, `C45_agree`, `C45_refused`, `C53_refused`, `C53_scale`, `C53_equal_weights`, `C53_value`, `C53_nonneg`, `C53_symmetric`, `C53_triangle`, `C53_zero`, `C53_distribution`, `C53_single`, `C53_series_refused`, `C53_series`, `C53_series_ok`, `C53_components`, `C58_normal`, `C58_variance_refuted`, `C61_contrastive`, `C61_contrastive_zero`, `C61_refused`, `C61_sliced_unbiased`, `C61_rademacher`, `C61_noise_refused`, `C61_sphere`, `C61_sliced_batch`, `C61_signs`, `C64_refused`, `C64_value`, `C64_nonneg`, `C64_self`, `C64_symmetric`, `C64_triangle`, `C64_below`, `C64_zero_refuted`, `C69_samples`, `C75_step`, `C75_invariant`, `C75_marginal`, `C75_accept`, `C76_law`, `C76_weighted`, `C76_exact`, `C76_truncated_refuted`, `C78_first_law`, `C78_second_law`, `C78_first`, `C78_second`, `C78_truncated_refuted`, `C84_run`, `C84_refused`, `C84_stranded`, `C84_store`, `C84_mixed_refuted`, `C84_leak_refuted`, `C84_options`, `C84_given`, `C86_pmcabc`, `C86_pmcabc_enough`, `C86_pmcabc_refuted`, `C87_target`, `C87_uniform`, `C88_converges`, `C88_law`, `C88_forget`, `C88_sample`, `C88_enough`, `C94_hits`, `C94_second_hits`, `C98_draw`.

**A1** (12 theorems):
`C30_dummy`, `C38_gram`, `C49_first_only`, `C49_accepted`, `C56_multidim_refuted`, `C66_reference`, `C66_empty`, `C66_count`, `C66_fit_error`, `C66_one_statistic_refuted`, `C66_models`, `C67_check_refuted`.

**A1 A3** (192 theorems):
`C35_rows`, `C35_stage`, `C35_input`, `C35_identity`, `C35_linear`, `C35_size`, `C36_transparent`, `C36_fresh`, `C36_mutation_refuted`, `C36_shape_refuted`, `C36_reuse`, `C36_incomparable`, `C38_value`, `C38_refused`, `C38_symmetric`, `C38_order`, `C38_self_zero`, `C38_nonneg`, `C39_logreg`, `C39_penlogreg`, `C40_bernoulli`, `C40_binomial`, `C40_binomial_negative`, `C40_binomial_negative_refuted`, `C40_binomial_truncates_refuted`, `C40_binomial_samples`, `C40_bernoulli_samples`, `C40_discrete_uniform`, `C40_discrete_uniform_between_refuted`, `C40_inputs`, `C40_nan_refuted`, `C40_output`, `C41_density`, `C41_accepted`, `C41_nan_refuted`, `C41_flat_refuted`, `C41_refused`, `C41_extra_refuted`, `C41_samples`, `C41_law`, `C45_weights`, `C45_default_weights`, `C45_distance`, `C45_distance_default`, `C45_single`, `C45_monotone`, `C45_max`, `C45_max_bounds`, `C45_max_infinite`, `C45_product`, `C45_fewer`, `C45_surplus_refuted`, `C45_zero_sum_refuted`, `C45_zero_weight_max_refuted`, `C46_table`, `C46_selected`, `C46_pickled_refuted`, `C46_table_reused`, `C46_refused_sizes`, `C46_first_data_set_only`, `C46_vector_data_refuted`, `C46_own_probability`, `C46_absent_model_refuted`, `C46_other_column_refuted`, `C46_posterior`, `C46_one_data_set_refuted`, `C48_matrix`, `C48_fraction`, `C48_symmetric`, `C48_reflexive`, `C48_duplicates_refuted`, `C48_refused`, `C48_siamese`, `C48_siamese_weight`, `C48_siamese_ends`, `C48_endless`, `C48_no_dissimilar`, `C49_derivatives`, `C49_smooth`, `C49_hessian`, `C49_relu`, `C58_inputs`, `C61_triplet`, `C61_score_matching`, `C61_batch`, `C62_pairs`, `C62_single`, `C62_provided`, `C62_refused`, `C62_mixed_refuted`, `C62_roots_refuted`, `C62_linear`, `C62_semiautomatic`, `C62_validation`, `C57_value`, `C57_unweighted`, `C57_scale`, `C57_refused`, `C57_accepted`, `C57_positive_definite`, `C57_degenerate`, `C57_one_weight_refuted`, `C57_one_particle`, `C57_one_particle_refuted`, `C57_factors`, `C57_walk`, `C57_one_factor`, `C65_singular`, `C65_rank_correlation`, `C65_correlation`, `C65_monotone`, `C65_ties_refuted`, `C65_semi`, `C65_dimension`, `C65_memo`, `C65_integer_refuted`, `C66_marginal_refuted`, `C67_jacobian`, `C67_mixing`, `C67_second_order_flat`, `C67_second_order`, `C67_hessian`, `C67_routes_agree`, `C67_mixing_refuted`, `C67_third_dimension_refuted`, `C70_value`, `C70_semidefinite`, `C70_scale`, `C70_equal_weights`, `C70_one_weight_refuted`, `C70_refused`, `C70_entries`, `C70_numbers_refuted`, `C70_no_iteration`, `C70_names_refuted`, `C71_histogram`, `C71_refused`, `C71_numbers_refuted`, `C74_joint`, `C74_conditional`, `C74_count`, `C74_unfinished`, `C77_move`, `C77_invariant`, `C77_exact`, `C77_truncated_refuted`, `C79_prior_law`, `C79_no_refusals`, `C79_refusals_refuted`, `C81_law`, `C81_last`, `C81_first`, `C81_independent`, `C81_second_refuted`, `C83_law`, `C83_batch`, `C83_member`, `C83_move`, `C83_first`, `C83_batch_refuted`, `C83_bounded_refuted`, `C83_skew_refuted`, `C84_loaders`, `C84_own`, `C84_mean`, `C84_mean_refuted`, `C84_collates`, `C86_rejection`, `C86_enough`, `C86_posterior`, `C89_repair`, `C89_repair_million`, `C90_rejection`, `C90_cost`, `C91_law`, `C91_proper`, `C91_recorded`, `C91_enough`, `C91_prior`, `C91_first`, `C91_posterior_refuted`, `C92_worker`, `C92_iteration`, `C92_params`, `C92_average`, `C92_distance_refuted`, `C93_reweighted`, `C93_resampled_refuted`, `C94_moved`, `C94_second`, `C95_pmc_weight`, `C96_pmc_weight`.

