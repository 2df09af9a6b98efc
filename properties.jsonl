{"id": "C01", "title": "All graph walks agree on the order of the free parameters", "statement": "For every model graph the list returned by get_parameters, the list consumed by set_parameters, the index mapping used for prior densities and for the kernels, and the order produced by get_correct_ordering all enumerate the same free parameters in the same order: depth-first, first occurrence, no repetition, skipping the observed models, fixed numbers and arithmetic nodes.", "quantifier": "all finite acyclic model graphs, all lists of observed (root) models, including shared parents and multi-edges", "why_tests_cant": "Tests fix a handful of small graphs; the five walks use five different visited-flag protocols, so agreement on all sharing patterns needs induction over graphs.", "anchors": ["abcpy/graphtools.py:_get_mapping", "abcpy/graphtools.py:get_parameters", "abcpy/graphtools.py:set_parameters", "abcpy/graphtools.py:get_correct_ordering", "abcpy/acceptedparametersmanager.py:get_mapping"]}
{"id": "C02", "title": "set_parameters followed by get_parameters gives the values back", "statement": "If set_parameters(v) reports success then get_parameters returns exactly v (for a list v as long as the number of free parameters), and the values of all fixed numbers and arithmetic nodes are unchanged.", "quantifier": "all graphs, all parameter lists, all acceptance rules of the nodes, all previous contents of the graph", "why_tests_cant": "The result depends on the sharing structure of the graph and on stale values; examples cover finitely many graphs.", "anchors": ["abcpy/graphtools.py:set_parameters", "abcpy/graphtools.py:get_parameters", "abcpy/probabilisticmodels.py:ProbabilisticModel.set_output_values"]}
{"id": "C03", "title": "Graph operations leave the graph reusable", "statement": "Any sequence of sample_from_prior, get_parameters, set_parameters (accepted or rejected), get_correct_ordering, both mapping computations and prior evaluation that returns leaves no traversal mark behind: every further sequence of operations, also one ending with an exception, answers exactly as on a newly built graph with the same stored values and generator. Parameters of the right shape never raise. (False: that the graph stays reusable after a parameter list that is too short, which raises IndexError and leaves marks up.)", "quantifier": "all graphs, all finite sequences of graph operations, including rejected ones", "why_tests_cant": "Leftover marks only matter for particular later operations; the space of operation histories is infinite.", "anchors": ["abcpy/graphtools.py:_reset_flags", "abcpy/graphtools.py:sample_from_prior", "abcpy/acceptedparametersmanager.py:_reset_flags"]}
{"id": "C04", "title": "The joint prior density multiplies each free parameter's density exactly once", "statement": "For every parameter vector of the right shape, pdf_of_prior equals the product of the conditional densities of the free parameters at the values handed in given the inputs stored at the end, one factor per continuous parameter however many children share it and one factor per input path for a discrete one; if the vector is accepted, the stored inputs are the values handed in. (False: that a discrete parameter shared by several children contributes one factor; that a refused vector is evaluated at its own values, since the refusal is ignored and old parent values are used.)", "quantifier": "all graphs with any sharing, all parameter values", "why_tests_cant": "Multiplicity of factors is a property of all paths of the graph; only small diamonds are tested, and not with discrete parents.", "anchors": ["abcpy/graphtools.py:pdf_of_prior", "abcpy/graphtools.py:_recursion_pdf_of_prior", "abcpy/discretemodels.py:pmf", "abcpy/continuousmodels.py:pdf"]}
{"id": "C05", "title": "Prior sampling is ancestral sampling", "statement": "One successful pass of sample_from_prior draws every ancestor of the observed models exactly once, after all its parents, each from its own stretch of generator states; a random variable stores a value drawn from its conditional law at the parents' newly stored values, and an arithmetic node stores an evaluation of its expression in which every random variable is drawn anew. (False: that an arithmetic node stores the operation applied to the stored values of its inputs.)", "quantifier": "all graphs, all random streams", "why_tests_cant": "Order and multiplicity of draws is not observable by value comparison on a few graphs, and depends on the DAG.", "anchors": ["abcpy/graphtools.py:sample_from_prior", "abcpy/graphtools.py:_sample_from_prior", "abcpy/probabilisticmodels.py:_forward_simulate_and_store_output"]}
{"id": "C06", "title": "Rejected set_parameters is reported and its effect is delimited", "statement": "When a node rejects its new value, set_parameters reports failure with the index of the offending value; nodes that precede it in parameter order hold the new values and all others hold their old ones (the update is not atomic).", "quantifier": "all graphs, all parameter lists, all acceptance rules", "why_tests_cant": "The failing position ranges over all positions of all graphs.", "anchors": ["abcpy/graphtools.py:set_parameters"]}
{"id": "C07", "title": "Input connectors flatten nested parameter lists in order", "statement": "Building a model from a (nested) list of numbers, models and model outputs gives as many inputs as the sum of the output dimensions, in left-to-right order, and the input values read back are the stored outputs of the corresponding models; unsupported items raise TypeError.", "quantifier": "all finitely nested lists", "why_tests_cant": "Arbitrary nesting depth and mixture; tests use depth one.", "anchors": ["abcpy/probabilisticmodels.py:InputConnector.from_list", "abcpy/probabilisticmodels.py:InputConnector.from_model", "abcpy/probabilisticmodels.py:InputConnector.get_values", "abcpy/probabilisticmodels.py:ProbabilisticModel.__getitem__"]}
{"id": "C08", "title": "Arithmetic on random variables uses one draw per variable", "statement": "A simulation of k values of an expression node (X op Y) with one-dimensional inputs, nested to any depth, evaluates the first operand, then the second, with consecutive generator states, an operand used on both sides once (X-X is 0), and returns for each of the k positions the operation on the two operands' values; traversal marks and stored values are restored. (False: that a variable shared across nesting levels is drawn once, (X+0)-X is not 0; that number ** model uses the model, it returns the number to the power of itself, all k results in one entry, so that a nested use raises IndexError.)", "quantifier": "all operators, all k, all draws, equal or distinct operands", "why_tests_cant": "Randomised; a test cannot distinguish shared from independent draws for all k and operators.", "anchors": ["abcpy/probabilisticmodels.py:ModelResultingFromOperation.sample_from_input_models", "abcpy/probabilisticmodels.py:SummationModel", "abcpy/probabilisticmodels.py:SubtractionModel", "abcpy/probabilisticmodels.py:MultiplicationModel", "abcpy/probabilisticmodels.py:DivisionModel", "abcpy/probabilisticmodels.py:ExponentialModel", "abcpy/probabilisticmodels.py:RExponentialModel"]}
{"id": "C09", "title": "Distributed map/collect equals sequential map under every schedule", "statement": "With the MPI backend, parallelize(l), map(f), collect returns [f(x) for x in l], in the order of l, for every number of workers, every assignment of items to workers and every order of message arrival, and each item is evaluated exactly once.", "quantifier": "all lists, all pure functions, all worker counts, all interleavings of requests", "why_tests_cant": "Schedules are nondeterministic and unbounded; tests see one interleaving per run.", "anchors": ["abcpy/backends/mpi.py:Scheduler.orchestrate_map", "abcpy/backends/mpi.py:Worker.map", "abcpy/backends/mpi.py:collect", "abcpy/backends/base.py:BackendDummy"]}
{"id": "C10", "title": "A failing work item surfaces as an exception at collect and never loses other items", "statement": "If f raises on some items, collect raises, the exception it raises is one raised by f on some item of the list, and if no item fails collect does not raise; the map phase always terminates.", "quantifier": "all lists, all partial functions, all schedules", "why_tests_cant": "Which worker holds the failing item depends on the schedule.", "anchors": ["abcpy/backends/mpi.py:run_function", "abcpy/backends/mpi.py:collect"]}
{"id": "C11", "title": "Data-set identifiers and broadcast values stay coherent on all ranks", "statement": "In every history of parallelize / map / collect / broadcast / delete commands, identifiers handed out are never reused, every live broadcast has the same value on every rank, and deleting one data set does not affect another.", "quantifier": "all command histories, all numbers of ranks", "why_tests_cant": "Histories are unbounded; remote deletion runs at garbage-collection time.", "anchors": ["abcpy/backends/mpi.py:Scheduler", "abcpy/backends/mpi.py:Worker", "abcpy/backends/mpi.py:PDSMPI", "abcpy/backends/mpi.py:BDSMPI"]}
{"id": "C12", "title": "A journal keeps exactly what its type promises", "statement": "After any sequence of add_* calls, a type-1 journal returns at iteration i the i-th recorded item, a type-0 journal holds exactly the last one, get_x(None) is the last recorded, and each kind of item is unaffected by adds of the other kinds; an invalid type is refused.", "quantifier": "all sequences of add calls, all iterations", "why_tests_cant": "Histories are unbounded.", "anchors": ["abcpy/output.py:Journal.__init__", "abcpy/output.py:Journal.add_*", "abcpy/output.py:Journal.get_*"]}
{"id": "C13", "title": "Reported effective sample size lies between 1 and n", "statement": "For non-negative weights with positive sum the recorded ESS is between 1 and the number of samples, equals n exactly for uniform weights, equals 1 exactly for a single non-zero weight, and does not change when weights are rescaled.", "quantifier": "all weight vectors of all lengths", "why_tests_cant": "A real-valued inequality over all vectors.", "anchors": ["abcpy/output.py:Journal.add_ESS_estimate"]}
{"id": "C14", "title": "Posterior mean is a convex combination of the stored samples", "statement": "posterior_mean lies between the minimum and maximum of the stored samples of each parameter, is unchanged by rescaling all weights or permuting samples with their weights, and uses the weights of the same iteration.", "quantifier": "all sample sets and weights, all iterations", "why_tests_cant": "Inequality over all vectors.", "anchors": ["abcpy/output.py:Journal.posterior_mean"]}
{"id": "C15", "title": "Resampling a journal only reproduces stored samples, under the right names", "statement": "journal.resample returns a journal with the requested number of samples, each an exact copy of a stored sample, with equal weights, and every named column of the new journal is the column of that same name of the old one at the resampled indices; drawing more samples than stored without replacement is refused.", "quantifier": "all journals, all resampling draws, all name assignments", "why_tests_cant": "Random draws and arbitrary name multisets (models without explicit name all share the name '').", "anchors": ["abcpy/output.py:Journal.resample", "abcpy/output.py:Journal.add_user_parameters"]}
{"id": "C16", "title": "Rejection ABC returns n samples, all below the threshold", "statement": "RejectionABC.sample with a threshold returns exactly n_samples parameters, each with the recorded distance not exceeding the threshold and equal to the distance of a data set simulated from that very parameter, drawn from the prior.", "quantifier": "all models, distances, thresholds, random streams, numbers of samples", "why_tests_cant": "Rejection loops are unbounded; validity must hold on every random stream.", "anchors": ["abcpy/inferences.py:RejectionABC.sample", "abcpy/inferences.py:RejectionABC._sample_parameter"]}
{"id": "C17", "title": "Rejection ABC with simulation budget keeps the closest simulations", "statement": "With a simulation budget and a quantile, the retained samples are exactly the simulated ones whose distance is strictly below the quantile, parameters, distances and weights stay aligned.", "quantifier": "all simulated samples and quantiles", "why_tests_cant": "Ties and boundary positions of the quantile are unbounded.", "anchors": ["abcpy/inferences.py:RejectionABC._journal_cleanup", "abcpy/inferences.py:RejectionABC.sample"]}
{"id": "C18", "title": "PMC-ABC thresholds never increase and are respected", "statement": "The threshold in force at each step of PMCABC is the larger of the user's value and the requested percentile of the previous distances, every accepted particle of a step has distance at most that step's threshold, and with a non-increasing user schedule the sequence of thresholds is non-increasing.", "quantifier": "all schedules, all random streams, all numbers of steps", "why_tests_cant": "Invariant of an unbounded adaptive loop on random data.", "anchors": ["abcpy/inferences.py:PMCABC.sample", "abcpy/inferences.py:PMCABC._resample_parameter"]}
{"id": "C19", "title": "Importance weights are non-negative and normalised", "statement": "The particle weights recorded by the population methods are non-negative and sum to one at every iteration, whenever the prior density of the particles is positive.", "quantifier": "all populations, kernels, priors", "why_tests_cant": "Real-valued invariant over all inputs.", "anchors": ["abcpy/inferences.py:PMCABC._calculate_weight", "abcpy/inferences.py:PMC._calculate_weight", "abcpy/inferences.py:SMCABC.sample", "abcpy/inferences.py:APMCABC._accept_parameter"]}
{"id": "C20", "title": "Replenishment SMC keeps a full population below a shrinking threshold", "statement": "At every step of RSMCABC the population has n_samples particles, all with distance at most the current threshold, the thresholds are non-increasing, and the retained part is the closest fraction 1-alpha.", "quantifier": "all populations, all random streams, all steps, all alpha", "why_tests_cant": "Invariant of an unbounded adaptive loop.", "anchors": ["abcpy/inferences.py:RSMCABC.sample", "abcpy/inferences.py:RSMCABC._accept_parameter"]}
{"id": "C21", "title": "An accepted move is the one that was simulated", "statement": "Whenever a population method reports an accepted parameter with a distance, that distance is the distance of data simulated at exactly that parameter.", "quantifier": "all methods, all random streams, all kernels", "why_tests_cant": "Parameters live in a shared mutable graph that prior evaluation overwrites; pairing errors are invisible in summary outputs.", "anchors": ["abcpy/inferences.py:RSMCABC._accept_parameter", "abcpy/inferences.py:SMCABC._accept_parameter", "abcpy/inferences.py:PMCABC._resample_parameter", "abcpy/graphtools.py:pdf_of_prior"]}
{"id": "C22", "title": "Adaptive population Monte Carlo keeps the best alpha fraction", "statement": "APMCABC's retained particles are those with distance strictly below the new threshold, weights are normalised over them, and the threshold does not increase.", "quantifier": "all populations and steps", "why_tests_cant": "Percentile boundary cases with ties and arbitrary populations.", "anchors": ["abcpy/inferences.py:APMCABC.sample"]}
{"id": "C23", "title": "SMC-ABC thresholds decrease to the final threshold", "statement": "The threshold sequence of SMCABC is non-increasing, never below the requested final threshold, the bisection that computes it terminates and returns a point of the search interval.", "quantifier": "all weight functions, all tolerances, all populations", "why_tests_cant": "The objective is an arbitrary step function; termination is a liveness claim.", "anchors": ["abcpy/inferences.py:SMCABC._bisection", "abcpy/inferences.py:SMCABC.sample", "abcpy/inferences.py:SMCABC._compute_epsilon"]}
{"id": "C24", "title": "Particles and their simulated data stay paired in SMC-ABC", "statement": "Throughout SMCABC, particle i of the population and the simulated data stored at position i belong together: the data was simulated from that particle's parameter, also after resampling.", "quantifier": "all populations, all resampling draws", "why_tests_cant": "Resampling indices are random, and the mismatch does not show in output shapes.", "anchors": ["abcpy/inferences.py:SMCABC.sample", "abcpy/inferences.py:SMCABC._accept_parameter"]}
{"id": "C25", "title": "Subset simulation returns n_samples samples with decreasing annealing parameter", "statement": "ABCsubsim keeps n_samples samples and n_samples weights at every step and its annealing parameter is one of the sorted distances chosen by the chain-length rule.", "quantifier": "all n_samples, chain_length, distances", "why_tests_cant": "Divisibility and boundary cases of integer arithmetic.", "anchors": ["abcpy/inferences.py:ABCsubsim.sample", "abcpy/inferences.py:ABCsubsim._accept_parameter"]}
{"id": "C26", "title": "SABC smoothing and acceptance probabilities are well-formed", "statement": "The annealing method's smoothed distance is in [0,1], acceptance probabilities are in [0,1], a population member is only replaced by an accepted candidate.", "quantifier": "all distance sets, epsilons, draws", "why_tests_cant": "Real-valued invariants of an adaptive loop.", "anchors": ["abcpy/inferences.py:SABC._smoother_distance", "abcpy/inferences.py:SABC._accept_parameter", "abcpy/inferences.py:SABC.sample"]}
{"id": "C27", "title": "Metropolis-Hastings returns a chain of the requested length", "statement": "MCMCMetropoliHastings returns exactly n_samples states after burn-in, consecutive states differ only by accepted proposals, the acceptance rate is in [0,1] and counts exactly the accepted proposals, and rejected or out-of-prior proposals repeat the current state.", "quantifier": "all proposals, likelihood values, burn-in lengths, random streams", "why_tests_cant": "Invariant of an unbounded random loop.", "anchors": ["abcpy/inferences.py:MCMCMetropoliHastings.sample"]}
{"id": "C28", "title": "The Metropolis-Hastings acceptance rule satisfies detailed balance", "statement": "With a symmetric proposal in the transformed space, prior times approximate likelihood (with the Jacobian of the transformation) is reversible under the implemented acceptance probability.", "quantifier": "all pairs of states with positive density, all transformers", "why_tests_cant": "A real identity for all states; statistical tests only detect gross violations.", "anchors": ["abcpy/inferences.py:MCMCMetropoliHastings.sample", "abcpy/transformers.py:jac_log_det"]}
{"id": "C29", "title": "Restarting a chain from a journal continues it", "statement": "A run of m steps saved to a journal and restarted for n steps yields a journal with m+n states whose first m are the saved ones, acceptance rate being the pooled rate.", "quantifier": "all m, n, all journals", "why_tests_cant": "Composition law over all split points.", "anchors": ["abcpy/inferences.py:MCMCMetropoliHastings.sample", "abcpy/output.py:Journal.fromFile"]}
{"id": "C30", "title": "Bounded-variable transformation is a bijection", "statement": "For every declared bound pattern, inverse_transform(transform(x)) = x for every x strictly inside the bounds, transform(inverse_transform(y)) = y for every y, results of inverse_transform are strictly inside the bounds, and points on or outside a bound raise RuntimeError.", "quantifier": "all dimensions, all bound patterns, all real points", "why_tests_cant": "Real identities over a continuum.", "anchors": ["abcpy/transformers.py:BoundedVarTransformer"]}
{"id": "C31", "title": "Reported log-Jacobians are the true ones", "statement": "jac_log_det(x) is the logarithm of the absolute product of derivatives of the coordinate transforms at x, and jac_log_det_inverse_transform(y) equals jac_log_det at the inverse image of y.", "quantifier": "all points inside the bounds", "why_tests_cant": "Derivative identities over a continuum.", "anchors": ["abcpy/transformers.py:_jac_log_det", "abcpy/transformers.py:_jac_log_det_inverse_transform"]}
{"id": "C32", "title": "Joint perturbation kernels perturb every parameter once and multiply densities", "statement": "JointPerturbationKernel.update returns each model of every kernel exactly once with a value from the kernel that owns it, the density of a joint move is the product of the kernels' densities, and a kernel set that does not cover or overlaps the models is refused; DefaultKernel partitions the models by type.", "quantifier": "all model lists, all partitions into kernels", "why_tests_cant": "Arbitrary partitions and interleavings of columns.", "anchors": ["abcpy/perturbationkernel.py:JointPerturbationKernel", "abcpy/perturbationkernel.py:DefaultKernel", "abcpy/perturbationkernel.py:MultivariateNormalKernel"]}
{"id": "C33", "title": "The random-walk kernel's probability mass function is that of its moves", "statement": "RandomWalkKernel.pmf(x) is the probability that update moves from the current value to x: it sums to one over all reachable points and vanishes elsewhere.", "quantifier": "all current values, all numbers of parameters, all jump sizes", "why_tests_cant": "A sum over all integer points.", "anchors": ["abcpy/perturbationkernel.py:RandomWalkKernel", "abcpy/perturbationkernel.py:NetworkRandomWalkKernel"]}
{"id": "C34", "title": "perturb reports success exactly when the new parameters were installed", "statement": "BaseMethodsWithKernel.perturb returns [True, v] only if v has been accepted by the graph and is its current state, and [False] only if no proposal was accepted within the allowed number of attempts.", "quantifier": "all graphs, kernels, random streams, numbers of failed attempts", "why_tests_cant": "The number of failed attempts before success is random and unbounded.", "anchors": ["abcpy/inferences.py:BaseMethodsWithKernel.perturb"]}
{"id": "C35", "title": "Polynomial expansion of statistics", "statement": "For every data set the statistics returned have one row per observation in input order and, for degree d on p features, p*max(d,1) columns (the k-th powers) plus p(p-1)/2 pairwise products when cross terms are requested and p>1; rescaling divides by the stored deviations and refuses other sizes.", "quantifier": "all data sets, degrees, cross settings", "why_tests_cant": "Universally quantified shape/content law.", "anchors": ["abcpy/statistics.py:_polynomial_expansion", "abcpy/statistics.py:_preprocess", "abcpy/statistics.py:_rescale", "abcpy/statistics.py:_check_and_transform_input"]}
{"id": "C36", "title": "Caching of the observed statistics is transparent", "statement": "Distance.distance and Approx_likelihood.loglikelihood return, in every sequence of calls with arbitrary and changing data sets, the value a freshly created object would return.", "quantifier": "all call histories, all data sets", "why_tests_cant": "The cache makes results depend on history; histories are unbounded.", "anchors": ["abcpy/distances.py:Distance._calculate_summary_stat", "abcpy/approx_lhd.py:Approx_likelihood._calculate_summary_stat"]}
{"id": "C37", "title": "Euclidean distance between data sets", "statement": "Euclidean.distance is non-negative, symmetric, and on single observations zero iff the statistics coincide and satisfies the triangle inequality.", "quantifier": "all data sets", "why_tests_cant": "Real inequalities over all vectors.", "anchors": ["abcpy/distances.py:Euclidean"]}
{"id": "C38", "title": "Kernel discrepancy estimators have the documented sign", "statement": "The biased MMD estimate is non-negative for positive semidefinite kernels and zero on identical data sets; the estimators are symmetric; the energy distance is consistent with the MMD estimator form.", "quantifier": "all data sets, all kernels", "why_tests_cant": "Real inequalities over all matrices.", "anchors": ["abcpy/distances.py:MMD", "abcpy/distances.py:EnergyDistance"]}
{"id": "C39", "title": "Divergence estimators respect their declared range", "statement": "The squared Hellinger, KL, Gamma divergence and classifier-based distances return values within [0 or -max, dist_max] as declared by dist_max and the positivity declaration used when combining distances.", "quantifier": "all data sets, all neighbour counts", "why_tests_cant": "Range claims over all samples.", "anchors": ["abcpy/distances.py:SquaredHellingerDistance", "abcpy/distances.py:LogReg", "abcpy/distances.py:KLDivergence", "abcpy/distances.py:GammaDivergence"]}
{"id": "C40", "title": "Discrete priors are probability mass functions matching their samplers", "statement": "For Bernoulli, Binomial and DiscreteUniform priors the mass function is non-negative, sums to one over the values the sampler can return and is zero at other integers.", "quantifier": "all parameters, all integers", "why_tests_cant": "Identities over all n, p (binomial theorem).", "anchors": ["abcpy/discretemodels.py:Bernoulli", "abcpy/discretemodels.py:Binomial", "abcpy/discretemodels.py:DiscreteUniform", "abcpy/discretemodels.py:Poisson"]}
{"id": "C41", "title": "Uniform priors: density, support and acceptance agree", "statement": "For every box, a value is accepted by the model iff its density is positive, all samples lie in the box, density times volume is one, and incompatible bounds are refused.", "quantifier": "all dimensions, all boxes, all points", "why_tests_cant": "Continuum of boxes and boundary points.", "anchors": ["abcpy/continuousmodels.py:Uniform"]}
{"id": "C42", "title": "Work items get distinct random seeds", "statement": "The seeds handed to parallel workers by one sampling call are pairwise distinct and within the 32-bit range.", "quantifier": "all draws of the seed generator, all numbers of samples", "why_tests_cant": "Collisions are rare events of a random draw.", "anchors": ["abcpy/inferences.py:DrawFromPrior._generate_rng_pds", "abcpy/inferences.py:RejectionABC.sample"]}
{"id": "C43", "title": "Chunked prior sampling returns exactly the requested number of samples", "statement": "DrawFromPrior.sample(n) and sample_par_sim_pairs(n, .) return exactly n samples, in order, whatever the chunk size, with chunks never larger than the maximum.", "quantifier": "all n, all positive chunk sizes", "why_tests_cant": "Loop arithmetic for all pairs (n, chunk).", "anchors": ["abcpy/inferences.py:DrawFromPrior.sample", "abcpy/inferences.py:DrawFromPrior.sample_par_sim_pairs"]}
{"id": "C44", "title": "Posterior predictive simulations are aligned with the stored parameters", "statement": "GenerateFromJournal.generate returns for position i a simulation generated with the graph set to the i-th stored parameter and the i-th weight divided by the total weight; a journal from other model types is refused.", "quantifier": "all journals, all schedules of the backend", "why_tests_cant": "Depends on schedule and on shared graph state.", "anchors": ["abcpy/output.py:GenerateFromJournal.generate", "abcpy/output.py:GenerateFromJournal._sample_parameter"]}
{"id": "C45", "title": "Joint distances and likelihoods combine the parts as documented", "statement": "LinearCombination returns the weighted sum of the component distances with normalised weights and dist_max the corresponding combination, it is monotone in each component; product and sum of approximate likelihoods combine the components; wrong numbers of parts are refused.", "quantifier": "all component values, all weights, all numbers of models", "why_tests_cant": "Universally quantified arithmetic law.", "anchors": ["abcpy/jointdistances.py:LinearCombination", "abcpy/jointapprox_lhd.py:ProductCombination", "abcpy/jointapprox_lhd.py:SumCombination"]}
{"id": "C46", "title": "Reference tables label every simulation with its own model", "statement": "In model selection each reference-table entry carries the label of the model it was simulated from, the returned model is one of the candidates, and the table is computed once and reused.", "quantifier": "all candidate lists, all seeds, all sequences of queries", "why_tests_cant": "Depends on random model choices and call histories.", "anchors": ["abcpy/modelselections.py:RandomForest.select_model", "abcpy/modelselections.py:RandomForest.posterior_probability", "abcpy/modelselections.py:RandomForest._simulate_model_data"]}
{"id": "C47", "title": "Memoised functions are transparent", "statement": "A function wrapped with `cached` returns the same values as the function itself in every sequence of calls and evaluates it at most once per distinct argument.", "quantifier": "all functions, all call sequences", "why_tests_cant": "Histories are unbounded.", "anchors": ["abcpy/utils.py:cached"]}
{"id": "C48", "title": "Similarity sets for distance learning are reflexive, symmetric and non-trivial", "statement": "compute_similarity_matrix returns a symmetric matrix in which every sample is similar to itself and at least one pair of different samples is similar; otherwise it raises. Siamese and triplet items never pair a sample with itself and carry the correct target.", "quantifier": "all parameter sets, quantiles and draws", "why_tests_cant": "Ties/duplicates and unbounded rejection loops.", "anchors": ["abcpy/NN_utilities/utilities.py:compute_similarity_matrix", "abcpy/NN_utilities/datasets.py:SiameseSimilarities", "abcpy/NN_utilities/datasets.py:TripletSimilarities"]}
{"id": "C49", "title": "Forward-mode derivatives of the default network are the true derivatives", "statement": "The first and second derivatives (and full Hessian) returned along with the forward pass of the default network equal the derivatives of its output with respect to its input.", "quantifier": "all depths, widths, weights, inputs, all twice differentiable activations", "why_tests_cant": "Real-analytic identity over all networks.", "anchors": ["abcpy/NN_utilities/networks.py:forward_and_derivatives", "abcpy/NN_utilities/networks.py:forward_and_full_derivatives"]}
{"id": "C50", "title": "Accepted-parameter bookkeeping returns the column of the requested model", "statement": "get_accepted_parameters_bds_values(models) returns, for every stored sample, the stored values of exactly the requested models in the requested order, and update_broadcast changes exactly the fields that were passed.", "quantifier": "all graphs, all stored populations, all model subsets", "why_tests_cant": "Column positions depend on the graph's traversal order.", "anchors": ["abcpy/acceptedparametersmanager.py:get_accepted_parameters_bds_values", "abcpy/acceptedparametersmanager.py:update_broadcast", "abcpy/graphtools.py:_get_names_and_parameters"]}
{"id": "C51", "title": "Nested-MPI roles partition the ranks", "statement": "For every communicator size and process-per-model count, each rank is assigned exactly one role, every team has exactly one leader, and invalid configurations are refused.", "quantifier": "all communicator sizes and processes per model", "why_tests_cant": "Integer arithmetic over all sizes.", "anchors": ["abcpy/backends/mpimanager.py", "abcpy/backends/mpi.py:BackendMPI"]}
{"id": "C52", "title": "Cross-validation fold labels cover both samples evenly", "statement": "The fold labels built for penalised logistic regression have one label per observation of both samples, the same labels for both, in non-decreasing order and each fold used at most ceil(n/folds) times per sample.", "quantifier": "all sample sizes and fold counts", "why_tests_cant": "Integer arithmetic over all sizes.", "anchors": ["abcpy/distances.py:PenLogReg", "abcpy/approx_lhd.py:PenLogReg"]}
{"id": "C53", "title": "Sample-quality distances use normalised weights", "statement": "wass_dist normalises both weight vectors, refuses weights of the wrong length, and the Wasserstein convergence series has one entry fewer than the number of iterations.", "quantifier": "all sample sets, all weights, all journals", "why_tests_cant": "Universally quantified.", "anchors": ["abcpy/utils.py:wass_dist", "abcpy/output.py:Journal.Wass_convergence_plot"]}
{"id": "C54", "title": "Adaptation of the proposal covariance during burn-in", "statement": "During burn-in of MCMCMetropoliHastings the proposal covariance is recomputed at the burn-in steps that are multiples of adapt_proposal_cov_interval, from the burn-in states so far, and never afterwards; the journal keeps the matrices last in use.", "quantifier": "all burn-in lengths, intervals, random streams, transformers", "why_tests_cant": "Depends on which of unboundedly many steps propose outside the prior, and on the space the states are taken from.", "anchors": ["abcpy/inferences.py:MCMCMetropoliHastings.sample"]}
{"id": "C55", "title": "Scaled transformations are bijections onto the feature range", "statement": "BoundedVarScaler fitted on data inside the bounds maps the training data into the feature range, inverse_transform undoes transform on all data inside the bounds, and the Jacobian reported for a rescaled point is that of the point it comes from.", "quantifier": "all data sets inside the bounds, all bound patterns, with and without rescaling", "why_tests_cant": "Real identities over a continuum of data sets.", "anchors": ["abcpy/transformers.py:BoundedVarScaler"]}
{"id": "C56", "title": "Bounds given to MCMC reach the parameters they name", "statement": "The transformer built by MCMCMetropoliHastings.sample has, for each parameter, the bounds given under its name and none if no bounds are given; unknown names, entries that are not pairs and upper bounds alone are refused.", "quantifier": "all models, all bounds dictionaries", "why_tests_cant": "Universally quantified over graphs and dictionaries.", "anchors": ["abcpy/inferences.py:MCMCMetropoliHastings.sample", "abcpy/transformers.py:BoundedVarTransformer.__init__"]}
{"id": "C58", "title": "Continuous priors: density and sampler describe the same law", "statement": "For Exponential, Normal and LogNormal the density is the derivative of the distribution function of the samples; Student densities are positive and symmetric; evaluating a density does not change the point.", "quantifier": "all admissible parameters, all points, all random numbers", "why_tests_cant": "Continuum of parameters and points; equality of laws is not observable from finitely many samples.", "anchors": ["abcpy/continuousmodels.py:Exponential", "abcpy/continuousmodels.py:Normal", "abcpy/continuousmodels.py:LogNormal", "abcpy/continuousmodels.py:StudentT"]}
{"id": "C59", "title": "A simulation uses the parameters just set", "statement": "After set_parameters accepts a parameter vector, simulate depends only on these parameters, the fixed numbers and the generator state, not on what the graph held before; this fails when an input of an observed model is an arithmetic combination of models, whose stored value is not refreshed.", "quantifier": "all graphs, parameter vectors and previous graph states", "why_tests_cant": "A test exercises one graph and one history; the stale value of an arithmetic node looks like a plausible simulation.", "anchors": ["abcpy/probabilisticmodels.py:ProbabilisticModel.set_output_values", "abcpy/graphtools.py:GraphTools.set_parameters", "abcpy/graphtools.py:GraphTools.simulate"]}
{"id": "C60", "title": "Training stops early at the right epoch and keeps the best weights", "statement": "trainer.fit records one training (and validation) loss per epoch run, runs until n_epochs or until the first checkpoint (a multiple of the interval, not before start_epoch_early_stopping) whose validation loss exceeds that of the previous checkpoint, and then returns the weights of that previous checkpoint.", "quantifier": "all networks, losses, loaders, epochs and options", "why_tests_cant": "Whether a state dictionary is a copy or a reference shows only when training goes on after it was taken.", "anchors": ["abcpy/NN_utilities/trainer.py:fit", "abcpy/NN_utilities/trainer.py:train_epoch", "abcpy/NN_utilities/trainer.py:test_epoch"]}
{"id": "C61", "title": "The losses used to learn statistics are what they claim to be", "statement": "The contrastive loss of a batch is the mean (or sum) of half the squared distance over similar pairs and half the squared margin deficit over dissimilar pairs; it is never negative and its sum is zero exactly when similar pairs coincide and dissimilar pairs are beyond the margin. The triplet loss is zero exactly when every positive is closer to the anchor than the negative by the margin. The exponential-family loss is the score matching objective of the unnormalised log density given by the networks, divided by the batch size; the sliced loss equals it on average over isotropic projections, with or without variance reduction, and random signs are such projections. Batches of different sizes and unknown noise types are refused.", "quantifier": "all batches, embedding widths, margins, natural parameters, twice differentiable statistics, regularisation weights, and all finite isotropic noise distributions", "why_tests_cant": "Tests evaluate losses at a few points; they cannot establish the zero set over all batches, the identity with the derivative-based objective for all statistics, or unbiasedness over the noise.", "anchors": ["abcpy/NN_utilities/losses.py:1-61", "abcpy/statisticslearning.py:1753-1814"]}
{"id": "C62", "title": "Training data for learning statistics pair each parameter with its own simulations", "statement": "When the learner generates its data from one root model with statistics that keep the data as they are, or with one simulation per parameter and any statistics, the training rows followed by the validation rows are, in order, every drawn parameter with (the statistics of) each of its own simulations, and the two sets have n_samples*k and n_samples_val*k rows. Provided arrays are used row by row; mismatching, missing or non-array arguments are refused. The linear method returns, per parameter, the inner product with its regression coefficients, and recovers the parameters up to a constant whenever they are affine in the statistics. (The pairing is false for k>1 with a polynomial expansion or with several root models.)", "quantifier": "all priors and simulators (as oracles), seeds, sample sizes up to the int32 limit, dimensions, statistics calculators, and least-squares solvers", "why_tests_cant": "Tests use a fixed model with one simulation per parameter and never look at the alignment of rows; the reshaping error for k>1 yields arrays of plausible shape.", "anchors": ["abcpy/statisticslearning.py:40-221", "abcpy/statisticslearning.py:266-328", "abcpy/statistics.py:196-220"]}
{"id": "C63", "title": "Score matching training uses every sample once per epoch and stops where it says", "statement": "With a positive batch size the batches of an epoch split a permutation of the samples: every sample is used exactly once, all batches but the last are full and none is empty. A run executes the epochs in order with the loss lists of every epoch and ends after the last epoch or at the first epoch that is a multiple of the interval, past the given start, and has a larger validation loss than the epoch one interval before; the comparison never leaves the list. (False: that the reported loss is the mean over batches - it is divided by one more than their number; that the better weights are restored; that any batch size is usable - with batch normalisation a left-over batch of one sample raises ValueError, and batch size 0 never ends.)", "quantifier": "all networks and optimisers (as oracles), sample and batch sizes, permutations, epochs, intervals and validation sets", "why_tests_cant": "Tests train for one or two epochs with sizes that divide evenly and do not check losses; the off-by-one only scales the reported numbers.", "anchors": ["abcpy/statisticslearning.py:1540-1751"]}
{"id": "C64", "title": "The sliced Wasserstein distance is the root mean square of projected distances", "statement": "For two non-empty data sets with the same number of columns and a positive number of projections, SlicedWasserstein.distance returns the square root of the mean, over the drawn directions scaled to length one, of the squared 2-Wasserstein distances of the projected data sets. It is never negative, zero for a data set against itself, at most the 2-Wasserstein distance, and for the same directions symmetric and subject to the triangle inequality. Different numbers of columns are refused with ValueError, empty data sets and zero projections with ZeroDivisionError. (False: that the value is reproducible or symmetric between calls of one object, since the generator moves on; that distance zero means the same distribution, for any finite set of directions in the plane.)", "quantifier": "all data sets of real vectors, all generators and their states with non-zero rows, all exact one-dimensional transport solvers, all numbers of projections", "why_tests_cant": "The metric properties quantify over all pairs and triples of data sets and all directions, and depend on an optimum over all transport plans; the failure of separation needs data sets built from the drawn directions.", "anchors": ["abcpy/distances.py:436-460", "abcpy/distances.py:479-521", "abcpy/distances.py:523-618"]}
{"id": "C57", "title": "The covariance matrices used for the moves are the widened weighted covariances", "statement": "For at least two particles whose values in a kernel are all numbers or all arrays of the same total size, and weights of which at least two are positive, calculate_cov returns the weighted covariance matrix with the factor for reliability weights; without weights it is the matrix for equal weights, and scaling the weights changes nothing. The matrix used for the moves is the factor times this matrix plus 1e-20 times the trace on the diagonal, always two-dimensional. If two particles with positive weights differ it is symmetric and positive definite, even where the particles lie in a subspace; if all of them are the same it is zero. A wrong number of weights, a negative weight or a zero sum are refused. With one factor per kernel (PMC) kernels without a factor get no matrix. (False: that one positive weight or a population of one particle gives a usable matrix.)", "quantifier": "all populations of at least two particles, all weights, all factors, all numbers of parameters", "why_tests_cant": "Positive definiteness is a statement about all directions and all populations, including degenerate ones where only the 1e-20 term keeps the matrix invertible and rounding hides it.", "anchors": ["abcpy/perturbationkernel.py:126-145", "abcpy/perturbationkernel.py:246-276", "abcpy/perturbationkernel.py:375-402", "abcpy/perturbationkernel.py:596-602", "abcpy/inferences.py:1059-1083", "abcpy/inferences.py:1465-1488"]}
{"id": "C65", "title": "Synthetic likelihoods are Gaussian and Gaussian-copula log densities", "statement": "SynLikelihood.loglikelihood equals the sum over the observations of the normal log density with the mean of the simulated statistics and the estimated precision, up to a constant that depends on the numbers of observations and statistics only; so differences between parameter values are differences of log densities, the order of the observations does not matter, data sets add up, and for positive definite precision the value is largest exactly when every observation is the mean. SemiParametricSynLikelihood.loglikelihood, with at least two statistics (RuntimeError otherwise), is the sum over the observations of the marginal log densities and the Gaussian copula log density; its matrix is the correlation of the normal scores of the ranks, which without ties is symmetric with unit diagonal, entries in [-1,1] and positive semidefinite, and is unchanged by increasing transformations of the statistics; the stored denominators change no result. (False: unit diagonal with ties; a finite value for integer statistics of the observations, as np.zeros_like truncates the distribution function to zero.)", "quantifier": "all matrices of real statistics, all covariance estimators, inverses and density estimators, all strictly increasing quantile functions, all sequences of calls", "why_tests_cant": "The identities and inequalities hold over all data, dimensions and estimated matrices; the integer truncation shows up only with integer statistics, which the tests do not use with this class.", "anchors": ["abcpy/approx_lhd.py:58-74", "abcpy/approx_lhd.py:148-183", "abcpy/approx_lhd.py:219-274", "abcpy/approx_lhd.py:276-304"]}
{"id": "C66", "title": "The logistic regression likelihood is the log odds of simulations against one reference sample", "statement": "With at least two simulations and two statistics, PenLogReg.loglikelihood returns the sum over the observations of the logarithm of the fitted odds for the simulated against the reference class, where the fit sees the n simulations labelled 0, the n reference rows labelled 1 and the fold labels; another number of simulations is refused with RuntimeError. The reference data are n draws of the first model, one after the other, all with one parameter value drawn from the prior; no models or n_simulate = 0 gives IndexError. (False: that the reference data come from the marginal distribution with one prior draw each; that the class works for one statistic or one simulation, where every call raises ValueError as np.squeeze drops the axis.)", "quantifier": "all priors, simulators, generators and states, all numbers of models, simulations, folds and statistics, all classifiers", "why_tests_cant": "The identity holds for every fitted classifier and every data set; the tests use one Gaussian model with two statistics and cannot show the single parameter draw or the failure for one statistic.", "anchors": ["abcpy/approx_lhd.py:346-355", "abcpy/approx_lhd.py:357-390", "abcpy/approx_lhd.py:392-425"]}
{"id": "C67", "title": "Automatic derivatives of a batch are the derivatives of each sample", "statement": "For a network that treats the samples of a batch separately, jacobian returns (batch x in x out) the derivative of every output by every input of the same sample, jacobian_second_order also the second derivatives (batch x in x out) and jacobian_hessian all mixed ones (batch x in x in x out), for every batch; the numbers coincide with those of the default network's own forward_and_derivatives when the nonlinearity is smooth. (False: that this holds for networks mixing the samples, as batch normalisation does: the entries then add up derivatives over the whole batch; that inputs with three dimensions are handled, where the second derivative is taken by the wrong component; that NaN values are refused: the membership test catches plus infinity only.)", "quantifier": "all row-wise networks, all batch, input and output sizes, all inputs where the derivatives exist", "why_tests_cant": "The identity quantifies over all differentiable functions and batches; the tests compare two implementations on one random network with two-dimensional input.", "anchors": ["abcpy/NN_utilities/utilities.py:62-87", "abcpy/NN_utilities/utilities.py:89-126", "abcpy/NN_utilities/utilities.py:128-157", "abcpy/statisticslearning.py:1753-1764"]}
{"id": "C68", "title": "Learned statistics are applied to new data exactly as in training, also after saving and loading", "statement": "Whatever network class, training routine and data: in evaluation mode the statistics returned by get_statistics give every simulation that was used in training the network's output on exactly the input it was trained with (previous statistics applied once, scaler learned from the training simulations only and reused for validation and new data, every feature replaced by its position between the training minimum and maximum); for the exponential family without the last output and divided by its standard deviation over the validation (else training) inputs. save_net followed by fromFile with the same class or sizes restores the same network, dropped output and scaler included. (False: without a validation set the network is left in training mode; with a scaler, data are rounded to float32 before scaling when served and after scaling in training, so that simulations told apart in training can coincide and simulations strictly inside the bounds are refused; the default exponential family network reloaded by its sizes gets ReLU instead of Softplus without an error; the standard deviations are not saved.)", "quantifier": "all network classes, trained parameters, training routines, training and validation sets, previous statistics, scalers and new data", "why_tests_cant": "The claim relates two code paths (training and serving) for all networks and data; tests check shapes of the output on one example, and rounding and mode effects show only on particular data.", "anchors": ["abcpy/statisticslearning.py:419-518", "abcpy/statisticslearning.py:520-538", "abcpy/statisticslearning.py:1273-1427", "abcpy/statisticslearning.py:1429-1476", "abcpy/statistics.py:346-388", "abcpy/statistics.py:390-501", "abcpy/statistics.py:503-527", "abcpy/statistics.py:529-562", "abcpy/NN_utilities/networks.py:46-78", "abcpy/NN_utilities/utilities.py:48-58", "abcpy/NN_utilities/trainer.py:33-133"]}
{"id": "C69", "title": "Multivariate priors accept exactly the covariance matrices they can use, and their density and samples match", "statement": "MultivariateNormal and MultiStudentT accept finite input values exactly if there are as many as the dimension asks for, the matrix is symmetric up to the tolerance, the symmetric matrix given by its lower triangle is positive definite and (Student) the degrees of freedom are positive; a symmetric matrix is accepted exactly if it is positive definite. The constructor reads mean and matrix row by row and refuses what is not accepted. MultiStudentT.pdf at mean + L z (L the Cholesky factor) is the multivariate t density, symmetric around the mean and largest there, and the StudentT density in one dimension; sample i is the mean plus the i-th normal vector over the root of the i-th chi-square number divided by its degrees of freedom. (False: with small variances matrices that are far from symmetric and not positive definite are accepted; infinite variance and NaN degrees of freedom are accepted; with infinitely many degrees of freedom samples are normal but the density is NaN everywhere; a model as the mean of MultiStudentT is refused although the code has a branch for it.)", "quantifier": "all dimensions, means, matrices, degrees of freedom, points and sample sizes", "why_tests_cant": "Positive definiteness quantifies over all vectors and the factorisation over all dimensions; tests use one or two matrices.", "anchors": ["abcpy/continuousmodels.py:316-345", "abcpy/continuousmodels.py:347-371", "abcpy/continuousmodels.py:381-406", "abcpy/continuousmodels.py:440-484", "abcpy/continuousmodels.py:486-516", "abcpy/continuousmodels.py:524-557", "abcpy/continuousmodels.py:562-584"]}
{"id": "C70", "title": "The posterior covariance is the weighted covariance of all parameter coordinates", "statement": "Journal.posterior_cov reads the samples and weights of the same iteration (the last one by default). With at least two positive weights and parameters stored as arrays, the matrix has one row and column per coordinate of a parameter, in the order of the names, and each entry is the weighted covariance (factor for reliability weights) of the two coordinates: symmetric, positive semidefinite, unchanged when all weights are multiplied by a positive number, and the unbiased sample covariance for equal weights. Weights of the wrong number, negative weights, weights of sum zero, samples with several entries per name and iterations that do not exist are refused. (False: with one positive weight or a single sample every entry is NaN; the returned names do not name the rows when a parameter has several coordinates; parameters stored as numbers work only alone.)", "quantifier": "all journals, iterations, numbers of samples, names, dimensions and weights", "why_tests_cant": "The test suite has two journals; semidefiniteness and the position of coordinates quantify over all samples and all dimensions.", "anchors": ["abcpy/output.py:418-442"]}
{"id": "C71", "title": "The posterior histogram puts the weight of every sample into exactly one cell", "statement": "Journal.posterior_histogram with n >= 1 bins gives every coordinate n bins of equal length from its smallest to its largest value (half a unit around it if there is only one value). The value of a cell is the total weight of the samples inside it (the last bin includes its right edge); every sample lies in exactly one cell, so that the sum over all cells is the sum of the weights. Less than one bin and a wrong number of weights are refused. (False: parameters stored as numbers are refused when there are two or more.)", "quantifier": "all journals, iterations, numbers of samples, names, dimensions, bins and weights", "why_tests_cant": "Conservation of weight must hold for all positions of samples, including those on the edges between bins, in every dimension.", "anchors": ["abcpy/output.py:444-468"]}
{"id": "C72", "title": "A team of MPI processes executes nested calls together and does not deadlock", "statement": "For a leader with any number of workers, any list of commands (map items, broadcasts, deletions, then finish) and any map function whose nested calls can be pickled and raise on no process: at every moment of every execution some process can go on or all have ended; no execution is longer than a stated number of steps; every process makes the same nested calls with the same arguments and receives the same broadcast values, in the order of the commands, and at the end all of them; no process begins a nested call before all others have finished the one before. (False: if a nested call cannot be pickled or raises on any process, the team never finishes; workers keep broadcast values that were deleted.)", "quantifier": "all team sizes, commands, map functions, nested functions and interleavings of the processes", "why_tests_cant": "The number of interleavings of barriers and broadcasts is unbounded; a deadlock after a failing nested call shows up as a hanging test.", "anchors": ["abcpy/backends/mpi.py:14-87", "abcpy/backends/mpi.py:408-478", "abcpy/backends/mpi.py:495-585"]}
{"id": "C73", "title": "Random numbers of simulations with and without nested execution", "statement": "graphtools simulate without a controller passes the generator from model to model and back to the caller. The loop of the r-hit kernel returns the positions of the first hits among its successive simulations and ends at the last of them. (False with a controller of two or more processes: all models start from the same generator state and the caller's generator is not advanced, so equal models give equal data and a repeated simulation gives the same data; the loop of the r-hit kernel then finds only hits or never ends.)", "quantifier": "all models, generators, sizes, numbers of simulations and acceptance tests", "why_tests_cant": "The tests run nested execution with a single simulation and compare shapes, not the state of the generator.", "anchors": ["abcpy/graphtools.py:396-421", "abcpy/inferences.py:3852-3861", "abcpy/backends/mpi.py:42-59"]}
{"id": "C74", "title": "Law of a sample of rejection ABC", "statement": "For a generator of independent draws with any finite law, a prior draw and simulation per attempt, and any threshold below the maximal distance: a worker of RejectionABC returns at its i-th attempt parameters and a distance with a given property with probability (1-a)^(i-1) times the probability that a prior draw with its simulation is accepted and has the property, where a is the acceptance probability. Hence the number of simulations is geometric and independent of the sample, the law of the sample is the prior law conditioned on acceptance, and the chance of needing more than k attempts is (1-a)^k.", "quantifier": "all finite laws of draws, priors, simulators, distances, thresholds, events and numbers of attempts", "why_tests_cant": "A test sees a handful of samples of one seed; the law of the output is a statement about all runs with their probabilities.", "anchors": ["abcpy/inferences.py:566-603", "abcpy/inferences.py:667-707"]}
{"id": "C75", "title": "A step of MCMCMetropoliHastings leaves the posterior invariant", "statement": "On any finite set of positions of the transformed space, with symmetric proposals (proposals outside the prior may occur) and any finite law of the simulations: after burn-in a step of the code moves to the proposal exactly when the uniform number is below min(1, ratio of posterior densities), with prior, estimated likelihood and Jacobian; a state that has the posterior law with the estimated likelihood has it again after any number of steps; the parameters then have the posterior law with the expected likelihood estimate.", "quantifier": "all finite sets of positions, priors, Jacobians, symmetric proposal laws, laws of simulated log likelihoods, test functions and numbers of steps", "why_tests_cant": "Invariance is an identity between laws over all states; a run of a chain cannot show it.", "anchors": ["abcpy/inferences.py:4347-4433"]}
{"id": "C76", "title": "Weighted samples of PMCABC stand for the ABC posterior", "statement": "After the first iteration a worker of PMCABC returns parameters with the law of: an index drawn with the weights, a perturbation by the kernel restricted to the prior and normalised there, conditioned on acceptance of the simulated data. Expectations with the computed weights are proportional to expectations over prior density times acceptance probability if the perturbations of all samples stay inside the prior with equal probability. (False in general: the weights use the kernels without the restriction, so with a bounded prior samples near the boundary are weighted wrongly, against the comment in the code.)", "quantifier": "all finite laws of draws, populations, weights, kernels, priors with finite support, simulators, distances, thresholds and test functions", "why_tests_cant": "The bias is a property of expectations; tests compare one seeded run with recorded numbers.", "anchors": ["abcpy/inferences.py:974-1033", "abcpy/inferences.py:1035-1067"]}
{"id": "C77", "title": "What a Markov move of SMCABC leaves invariant", "statement": "A move of SMCABC with the first MCMC kernel goes from parameters th with data y to the law of: a perturbation by the kernel restricted to the prior and normalised there, new data, accepted with probability min(1, ratio of hits times ratio of prior densities times ratio of kernel densities). It leaves invariant the law proportional to prior density times number of hits times the chance that a perturbation stays inside the prior, for symmetric and asymmetric kernels; if this chance is the same everywhere, it leaves the ABC posterior invariant. (False in general: with a bounded prior the ABC posterior is not invariant.)", "quantifier": "all finite laws of draws, priors with finite support, kernels, simulators, distances, thresholds, populations and test functions", "why_tests_cant": "Invariance is an identity between laws; a seeded run shows one path.", "anchors": ["abcpy/inferences.py:3734-3808", "abcpy/inferences.py:85-129"]}
{"id": "C78", "title": "What the r-hit moves of SMCABC leave invariant", "statement": "A move of SMCABC with either r-hit kernel tends in law, as draws become available, to: a proposal (first r-hit kernel: a perturbation restricted to the prior; second: such a perturbation together with close data), accepted with a probability a(th,th') that is positive for every reversible proposal and in detailed balance with prior density times probability of a hit; accepted data follow the law of close data of the new parameter. Both kernels leave invariant the law proportional to prior density times probability of a hit times the chance that a perturbation stays inside the prior; if this chance is the same everywhere, the ABC posterior. (False in general: with a bounded prior the ABC posterior is not invariant.)", "quantifier": "all finite laws of draws, priors with finite support, kernels, simulators with finitely many data sets, distances, thresholds, r >= 2, populations and bounded test functions", "why_tests_cant": "The number of trials until r hits is unbounded and the acceptance probability averages over two such waiting times; a seeded run shows one path.", "anchors": ["abcpy/inferences.py:3810-4044"]}
{"id": "C79", "title": "Samples from the prior follow the prior density", "statement": "If every node of the graph, given accepted inputs, follows its own density, then sample_from_prior returns with certainty in the limit of many draws whenever a pass has a positive chance Z not to be refused, and the parameters that get_parameters then reads are an accepted vector with probability pdf_of_prior / Z; parameters for which a node refuses its inputs have probability 0. If no node refuses inputs, Z = 1 and pdf_of_prior is the law of the samples. (False in general: with refused inputs pdf_of_prior is smaller than the probability by the factor Z.)", "quantifier": "all graphs without arithmetic nodes, of any shape, size and sharing, all finite laws of draws, all simulators with matching densities, all accepted parameter vectors in lowest terms, all numbers of retries", "why_tests_cant": "A test compares a few samples or a few densities; that two different graph walks (sampling and density) describe the same joint law for every graph, retries included, is a statement about all of them.", "anchors": ["abcpy/graphtools.py:9-67", "abcpy/graphtools.py:90-187", "abcpy/graphtools.py:252-293"]}
{"id": "C80", "title": "A posterior plot shows every parameter's own samples, weights, mean and range in its own panel", "statement": "plot_posterior_distr draws, for parameters with one number per sample, exactly the marginals and joint marginals of the displayed parameters: each panel gets the samples and weights of its own parameters, the weighted mean, the true values, and the given range or one that holds all samples with 5% on each side; single and double marginals only do the same in one row; the dictionary of ranges afterwards holds the given and the computed ranges; warnings are given exactly for drawn weighted samples and for ranges of parameters not displayed; unknown names and contradicting options are refused before anything changes. traceplot shows the samples of each parameter in order; plot_ESS the k-th estimate at k and the number of final weights. (False: for more than 257 parameters, names given twice, parameters with several coordinates, ranges as arrays of length two, and for a second plot with the same dictionary of ranges.)", "quantifier": "all journals, iterations, numbers of samples and parameters, weights, options, ranges and true values", "why_tests_cant": "Plot tests check that a call does not raise; which data end up in which panel is not looked at, and there are as many index combinations as pairs of parameters.", "anchors": ["abcpy/output.py:471-855", "abcpy/output.py:857-884", "abcpy/output.py:962-1012"]}
{"id": "C81", "title": "A chain of ABCsubsim leaves the ABC posterior invariant", "statement": "Each of the chain_length - 1 moves of a chain of ABCsubsim proposes a perturbation inside the prior, simulates, and accepts it with the Metropolis-Hastings probability if the data are close: the law of the entries of a whole chain of k moves is the k-fold iteration of such moves, all proposed from the chain's first parameters. The first move leaves prior times probability of close data times the chance of perturbations inside the prior invariant, hence the ABC posterior if that chance is constant; so do all moves if perturbations do not depend on what is perturbed. (False for the second move: it is proposed from the first parameters, but accepted as if proposed from the current ones.)", "quantifier": "all numbers of moves, starting parameters, bounded functions of the chain, priors with finitely many values, positive perturbation kernels, data laws and annealing parameters", "why_tests_cant": "The law of a random chain is not visible in a run; estimating it would need many chains and a reference posterior, and the bias is a few per cent.", "anchors": ["abcpy/inferences.py:2361-2391", "abcpy/inferences.py:2417-2437"]}
{"id": "C82", "title": "Drivers get the same results from the Spark backend as from the sequential one", "statement": "A driver that uses a backend through parallelize, broadcast, map followed by collect, and changes its own lists and attributes in between, has the same lists in its variables on BackendSpark as on BackendDummy, for every number of slices, and fails on both or on none, provided that it maps over no data set, and its tasks read no broadcast data set, whose list it has changed since, and that tasks do not depend on what other tasks leave in self. The i-th collected element is the result for the i-th element. On Spark, self is only changed by the driver; collecting again gives the same list. RejectionABC's samples on Spark are those of its model. (False: for generators kept in self, as in the sliced Wasserstein and the logistic regression distances, where every slice of every map starts again; for attributes set between map and collect; for lists changed in place; GenerateFromJournal cannot be pickled for Spark.)", "quantifier": "all drivers (sequences of commands), lists, tasks, states, slicings", "why_tests_cant": "No test runs on Spark; whether a driver depends on aliasing or on the time of evaluation shows only for particular interleavings of commands.", "anchors": ["abcpy/backends/spark.py:4-138", "abcpy/backends/base.py:122-216", "abcpy/inferences.py:30-36", "abcpy/output.py:1121-1160", "abcpy/distances.py:308", "abcpy/distances.py:441"]}
{"id": "C83", "title": "Invariant law of the moves of SABC and law of its first population", "statement": "For finitely many parameters and data sets, independent draws and exact arithmetic: a member of SABC's first population follows prior probability times likelihood times exp(-distance/epsilon). A later worker picks a member at random, perturbs it until it is inside the prior and accepts with min(1, ratio of prior densities times ratio of the weights exp(-smoothed distance/epsilon)); m workers with independent generators all propose from the population at the start of the iteration, later replacements overwrite earlier ones. With symmetric kernels one worker leaves invariant prior density times likelihood times weight times the chance of perturbations inside the prior, hence the annealed posterior if that chance is constant. (False: for two or more workers, the default, since a member chosen twice is moved with a law that is not reversible; for priors with a boundary; for kernels that are not symmetric, whose density is ignored.)", "quantifier": "all finite laws of draws, priors, kernels, likelihoods, distances, populations, numbers of workers, functions of the population", "why_tests_cant": "The bias is a statement about limits of expectations; SABC tests check one seeded mean with a tolerance.", "anchors": ["abcpy/inferences.py:1934-2006", "abcpy/inferences.py:1640-1735", "abcpy/inferences.py:1861-1889"]}
{"id": "C84", "title": "Training routines show every sample once per epoch and follow the loss asked for", "statement": "contrastive_training, triplet_training and FP_nn_training, when they return, have run m epochs; in each the training loader has shown every sample exactly once in some order, in batches of batch_size (only the last may be smaller; with drop_last it is left out), and the validation loader every validation sample in order. What is shown for a sample is the sample with a different one and their entry of the similarity matrix; an anchor with a similar and a dissimilar sample (the anchor is the sample itself if that has a similar one); or the sample with its own parameters. Weights, training and validation losses are those of the chosen optimiser, with the learning rate asked for (1e-3 by default, constant without a scheduler), on the average loss of each batch. Validation samples and labels must come together; memory is pinned on the GPU exactly when the data are not there; a call changes only the dictionary loader_kwargs bound to it. (False: that a call with default arguments does not influence later ones; that the reported loss is the mean over the samples when the last batch is smaller; that batches can always be collated when positive_weight is given.)", "quantifier": "all samples, similarity matrices, parameters, networks, optimisers, schedulers, orders, random draws, argument values and dictionaries", "why_tests_cant": "The tests train on one small data set on the CPU and only check that no exception is raised; they never look at what is shown to the network or use the GPU.", "anchors": ["abcpy/NN_utilities/algorithms.py:18-230", "abcpy/NN_utilities/datasets.py:10-163", "abcpy/NN_utilities/trainer.py:7-133", "abcpy/statisticslearning.py:554-1004"]}
{"id": "C85", "title": "Drivers give the same results over MPI as on the sequential backend", "statement": "A driver that uses a backend safely (maps only parallelized data sets, reads only broadcast values it has made, collects what it has mapped), run on the MPI scheduler together with any number of leaders: there is no infinite execution and no deadlock, no process dies, and when no process can go on the driver has ended. If tasks do not depend on what other tasks leave in self, it has then the same lists in its variables as on the sequential backend, or an exception when that fails. Without that condition every item is computed from a copy of self as it was when map was called, in the order of the items, and the driver's self has been changed only by the driver. RejectionABC over MPI returns the samples of C16 in the order of the seeds. (False: agreement for objects holding a random generator, such as LogReg and SlicedWasserstein: over MPI all items of all maps get the same numbers; that GenerateFromJournal, which keeps its backend, can be sent to the processes.)", "quantifier": "all safe drivers, tasks, lists, objects, numbers of leaders and all schedules of scheduler and leaders", "why_tests_cant": "The tests run a few maps over MPI with one schedule each and compare lists of small integers; inference over MPI is never compared with the sequential backend, and schedules cannot be enumerated.", "anchors": ["abcpy/backends/mpi.py:60-443", "abcpy/backends/mpi.py:700-775", "abcpy/backends/base.py:125-230", "abcpy/distances.py:308", "abcpy/distances.py:441", "abcpy/output.py:1121-1160"]}
{"id": "C86", "title": "Averages over the journal approach posterior expectations", "statement": "RejectionABC with n samples whose workers have independent draws: as the number of draws available to each worker grows, the probability that a journal is returned tends to 1, and the probability that the journal's weighted average of any function f of the parameters is more than e away from the expectation of f under the ABC posterior tends to a limit of at most Var(f)/(n e^2). So more than 4 Var(f)/(d e^2) samples give an average within e with probability more than 1 - d. PMCABC: given the population before, the weighted average in the last recorded population is within e of an explicit limit, up to a probability of order 1/n; the limit is the expectation under the ABC posterior if all kernels have the same mass on the support of the prior. (False for PMCABC in general: with a bounded prior the average approaches another value, and the probability of being away from the posterior mean tends to 1 with the number of samples.)", "quantifier": "all finite discrete laws of the draws, models with one draw per attempt, distances, thresholds, functions f, tolerances e and d, numbers of samples", "why_tests_cant": "Convergence in probability is a statement about all seeds and growing numbers of samples; the tests compare one average with a stored number for one seed.", "anchors": ["abcpy/inferences.py:540-708", "abcpy/inferences.py:860-1080", "abcpy/output.py:390-440"]}
{"id": "C87", "title": "What the weighted samples of PMC stand for", "statement": "The last iteration of PMC, given the population before it, with independent draws: as the main generator gets more draws, the recorded samples and weights have the joint law of n independent pairs of a parameter from the mixture of kernels truncated to the support of the prior and a data set simulated from it, the weights being proportional to prior density squared times exp(loglikelihood of the data) over the density of the untruncated mixture. So the weighted average of any function f is within e of an explicit limit up to a probability of order 1/n. If all kernels have the same mass inside the prior, the limit is the expectation under prior squared times mean approximate likelihood; if the prior is also constant on its support, it is the posterior expectation. (False for other priors: the probability that the average is away from the posterior mean tends to 1 with the number of samples.)", "quantifier": "all finite discrete laws of the draws, populations, kernels, priors, likelihoods, functions f, tolerances and numbers of samples", "why_tests_cant": "The tests compare the mean of one run for one seed with a stored number; convergence towards a wrong posterior looks the same as towards the right one.", "anchors": ["abcpy/inferences.py:1264-1386", "abcpy/inferences.py:1390-1463", "abcpy/approx_lhd.py:45-80"]}
{"id": "C88", "title": "MCMCMetropoliHastings forgets its start and its averages converge", "statement": "Metropolis-Hastings with finitely many positions, symmetric perturbations, and independent draws. If every position can be reached from every other by proposals inside the prior and one can be proposed from itself, then from every start the expectation of any function of the parameters after n recorded steps of the code differs from its posterior expectation (prior times expected likelihood estimate, in the transformed space) by at most M (1-d)^(n/m); and for sample() from scratch, with any burn-in and any adaptation of the covariance matrices during it (as long as every matrix that occurs satisfies the condition), the average over the journal is farther than e from the posterior expectation with probability at most K M^2 / (n e^2), K not depending on the run. (False without the condition: in an example with a gap in the prior the average never comes near, with probability 1.)", "quantifier": "all finite sets of positions, priors, transformations, kernels, simulated likelihoods with finite discrete laws, functions, starting points, burn-ins, adaptation intervals, tolerances and run lengths", "why_tests_cant": "The tests compare the mean of one short run for one seed with a stored number; convergence from every start and a bound on the probability of being wrong cannot be observed in runs.", "anchors": ["abcpy/inferences.py:4260-4343", "abcpy/inferences.py:4347-4433", "abcpy/inferences.py:4509-4560"]}
{"id": "C89", "title": "How likely work items share a random seed", "statement": "For independent, equally likely draws the probability that k of m values are not all different is exactly 1 - (1-0/m)(1-1/m)...(1-(k-1)/m), between 1 - exp(-k(k-1)/(2m)) and k(k-1)/(2m). Hence n seeds from randint(1, n*n) (RejectionABC, ModelSelections, StatisticsLearning) collide with a probability between 1/4 and 1/2 for every n >= 2, and the journal RejectionABC returns then holds two identical rows: with probability above 1/4, for every model and threshold. Seeds from randint(0, 2^32-1) (all other schemes) collide with probability at most n(n-1)/(2(2^32-1)), above 1/2 from 100000 on. After the repair of DrawFromPrior the probability is at most 2n(n-1)(n-2)/(3m^2), below 1/25 up to a million.", "quantifier": "all numbers of samples, models, simulators, distances, thresholds and numbers of seed values", "why_tests_cant": "A collision makes two samples equal without any error; tests look at one seed and a few samples, and a probability cannot be observed in a run.", "anchors": ["abcpy/inferences.py:566-603", "abcpy/inferences.py:344-374", "abcpy/modelselections.py:148", "abcpy/modelselections.py:193", "abcpy/statisticslearning.py:120"]}
{"id": "C90", "title": "Averages over RejectionABC samples converge although workers can share a seed", "statement": "Let every seed of 1..n*n-1 stand for its own independent stream of draws, and let the n seeds of a RejectionABC run be drawn from them with repetition, as the code does. Then the average of any f over the returned journal is more than e away from its posterior expectation with a probability whose limit (as streams get longer) is at most Var(f)/(n e^2) (1 + 1/(n+1)), and a journal is returned with a probability tending to 1. For bounded f the mean square error tends to exactly Var(f)/n (1 + 1/(n+1)): sharing seeds costs the factor 1 + 1/(n+1) and nothing more.", "quantifier": "all models, thresholds and functions with finite discrete laws of draws, all numbers of samples the code accepts (2..46340)", "why_tests_cant": "Shared seeds leave no trace but equal rows; their effect on the error is an average over all seeds and streams.", "anchors": ["abcpy/inferences.py:566-603", "abcpy/inferences.py:667-707"]}
{"id": "C91", "title": "The population that APMCABC records stands for the prior, not the posterior", "statement": "In the first iteration all particles have weight 1 and averages over the recorded population approach expectations under the prior. In a later iteration the recorded population joins the retained particles (weights normalised to sum 1) with n - n_alpha new ones (weights prior / sum of w K, not normalised and whatever their distance). If no kernel loses more to the outside of the prior than another, the weighted average of any f over it approaches, as the number of new particles grows, the PRIOR expectation of f; in general it approaches the expectation under prior times truncated over untruncated mixture. The probability of being more than e away is at most of the order 1/(number of new particles). That the averages approach the ABC posterior expectation is refuted.", "quantifier": "all models, kernels, distances, retained populations and functions with finite discrete laws of draws, all numbers of new particles", "why_tests_cant": "The tests compare one weighted mean of one seeded run with a stored number; what the averages approach is a statement about the law of all runs.", "anchors": ["abcpy/inferences.py:3020-3064", "abcpy/inferences.py:3095-3149"]}
{"id": "C92", "title": "Replenishing in RSMCABC resamples the retained particles with distances of other parameters", "statement": "A worker of RSMCABC chooses a retained particle at random and, whatever the number of moves, returns its parameters unchanged; only the distance can change, to that of data simulated at an accepted proposal. So the parameters of a recorded population are the n - m retained ones and m chosen at random among them with repetition: its average keeps the retained average on average and its mean square deviation from it is m/n^2 times the variance among the retained. All parameter vectors of any later iteration are among n - round(n alpha) vectors of any earlier one, although n are recorded with equal weights 1/n. That the distances recorded are ones the recorded parameters can produce is refuted: a particle whose data always have distance 1 is recorded with distance 0 with a probability that tends to 1/4.", "quantifier": "all models, kernels, distances, retained populations, numbers of moves and functions with finite discrete laws of draws; all completed runs for the part on different vectors", "why_tests_cant": "The tests compare one mean of one seeded run with a stored number; that moves never move is invisible in one average, and the law of the recorded population is a statement about all runs.", "anchors": ["abcpy/inferences.py:2588-2722", "abcpy/inferences.py:2739-2798"]}
{"id": "C93", "title": "The reweighted population of SMCABC stands for the ABC posterior at the threshold it chose; after resampling it does not", "statement": "After the first iteration of SMCABC (particles from the prior), the next iteration chooses a new threshold by bisection from the same population and reweights it. For any function f of parameters and data, the weighted average of f approaches the mean of f under prior times closeness at the chosen threshold (share of distances that fall below it, or indicator of the distance in the Bernton version), although threshold and weights come from the same draws: the probability of being more than d away, or of having no usable weights, is at most C/n with C independent of n and of the rule's parameter alpha. If the population is resampled, the data are not resampled with the parameters; that the moves then keep the posterior is refuted: recorded mean 1/4 instead of 0.", "quantifier": "all models, distances and functions with finite discrete laws of draws, all population sizes, all values of alpha, both versions of the reweighting", "why_tests_cant": "The tests run SMCABC with 10 particles and compare one mean to a stored number; convergence under a data-dependent threshold is a statement about the law of all runs for every n.", "anchors": ["abcpy/inferences.py:3440-3503", "abcpy/inferences.py:3596-3721", "abcpy/inferences.py:3734-3808"]}
{"id": "C94", "title": "Without resampling, the population SMCABC records after its moves stands for the ABC posterior at the new threshold", "statement": "When an iteration of SMCABC with the default kernel does not resample, the workers' moves are independent of each other, and the weighted average of a bounded f over the recorded population is close to the weighted average of the mean of f after one move: the chance of being more than d away (or of an exception) is in the limit at most 4B^2/(resample d^2), because the code only skips resampling when the effective sample size is at least `resample`. For the second iteration, with a kernel that does not depend on the population and stays inside the prior equally often from everywhere, and first threshold above all distances, the recorded average approaches the mean under prior times closeness at the threshold the iteration chose: chance of being off without resampling at most C/n + 16B^2/(resample d^2).", "quantifier": "all models with finite discrete laws of draws, all bounded functions, all population sizes, thresholds and values of alpha and resample", "why_tests_cant": "Tests compare one mean of 10 particles for one seed to a stored number; the statement is about the law of the whole population, with a threshold and weights chosen from it.", "anchors": ["abcpy/inferences.py:3440-3575", "abcpy/inferences.py:3734-3808"]}
{"id": "C95", "title": "The workers of the inference schemes see the graph only through its parameter values", "statement": "For graphs without arithmetic nodes whose simulators' values pass their own check: whatever sequence of sample_from_prior, get_parameters, set_parameters, pdf_of_prior, simulate and random draws a worker makes, chosen depending on earlier answers, on a graph with any history it gets the answers (results, exceptions, state of the random generator) that it would get from a graph that is built anew with the current parameter values before every call. Hence the workers of RejectionABC, the iterations of PMCABC, every map over the workers of RSMCABC, APMCABC, SMCABC, SABC, ABCsubsim and PMC, and whole runs of MCMCMetropoliHastings, run on the graph, compute what their models compute on a parameter vector. With an arithmetic node, or a draw that its own node refuses, this is false: the graph's history shows.", "quantifier": "all graphs, all programs of graph calls, all histories, all random generators, kernels and distances", "why_tests_cant": "Marks, stored densities and values are left behind by every call and shared by all later ones; tests run a few fixed call sequences on three-node graphs.", "anchors": ["abcpy/graphtools.py:9-421", "abcpy/inferences.py:85-129", "abcpy/inferences.py:667-707", "abcpy/inferences.py:882-1067", "abcpy/inferences.py:1390-1463", "abcpy/inferences.py:1934-2006", "abcpy/inferences.py:2309-2443", "abcpy/inferences.py:2739-2797", "abcpy/inferences.py:3095-3149", "abcpy/inferences.py:3734-4044", "abcpy/inferences.py:4260-4459"]}
{"id": "C96", "title": "The results of a parallel map do not depend on which process executes a work item", "statement": "For the workers of all schemes: a work item gives the same result whichever process executes it, whenever, and whatever this process did before, on graph copies that were used before or never sampled; two maps over the same items give the same results or the same exception. Unconditional for generations sampled from the prior. For workers that perturb a population it holds if set_parameters meets every parameter before those whose checks depend on it, one of any hundred consecutive kernel draws is acceptable, and the threshold is below dist_max; if a child is met before its parent it is false: with the same seeds one process and two processes return different parameters.", "quantifier": "all graphs without arithmetic nodes, all distributions of items over processes, all histories of the graph copies, all kernels, generators, distances", "why_tests_cant": "Tests run each backend separately on three-node graphs and never compare a run across backends or distributions of work.", "anchors": ["abcpy/backends/base.py:161-179", "abcpy/backends/mpi.py:274-343", "abcpy/inferences.py:85-129", "abcpy/graphtools.py:295-346"]}
{"id": "C97", "title": "Declared maxima and signs of the distances, and what SABC accepts", "statement": "No distance estimate exceeds the maximum its object reports (dist_max), and the constructor of SABC accepts only distances whose estimates are never negative, refusing no class without need. The Del Moral version of SMCABC, which weights a parameter by the share of its single simulations that are close, accepts only distances that are means of the distances to single simulations; the Bernton version accepts all.", "quantifier": "all distance objects of the package, all data sets, all neighbour counts, kernels and numbers of projections", "why_tests_cant": "The declaration is about all data sets; estimates are negative only for some samples.", "anchors": ["abcpy/inferences.py:SABC.__init__", "abcpy/distances.py:_estimate_always_positive", "abcpy/distances.py:dist_max"]}
{"id": "C98", "title": "The Student t kernel reports the density of the perturbation it draws", "statement": "MultivariateStudentTKernel.update draws the current values plus a centred normal vector divided by the root of a chi-square number over its degrees of freedom, and pdf returns the density of that distribution: the normal density for a fixed chi-square number averaged over the chi-square distribution.  The density is symmetric in its two points, also in a joint kernel with random walks.  Refuted: with infinitely many degrees of freedom the draw works but the density is not a number; a singular matrix raises an error.", "quantifier": "forall numbers of degrees of freedom > 0, dimensions, positive definite matrices, rows of numbers or arrays, points", "why_tests_cant": "A test compares the density with a reference at a few points; that it is the density of the sampler for every dimension, matrix and point is a statement about an integral.", "anchors": ["abcpy/perturbationkernel.py:409-524", "abcpy/perturbationkernel.py:205-237", "abcpy/perturbationkernel.py:604-628"]}
{"id": "C99", "title": "The plot of the losses shows the losses of the epochs that were run", "statement": "After a training of a network (by fit or by score matching) that has ended, with or without validation set, early stopping or a later first epoch, plot_losses draws for each admissible choice one point per epoch run, for training and validation losses alike; it warns exactly if validation losses are asked for and there are none, and never fails on the lengths of the lists. Refuted: that the abscissa is the training epoch. If training starts at a later epoch the points are still drawn at 1, 2, ....", "quantifier": "forall networks, optimisers, losses, loaders (also failing ones), numbers of epochs, stopping rules, choices of losses", "why_tests_cant": "The lengths of the two lists depend on when the training stops; a test sees a few runs and no figure.", "anchors": ["abcpy/statisticslearning.py:224-263", "abcpy/NN_utilities/trainer.py:7-60", "abcpy/statisticslearning.py:1540-1751"]}
{"id": "C100", "title": "Only chunks of one item are mapped correctly by the MPI backend", "statement": "With the default chunk_size of 1, a map that all leaders have left and the collect after it give the function of every item, in the order of the list. Refuted for larger chunk sizes: orchestrate_map sends the growing chunk in every turn of the loop that fills it, so that, if chunk_size divides the number of items, item k (from 0) occurs k mod chunk_size + 1 times in the collected list, and a list of n items gives n (chunk_size + 1) / 2 results; if chunk_size does not divide the number of items, no leader ever leaves the map. In every case an execution has at most 4 n + 3 N steps (N leaders), and where no process can go on, all leaders have left the map or the scheduler has failed.", "quantifier": "forall items and functions, chunk sizes, numbers of leaders, interleavings of requests, answers and evaluations", "why_tests_cant": "The tests run with the default chunk size and one interleaving; BackendMPI has no argument for the chunk size.", "anchors": ["abcpy/backends/mpi.py:BackendMPIScheduler.orchestrate_map", "abcpy/backends/mpi.py:BackendMPILeader.map", "abcpy/backends/mpi.py:BackendMPIScheduler.collect"]}
