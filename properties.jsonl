{"id": "C01", "title": "Metropolis acceptance selects whole chains with the right probability", "statement": "For every chain of the batch, the accept/reject step returns exactly the proposed sample or exactly the current sample of that chain, never a mixture. With real log-acceptance a and noise u in [0,1) it accepts iff u < exp(a) - 1e-24, so the acceptance probability differs from min(1,exp(a)) by at most 1e-24; a NaN log-acceptance always rejects; the accept flag handed back agrees with the sample chosen.", "quantifier": "all batches, all sample contents, all log-acceptance values including -inf/+inf/NaN, all noise values", "why_tests_cant": "acceptance is a measure statement about all real noise values and special floating values; sampling can only hit a few", "anchors": ["discs/common/math_util.py: mh_step"]}
{"id": "C02", "title": "Balancing functions satisfy g(t) = t g(1/t)", "statement": "Each of the four supported balancing weight functions (ratio, max, min, sqrt) satisfies the balancing identity g(t) = t*g(1/t) for all positive t, is positive, and the log-scale version equals log(g(exp(s))) for every real s; every other selector raises an error.", "quantifier": "all positive ratios / all real log-ratios, all weight-function selectors", "why_tests_cant": "an identity over the reals cannot be enumerated", "anchors": ["discs/samplers/locallybalanced.py: LocallyBalancedSampler.apply_weight_function, apply_weight_function_logscale"]}
{"id": "C03", "title": "Gibbs step leaves the target invariant", "statement": "For every model energy, every dimension, every number of categories and every current coordinate index, one Gibbs step is reversible with respect to (hence leaves invariant) the distribution proportional to exp(energy); it changes at most the current coordinate and keeps all values in range.", "quantifier": "all energies on all finite product spaces, all coordinate indices, all test functions", "why_tests_cant": "invariance is an equality of laws over every target and state; a statistical test sees one model and has noise", "anchors": ["discs/samplers/gibbs.py: GibbsSampler.step"]}
{"id": "C04", "title": "Systematic scan covers every coordinate; counters are exact", "statement": "Starting from the initial sampler state, any window of d consecutive Gibbs steps updates each of the d coordinates exactly once; a block sampler with block b covers every coordinate within the first ceil(d/b) steps and within every window of d/gcd(d,b) steps; the likelihood-call counter after n steps equals n*C (Gibbs), n*C^b (block Gibbs).", "quantifier": "all dimensions, block sizes, category counts and numbers of steps", "why_tests_cant": "holds for every history length and every (d,b) pair, including b not dividing d", "anchors": ["discs/samplers/gibbs.py: update_sampler_state", "discs/samplers/blockgibbs.py: update_sampler_state"]}
{"id": "C05", "title": "Block Gibbs step leaves the target invariant, also for a truncated last block", "statement": "For every energy, dimension, category count, block size and block start (including blocks that stick out past the last coordinate), one block-Gibbs step is reversible with respect to exp(energy), changes only coordinates of the block and keeps values in range.", "quantifier": "all energies, d, C, b, start index, test functions", "why_tests_cant": "needs equality of laws for every energy and all truncations", "anchors": ["discs/samplers/blockgibbs.py: BlockGibbsSampler.step"]}
{"id": "C06", "title": "Hamming-ball step leaves the target invariant", "statement": "One Hamming-ball step leaves the distribution proportional to exp(energy) invariant for every energy, dimension, block size and category count.", "quantifier": "all energies, d, C, block sizes", "why_tests_cant": "a failure is a small bias of the stationary law, invisible to unit tests that only check shapes", "anchors": ["discs/samplers/hammingball.py: HammingBallSampler.__init__, compute_u, step"]}
{"id": "C07", "title": "Random-walk step leaves the target invariant", "statement": "For every energy, dimension d, category count C>=2 and radius r in [1,d], one random-walk Metropolis step is reversible with respect to exp(energy); its proposal is symmetric and stays in range.", "quantifier": "all energies, d, C, radii, test functions", "why_tests_cant": "equality of laws for all targets", "anchors": ["discs/samplers/randomwalk.py: RandomWalkSampler.step, sample_from_proposal"]}
{"id": "C08", "title": "Gibbs-with-gradients (binary) leaves the target invariant", "statement": "For every energy, every gradient-like score (including a wrong approximation), every balancing function and every number of flips k>=1, one binary Gibbs-with-gradients step (fixed or adaptive radius, at a fixed radius value) is reversible with respect to exp(energy).", "quantifier": "all energies, all score functions, all d, all k, all masks, test functions", "why_tests_cant": "equality of laws for all targets and scores; k draws with replacement may collide", "anchors": ["discs/samplers/gwg.py: GibbsWithGradSampler.step, BinaryGWGSampler, AdaptiveGWGSampler"]}
{"id": "C09", "title": "Gibbs-with-gradients (categorical) is correct per chain in any batch", "statement": "In a batch of B independent chains, the categorical Gibbs-with-gradients step of a chain depends only on that chain's own sample and draws, and is reversible with respect to exp(energy).", "quantifier": "all batch sizes B, all energies, all samples of the other chains", "why_tests_cant": "a dependence between chains needs two batches that agree on one chain; tests compare shapes only", "anchors": ["discs/samplers/gwg.py: CategoricalGWGSampler.get_ll_onestep, get_dist_at, sample_from_proposal"]}
{"id": "C10", "title": "Path-auxiliary fast sampler leaves the target invariant", "statement": "For every energy, every score function and every number k<=d of sites, one path-auxiliary step (k sites drawn without replacement, reverse path evaluated in reverse order) is reversible with respect to exp(energy), for the binary and the categorical variant.", "quantifier": "all energies, scores, d, C, k, test functions", "why_tests_cant": "path space is exponential in k", "anchors": ["discs/samplers/path_auxiliary.py: PathAuxiliarySampler.step, PAFSNoReplacement.proposal, ll_y2x"]}
{"id": "C11", "title": "Discrete MALA leaves the target invariant at fixed step size", "statement": "For every energy, score function and step-size parameter, one DMALA step without adaptation (binary or categorical) is reversible with respect to exp(energy) up to the 1e-32 guard inside the logarithms, whose effect on the acceptance ratio is bounded explicitly.", "quantifier": "all energies, scores, step sizes, d, C, test functions", "why_tests_cant": "equality of laws over all targets; factorised proposals have 2^d outcomes", "anchors": ["discs/samplers/dmala.py: DMALASampler.step, BinaryDMALA, CategoricalDMALA"]}
{"id": "C12", "title": "DLMC leaves the target invariant at fixed simulation time", "statement": "For every energy, score, balancing function, simulation time and both ODE solvers, one DLMC step without adaptation is reversible with respect to exp(energy) (binary up to the 1e-32 guard); proposal probabilities are genuine probabilities in (0,1).", "quantifier": "all energies, scores, taus, solvers, d, C, test functions", "why_tests_cant": "equality of laws over all targets", "anchors": ["discs/samplers/dlmc.py: DLMCSampler.step, BinaryDLMC.get_dist_at, CategoricalDLMC.get_dist_at"]}
{"id": "C13", "title": "Locally-balanced sampler leaves the target invariant", "statement": "One step of the plain locally balanced sampler leaves the distribution proportional to exp(energy) invariant.", "quantifier": "all energies with exact neighbour log-ratios, all d, all balancing functions", "why_tests_cant": "a bias of the stationary law", "anchors": ["discs/samplers/locallybalanced.py: LocallyBalancedSampler.step, select_sample"]}
{"id": "C14", "title": "Adaptive radius stays in its legal range", "statement": "For every history of acceptance rates, the adaptive radius of the random walk, of adaptive Gibbs-with-gradients and of the adaptive path-auxiliary sampler stays within [1, dimension], and the integer number of flips/sites derived from it stays within the bounds required by the proposal.", "quantifier": "all histories of acceptance rates, all target rates, all dimensions", "why_tests_cant": "holds over every history; tests run a few steps", "anchors": ["discs/samplers/randomwalk.py: AdaptiveRWSampler.select_sample", "discs/samplers/gwg.py: AdaptiveGWGSampler", "discs/samplers/path_auxiliary.py: PAFSNoReplacement.select_sample, proposal"]}
{"id": "C15", "title": "Adaptive step-size state stays a real number", "statement": "For every history of acceptance rates and normalisers, the adapted log step size of DMALA and DLMC stays a finite real number, so later proposals stay well defined.", "quantifier": "all adaptation histories, all target acceptance rates", "why_tests_cant": "NaN appears only for particular histories and then persists for the rest of the run", "anchors": ["discs/samplers/dmala.py: update_sampler_state", "discs/samplers/dlmc.py: update_sampler_state"]}
{"id": "C16", "title": "Sampling without replacement: probabilities returned are the true path probabilities", "statement": "For every log-probability vector and every ordering of distinct sites, the log-probability returned by the no-replacement renormalisation equals the log-probability of drawing exactly that ordered sequence sequentially without replacement; these probabilities sum to one over all ordered k-subsets.", "quantifier": "all probability vectors, all k, all orderings", "why_tests_cant": "an identity over all real vectors and all permutations", "anchors": ["discs/common/math_util.py: noreplacement_sampling_renormalize, log1mexp, multinomial"]}
{"id": "C17", "title": "Multinomial counts add up", "statement": "For every logits vector, every number of draws and every outcome of the random draws, the with-replacement count vector is non-negative, sums exactly to the requested number, and the returned log-likelihood is the sum of the log-probabilities of the draws; the constant-count and the traced-count code paths agree.", "quantifier": "all draw sequences, all counts, all batch rows", "why_tests_cant": "all outcomes of the generator", "anchors": ["discs/common/math_util.py: multinomial"]}
{"id": "C18", "title": "Without-replacement selection picks exactly k distinct sites", "statement": "When perturbed scores are pairwise distinct, the without-replacement mask selects exactly k sites, namely those with the k largest perturbed scores; with ties it selects at least k.", "quantifier": "all score vectors, all k <= n", "why_tests_cant": "all real vectors including ties", "anchors": ["discs/common/math_util.py: multinomial"]}
{"id": "C19", "title": "Ising energy is the lattice energy with each edge counted once", "statement": "For every rectangular lattice and every spin configuration the energy equals external field plus coupling times the sum over nearest-neighbour edges (open boundary), each edge exactly once, whichever of the two input encodings (float/bool 0-1) is used.", "quantifier": "all lattice sizes, parameters and configurations", "why_tests_cant": "all sizes and configurations; shape-dependent indexing", "anchors": ["discs/models/ising.py: Ising.forward"]}
{"id": "C20", "title": "Potts energy agrees with the lattice definition", "statement": "For every lattice and category count the Potts energy equals the sum of the selected local fields plus the coupling times the agreement of neighbouring sites, each edge once, and integer and one-hot inputs give the same value.", "quantifier": "all lattices, categories, configurations", "why_tests_cant": "all sizes and configurations", "anchors": ["discs/models/potts.py: Potts.forward"]}
{"id": "C21", "title": "Gradient-based flip scores are exact for multilinear models", "statement": "For Bernoulli, Ising, max-independent-set and max-cut models, the change of energy obtained from the gradient, (1-2x_i) * dE/dx_i, equals the true energy change E(flip_i x) - E(x) for every binary x and every i.", "quantifier": "all binary states, all coordinates, all parameters, all graphs without self loops", "why_tests_cant": "exponentially many states", "anchors": ["discs/models/bernoulli.py: logratio", "discs/models/ising.py: forward", "discs/models/mis.py: logratio", "discs/models/maxcut.py: logratio"]}
{"id": "C22", "title": "Max-clique gradient score equals the true flip score", "statement": "For max-clique, the gradient-based score equals the true change of energy for every binary state and coordinate.", "quantifier": "all binary states, coordinates, graphs and penalty coefficients", "why_tests_cant": "a systematic half-penalty bias looks plausible on examples", "anchors": ["discs/models/maxclique.py: penalty, objective", "discs/samplers/locallybalanced.py"]}
{"id": "C23", "title": "Maximum independent set: energy optimum is the independence number", "statement": "For every graph and penalty coefficient >= 1: independent sets evaluate to their size, no 0/1 vector evaluates to more than the size of a largest independent set, and from any vector one can extract an independent set at least as large as its evaluation.", "quantifier": "all graphs, all 0/1 vectors, all coefficients >= 1", "why_tests_cant": "exponentially many vectors for every graph", "anchors": ["discs/models/mis.py: objective, penalty", "discs/models/comb_ebm.py: evaluate"]}
{"id": "C24", "title": "Max clique: energy optimum is the clique number", "statement": "For every simple graph and penalty coefficient >= 1: cliques evaluate to their size, no 0/1 vector evaluates to more than the clique number, and any vector contains a clique at least as large as its evaluation.", "quantifier": "all graphs, all 0/1 vectors, all coefficients >= 1", "why_tests_cant": "exponentially many vectors for every graph", "anchors": ["discs/models/maxclique.py: objective, penalty", "discs/models/comb_ebm.py: evaluate"]}
{"id": "C25", "title": "Max-cut energy is the cut weight", "statement": "For every weighted graph and every 0/1 vector, the reported value equals the total weight of edges between the two sides; it is invariant under complementing the vector; padding edges and nodes contribute nothing; the per-node flip scores are the exact changes of the cut weight.", "quantifier": "all weighted graphs, all 0/1 vectors, all paddings", "why_tests_cant": "exponentially many vectors", "anchors": ["discs/models/maxcut.py: objective, logratio"]}
{"id": "C26", "title": "Evaluation is independent of temperature", "statement": "For every combinatorial model, sample and every nonzero temperature, evaluate returns the temperature-free value objective - coefficient*penalty, although the sampled energy is divided by the temperature.", "quantifier": "all nonzero temperatures, all models, all samples", "why_tests_cant": "all reals", "anchors": ["discs/models/comb_ebm.py: forward, evaluate"]}
{"id": "C27", "title": "Normalised cut: cut sizes and flip scores", "statement": "For every graph, partition and cluster, the computed cut size of a cluster is the number of edge endpoints leaving it, the cut sizes sum to twice the number of cut edges, and the per-(node, cluster) score equals the true change of the energy for graphs without padding.", "quantifier": "all graphs, partitions, clusters", "why_tests_cant": "exponentially many partitions", "anchors": ["discs/models/normcut.py: get_cut_sizes, objective, logratio"]}
{"id": "C28", "title": "MIS flip scores are exact on padded graphs", "statement": "For max independent set, the per-node scores used by samplers equal the true energy changes for every graph including batched (padded) graphs.", "quantifier": "all graphs and paddings", "why_tests_cant": "padding only appears when batching graphs of different sizes", "anchors": ["discs/models/mis.py: logratio", "discs/graph_loader/mis_loader.py: graph2edges"]}
{"id": "C29", "title": "Graph padding preserves the problem", "statement": "Converting a graph to fixed-size padded edge arrays keeps the edge multiset: real edges first, padding masked, both directions present when requested, and objective/penalty computed on the padded arrays equal those of the graph.", "quantifier": "all graphs within the maximum sizes", "why_tests_cant": "all graphs and sizes", "anchors": ["discs/common/utils.py: graph2edges", "discs/graph_loader/mis_loader.py", "discs/graph_loader/maxcut_loader.py", "discs/graph_loader/maxclique_loader.py"]}
{"id": "C30", "title": "Graph iterator delivers every graph exactly once", "statement": "Iterating over a graph set in batches over any number of devices/processes yields every graph index exactly once, in order, padding only the final partial batch with the dummy graph and marking the dummies by the sample-mask.", "quantifier": "all dataset sizes, batch sizes, device counts", "why_tests_cant": "all combinations of sizes", "anchors": ["discs/graph_loader/common.py: GraphGenerator.get_iterator"]}
{"id": "C31", "title": "Best-so-far bookkeeping in combinatorial optimisation is exact", "statement": "After any number of steps with any sequence of samples and evaluations, the recorded best ratio of each instance and chain is the maximum over the recorded evaluations, it never decreases, and the recorded best sample is one that attained it.", "quantifier": "all evaluation histories, all batch sizes", "why_tests_cant": "all histories", "anchors": ["discs/experiment/sampling.py: CO_Experiment._compute_chain"]}
{"id": "C32", "title": "A combinatorial experiment keeps the results of every batch", "statement": "After a combinatorial-optimisation run over a dataset with several batches, the saved results cover every problem instance.", "quantifier": "all datasets and batch sizes", "why_tests_cant": "needs a dataset larger than one batch", "anchors": ["discs/experiment/sampling.py: CO_Experiment._get_chains_and_evaluations", "discs/common/experiment_saver.py: save_co_resuts, _dump_dict"]}
{"id": "C33", "title": "Chain length and step accounting", "statement": "A sampling experiment performs exactly the configured number of sampler steps, split into burn-in and mixing phases without overlap or gap, and keeps exactly the post-burn-in samples for the effective-sample-size estimate.", "quantifier": "all chain lengths, ratios", "why_tests_cant": "all lengths", "anchors": ["discs/experiment/sampling.py: Sampling_Experiment._compute_chain"]}
{"id": "C34", "title": "Per-step metrics are per mixing step", "statement": "The saved per-Metropolis-step efficiency divides the ESS by the number of mixing steps for every ratio between burn-in and mixing.", "quantifier": "all ratios", "why_tests_cant": "wrong only for non-default ratio", "anchors": ["discs/common/experiment_saver.py: _save_ess_results", "discs/experiment/sampling.py: _compute_chain"]}
{"id": "C35", "title": "Annealing temperatures", "statement": "Every temperature schedule starts at the configured initial temperature, is monotone towards the final one, never leaves the interval between them, and stays positive when both are positive.", "quantifier": "all schedules, all steps, all parameters", "why_tests_cant": "all reals and steps", "anchors": ["discs/experiment/sampling.py: CO_Experiment._build_temperature_schedule"]}
{"id": "C36", "title": "Annealed importance weights are unbiased", "statement": "For every sequence of intermediate temperatures and every sampler whose step leaves the current intermediate target invariant, the expected importance weight after the run equals Z_target / Z_initial; with zero steps of change the log-weight telescopes.", "quantifier": "all finite state spaces, all energies, all schedules, all invariant kernels", "why_tests_cant": "an expectation over all histories", "anchors": ["discs/experiment/sampling.py: EBM_Experiment._compute_chain", "discs/models/resnet.py: forward"]}
{"id": "C37", "title": "Bernoulli and categorical models: normalisation and moments", "statement": "For the Bernoulli model the distribution proportional to exp(energy) has independent coordinates with success probability sigmoid(theta_i), so the reported expected value and variance are the true ones; the categorical model gives site-wise softmax; one-hot and integer inputs agree.", "quantifier": "all parameters, all dimensions", "why_tests_cant": "sums over exponentially many states", "anchors": ["discs/models/bernoulli.py: get_expected_val, get_var, forward", "discs/models/categorical.py: forward"]}
{"id": "C38", "title": "RBM marginal energy and block sampling", "statement": "The RBM free energy of a visible vector is the log of the sum over all hidden vectors of exp(-joint energy); alternately sampling hidden given visible and visible given hidden leaves the visible marginal invariant.", "quantifier": "all weights, all sizes, all visible vectors", "why_tests_cant": "sum over 2^h hidden states", "anchors": ["discs/models/rbm.py: NNBinary.__call__, step_h, step_v", "discs/samplers/blockgibbs.py: RBMBlockGibbsSampler"]}
{"id": "C39", "title": "Binary factorial HMM energy is the joint log-density", "statement": "For every chain length and parameters the binary FHMM energy equals the log prior of the hidden chains plus the Gaussian log-likelihood of the observations (up to a constant), and the prior sums to one over all hidden paths.", "quantifier": "all lengths, chain counts, parameters", "why_tests_cant": "sums over exponentially many paths", "anchors": ["discs/models/fhmm.py: BinaryFHMM.forward, log_probab_of_px"]}
{"id": "C40", "title": "Categorical factorial HMM transition rows are distributions", "statement": "For the categorical FHMM, the transition probabilities used in the energy form a probability distribution over next states for every current state and every category count.", "quantifier": "all category counts and parameters", "why_tests_cant": "fails silently as a modelling error", "anchors": ["discs/models/fhmm.py: CategFHMM.make_init_params, log_probab_of_px_categ"]}
{"id": "C41", "title": "SAT to independent set reduction is exact", "statement": "For every 3-CNF formula, the generated graph has an independent set of size equal to the number of clauses iff the formula is satisfiable.", "quantifier": "all 3-CNF formulas", "why_tests_cant": "all formulas and assignments", "anchors": ["discs/graph_loader/mis_loader.py: SatLibGraphGen.cnf2graph"]}
{"id": "C42", "title": "Connected-graph generation yields connected graphs of legal size", "statement": "Whenever the connected-graph generator returns a graph it is connected, has consecutively numbered nodes and at least the minimum size.", "quantifier": "all random graphs produced by the generator", "why_tests_cant": "all random outcomes", "anchors": ["discs/graph_loader/common.py: gen_connected"]}
{"id": "C43", "title": "Replay buffer keeps a bounded set of genuine samples", "statement": "For every sequence of updates and sample requests, the replay buffer never exceeds its capacity, each stored item was inserted by an earlier update or was in the initial content, and a sampled batch consists of stored items, except for the rows the configured re-initialisation re-draws from the initial distribution.", "quantifier": "all operation histories", "why_tests_cant": "all histories", "anchors": ["discs/learning/replay_buffer.py: ReplayBuffer"]}
{"id": "C44", "title": "Device sharding round-trips", "statement": "Splitting a batch over local devices and processes and putting the shards back gives the same rows in the same order; sizes that do not divide are rejected.", "quantifier": "all batch sizes, device counts", "why_tests_cant": "all sizes", "anchors": ["discs/common/utils.py: shard_to_local_devices, get_per_process_batch_size, tree_stack"]}
{"id": "C45", "title": "Random keys are never reused", "statement": "The key generator hands out pairwise distinct (seed, counter) derivations for any number of requests.", "quantifier": "all request sequences", "why_tests_cant": "all lengths", "anchors": ["discs/common/utils.py: RngGen"]}
{"id": "C46", "title": "Exponential moving average stays between its inputs", "statement": "For every history of parameter values and decay in [0,1], each averaged parameter is a convex combination of the values seen, and the first step copies the parameters.", "quantifier": "all histories and decays", "why_tests_cant": "all reals and histories", "anchors": ["discs/common/utils.py: apply_ema", "discs/learning/train.py: global_update_fn"]}
{"id": "C47", "title": "Graph config strings parse deterministically", "statement": "For every configuration key-value string list of the documented shape, parsing yields exactly the encoded pairs with values kept verbatim as strings (also values holding '-'), so encoding then parsing is the identity, and for a repeated key the last entry counts.", "quantifier": "all well-formed strings", "why_tests_cant": "all strings", "anchors": ["discs/common/utils.py: parse_cfg_str"]}
{"id": "C48", "title": "Parameter sweeps enumerate the cartesian product", "statement": "The hyper-parameter sweep generated from value lists contains every combination of listed values exactly once, for every non-empty set of swept keys with duplicate-free value lists.", "quantifier": "all lists of value lists", "why_tests_cant": "all sizes", "anchors": ["discs/xm_launcher.py: get_sweeps"]}
{"id": "C49", "title": "Plot clusters partition the experiments", "statement": "Clustering experiments by a key puts each experiment that has the key in exactly one cluster, and two such experiments share a cluster iff they agree on every setting other than that key (results and name aside).", "quantifier": "all experiment lists", "why_tests_cant": "all lists and key sets", "anchors": ["discs/plot_results/plot_utils.py: get_clusters_key_based"]}
{"id": "C50", "title": "Language-model n-gram uniqueness scores are fractions", "statement": "For every corpus, the reference and self n-gram uniqueness scores lie in [0,1] for every size, are 0 or 1 exactly when no or every predicted n-gram is new (or single), and predictions without any n-gram of some requested size are the only inputs that fail.", "quantifier": "all corpora, all n", "why_tests_cant": "all inputs", "anchors": ["discs/evaluators/lm_eval.py: get_ngram_counts, ref_unique, self_unique"]}
{"id": "C51", "title": "Normalised-cut evaluation is consistent", "statement": "For every graph and assignment the evaluator's cut ratio is in [0,1], the cut count is twice the number of cut edges, volumes sum to twice the number of edges, and the balance score is at most 1 with equality iff perfectly balanced.", "quantifier": "all graphs, all assignments", "why_tests_cant": "all inputs", "anchors": ["discs/common/normcut_evaluator.py: num_cut, calc_volume, evaluate"]}
{"id": "C52", "title": "Infilling data set masks and keeps positions", "statement": "In the text-infilling data, every non-masked position is unchanged, masked positions are exactly those recorded, and decoding merges sampled tokens back at those positions only.", "quantifier": "all sentences, masks, samples", "why_tests_cant": "all inputs", "anchors": ["discs/common/utils.py: create_infill_dataset", "discs/models/text_infilling.py: decode, get_init_samples"]}
{"id": "C53", "title": "Hop distance counts changed coordinates", "statement": "The reported per-step hop distance equals the average (over chains) number of coordinates whose category changed, independent of encoding, is zero iff nothing changed and satisfies the triangle inequality.", "quantifier": "all pairs of batches", "why_tests_cant": "all inputs", "anchors": ["discs/experiment/sampling.py: Experiment._get_hop"]}
{"id": "C54", "title": "State step counters", "statement": "After n sampler steps the sampler state's step counter equals n for every sampler.", "quantifier": "all samplers, all n", "why_tests_cant": "all histories", "anchors": ["discs/samplers/abstractsampler.py: update_sampler_state", "discs/samplers/*.py: select_sample"]}
{"id": "C55", "title": "Image tiling places each image once", "statement": "Tiling a list of images into a grid puts pixel (r,c) of image k at the grid cell of k and leaves remaining cells at background, for every number of images and image size.", "quantifier": "all numbers and sizes of images", "why_tests_cant": "all sizes", "anchors": ["discs/plot_results/plot.py: np_tile_imgs"]}
{"id": "C56", "title": "Learning-rate schedules", "statement": "Warm-up starts at zero (or the configured start), reaches the base rate at the end of warm-up, and the schedule is bounded by the base rate for every step.", "quantifier": "all steps and parameters", "why_tests_cant": "all steps", "anchors": ["discs/learning/train.py: build_lr_schedule"]}
{"id": "C57", "title": "Chains of a batch are independent", "statement": "Given the sampler state, the joint law of the new samples of a batch is the product of the single-chain laws, so a batch of B chains gives B independent runs.", "quantifier": "all samplers, energies, batches", "why_tests_cant": "dependence between chains biases variance estimates and effective sample sizes but no single output", "anchors": ["discs/samplers/hammingball.py: step", "discs/samplers/gwg.py: get_ll_onestep", "discs/samplers/dmala.py: step", "discs/samplers/dlmc.py: step"]}
{"id": "C58", "title": "Binomial and product helpers are exact", "statement": "comb(n, k) is the number of k-element subsets of n items for every k <= n, and prod(shape) is the number of cells of an array of that shape (1 for the empty shape).", "quantifier": "all n, k, all shapes", "why_tests_cant": "all sizes; hamming-ball logits and the scan length of every Gibbs sampler rest on them", "anchors": ["discs/common/math_util.py: comb, prod"]}
{"id": "C59", "title": "Factorial HMM energies come one per chain", "statement": "For every batch of B categorical factorial-HMM states, evaluating the model gives B energies, each the joint log density of that chain, whatever the numbers of chains and categories.", "quantifier": "all batches, lengths, numbers of hidden chains and of categories", "why_tests_cant": "the failure depends on a coincidence between two configuration numbers (hidden chains = categories)", "anchors": ["discs/models/fhmm.py: CategFHMM.forward"]}
{"id": "C60", "title": "Categorical RBM can be initialised without stored parameters", "statement": "make_init_params of a categorical RBM without stored parameters returns a parameter set for every visible size, hidden size and number of categories.", "quantifier": "all sizes", "why_tests_cant": "all size combinations", "anchors": ["discs/models/rbm.py: RBM.make_init_params, NNCategorical.__call__, RBM.forward"]}
{"id": "C61", "title": "Data loader gives each process its own share in equal device blocks", "statement": "For every dataset, number of processes and local devices, the evaluation/training loader gives process i the examples whose index is i modulo the process count, in order, cut into full batches that divide evenly over the devices; only a tail shorter than one batch is dropped.", "quantifier": "all datasets, process and device counts, batch sizes", "why_tests_cant": "needs several processes and devices", "anchors": ["discs/common/data_loader.py: prepare_dataloader"]}
{"id": "C62", "title": "Training loop bookkeeping", "statement": "For every total and starting step, training performs each step number once in order, writes checkpoints exactly at the configured multiples, and resuming from a checkpoint performs exactly the remaining steps.", "quantifier": "all step counts, frequencies and interruption points", "why_tests_cant": "all interruption points", "anchors": ["discs/learning/train.py: train_loop"]}
{"id": "C63", "title": "Logged learning rate is the rate used", "statement": "The learning rate logged for a training step is the one the optimiser applied in that step.", "quantifier": "all schedules and steps", "why_tests_cant": "holds for constant schedules, so the common configuration hides a shift", "anchors": ["discs/learning/train.py: train_loop, build_lr_schedule"]}
{"id": "C64", "title": "Data mean is a clipped probability", "statement": "The data mean of every non-empty image dataset lies in [0.01, 0.99] at each pixel, and equals the mean of pixel value / 255 wherever that mean is inside the interval.", "quantifier": "all datasets", "why_tests_cant": "all datasets, including pixels that never change", "anchors": ["discs/learning/train.py: get_data_mean"]}
{"id": "C65", "title": "Text-infilling energy masks the scored position", "statement": "The energy of a filled-in sentence is the sum over the infill positions of the log probability of the token given the rest of the sentence with that position shown as [MASK]; every term is the log of a proper conditional distribution that does not depend on the token itself, so the energy is at most 0.", "quantifier": "all vocabularies, networks, fillings", "why_tests_cant": "the network still gives plausible scores when the scored position is shown as something else than [MASK]", "anchors": ["discs/models/text_infilling.py: single_forward"]}
{"id": "C66", "title": "Infilling sentences are the first suitable ones and leave the reference", "statement": "The infilling data set holds the first num_of_sentences sentences of suitable length of each corpus, in order, and no infilled sentence stays in the reference file used for scoring.", "quantifier": "all corpora, length limits, numbers of masks and sentences", "why_tests_cant": "needs corpora with repeated or too few suitable lines", "anchors": ["discs/common/utils.py: create_infill_dataset"]}
{"id": "C67", "title": "Top-k sentences are the most likely ones, as decoded", "statement": "The sentences reported for a text-infilling task are exactly the decoded samples, and the top-k list holds k of them with the largest log likelihood, in increasing order of likelihood.", "quantifier": "all numbers of resamples, all k, all sentences and likelihoods", "why_tests_cant": "the tagging scheme is right for up to ten resamples only", "anchors": ["discs/experiment/sampling.py: Text_Infilling_Experiment._get_chains_and_evaluations"]}
{"id": "C68", "title": "No random key is used twice in text infilling", "statement": "Over all sentences, resamples and steps of a text-infilling run, no two sampler steps draw from the same random key.", "quantifier": "all numbers of sentences, resamples and steps", "why_tests_cant": "key reuse correlates chains without changing any single sample's law", "anchors": ["discs/experiment/sampling.py: Text_Infilling_Experiment.get_results, _get_chains_and_evaluations, _compute_chain, preprocess"]}
{"id": "C69", "title": "A finished text-infilling run saves its scores", "statement": "A text-infilling run that has sampled all sentences evaluates them and saves the scores, for every list of sentences and every reference directory.", "quantifier": "all runs", "why_tests_cant": "tests of the sampling part stop before the evaluation", "anchors": ["discs/experiment/sampling.py: Text_Infilling_Experiment.get_results, _compile_evaluator", "discs/evaluators/lm_eval.py: evaluate"]}
{"id": "C70", "title": "Informed proposals weigh moves by their change of probability", "statement": "For energies whose gradient gives the exact change (Bernoulli, Ising, MIS, max-cut, categorical, Potts), Gibbs-with-gradients and path-auxiliary samplers propose a move x -> y in proportion to g(pi(y)/pi(x)) with the configured balancing function g; discrete MALA flips with odds tau*g(ratio); DLMC with the stated closed forms; masked nodes get odds e^-1e9.", "quantifier": "all such energies, states, balancing functions, step sizes", "why_tests_cant": "the accept/reject step hides a wrong score (even a wrong sign): the chain stays correct and only gets slow", "anchors": ["discs/samplers/gwg.py: get_dist_at", "discs/samplers/path_auxiliary.py: get_local_dist", "discs/samplers/dmala.py: get_ratio, get_dist_at", "discs/samplers/dlmc.py: get_ratio, get_dist_at"]}
{"id": "C71", "title": "DLMC never rejects on product targets", "statement": "When the coordinates are independent under the target, every DLMC proposal (both solvers in the binary case, the interpolation solver in the categorical case) has acceptance ratio exactly 1, for every step size and balancing function.", "quantifier": "all product targets, states, proposals, step sizes, balancing functions", "why_tests_cant": "a small error in the transition probabilities only shows as an acceptance rate slightly below 1", "anchors": ["discs/samplers/dlmc.py: get_dist_at, get_ll_onestep, step"]}
{"id": "C72", "title": "Adaptive radius follows the acceptance rate", "statement": "One adaptation of the radius (random walk, Gibbs-with-gradients, path-auxiliary) adds the batch average of the acceptance probability min(1, exp(log ratio)) minus the target, limited to [1, dimension]: it grows when the average exceeds the target and shrinks when below.", "quantifier": "all batches of log ratios, radii, targets, dimensions", "why_tests_cant": "an adaptation in the wrong direction still keeps the radius in range and the chain correct", "anchors": ["discs/samplers/randomwalk.py: AdaptiveRWSampler.select_sample", "discs/samplers/gwg.py: AdaptiveGWGSampler.select_sample", "discs/samplers/path_auxiliary.py: select_sample"]}
{"id": "C73", "title": "Long runs converge to the target from every start", "statement": "Whatever the initial sample, the law of a chain after n sampler steps converges in total variation to the normalised exp(energy) as n grows, so a longer run always gives better samples and burn-in can be relied on.", "quantifier": "all energies, dimensions, numbers of categories, starts, test functions", "why_tests_cant": "invariance alone does not give it: a chain can keep the target invariant and still never reach half of the space or alternate for ever; no finite run shows a limit", "anchors": ["discs/samplers/gibbs.py: step", "discs/samplers/blockgibbs.py: step", "discs/samplers/randomwalk.py: step", "discs/samplers/gwg.py: step", "discs/samplers/dmala.py: step", "discs/samplers/dlmc.py: step", "discs/samplers/path_auxiliary.py: step", "discs/samplers/locallybalanced.py: step"]}
{"id": "C74", "title": "All samplers target the same distribution for a model", "statement": "For a given model and parameters, every sampler that converges has the same limit: switching the sampler changes speed, not the answer, so results of different samplers on one model can be compared.", "quantifier": "all lattices, couplings, fields, numbers of categories, starts, test functions", "why_tests_cant": "each sampler passes its own tests; the limits only differ in the long run and the samplers see different element types of the same sample", "anchors": ["discs/models/ising.py: forward, get_value_and_grad", "discs/models/potts.py: forward, get_value_and_grad", "discs/samplers/gibbs.py: step", "discs/samplers/blockgibbs.py: step", "discs/samplers/randomwalk.py: step", "discs/samplers/gwg.py: step", "discs/samplers/dmala.py: step", "discs/samplers/dlmc.py: step"]}
{"id": "C75", "title": "Adaptation during the run does not change what is sampled", "statement": "An adaptive random-walk run started in equilibrium stays in equilibrium after any number of steps, and an adaptive run converges to the target: tuning the radius from past acceptances only affects speed.", "quantifier": "all targets, dimensions, categories, batch sizes, acceptance targets, numbers of steps", "why_tests_cant": "every single step is correct for the radius it uses; the error comes from the dependence of the radius on the samples, is a few per cent, and no finite run separates it from slow mixing", "anchors": ["discs/samplers/randomwalk.py: AdaptiveRWSampler.select_sample, RandomWalkSampler.step, make_init_state", "discs/experiment/sampling.py: Sampling_Experiment._compute_chain"]}
{"id": "C76", "title": "Files given on the command line take effect", "statement": "The configuration of a run is the common defaults overlaid with the experiment, model and sampler files given: the model and sampler named are the ones run, explicit values win over defaults, graph models get the combinatorial experiment and evaluator, and a local run saves under the model's directory.", "quantifier": "all experiment, model and sampler files, graph types, keys", "why_tests_cant": "each file is right on its own; only some combinations of files are lost in the merge, and the run then fails elsewhere or silently uses another value", "anchors": ["discs/experiment/main_sampling.py: get_main_config, update_save_dir", "discs/common/configs.py: get_config", "discs/experiment/configs/co_experiment.py: get_co_default_config", "discs/models/configs/mis/satlib.py: get_model_config"]}
{"id": "C77", "title": "Result tables identify the sampler variant", "statement": "The sampler label written to the results file tells variants apart: two runs with equal labels used the same sampler, adaptivity, solver and balancing function.", "quantifier": "all sampler configurations", "why_tests_cant": "each label looks right; the clash needs two configurations to be compared", "anchors": ["discs/common/experiment_saver.py: _save_ess_results"]}
{"id": "C78", "title": "Estimation errors are unbiased and well defined", "statement": "The Bernoulli evaluator's sample mean and variance are unbiased for independent samples, the expected mean error is p(1-p)/n averaged over coordinates, the errors are non-negative and vanish exactly at the true moments, the result is a number for every non-empty set of samples, and the mixing plot covers each full window once.", "quantifier": "all parameters, numbers of samples and chains, laws of the samples, window sizes and strides", "why_tests_cant": "bias is an average over infinitely many runs and the failing sizes (one chain) give NaN without an error", "anchors": ["discs/evaluators/bernoulli_eval.py: _get_ubbiased_sample_variance, _compute_error, _compute_error_across_chain_and_batch, plot_mixing_time_graph_over_chain"]}
{"id": "C79", "title": "Checkpoint conversion transfers the whole network", "statement": "When the conversion of a torch checkpoint succeeds, every parameter of the result is the corresponding torch parameter (no random initial value is left) and each converted layer computes what the torch layer computes.", "quantifier": "all checkpoints, layer sizes, strides, images", "why_tests_cant": "a single overwritten or transposed parameter gives a network that runs and looks plausible", "anchors": ["discs/learning/binary_ebm/pt2params.py: main", "discs/models/resnet.py: BasicBlock, ResnetBinary"]}
{"id": "C80", "title": "Saved chains are distinct and saved at the configured steps", "statement": "A sampling run of any batch size records, at every multiple of save_every_steps, the states of a fixed set of distinct chains, as many as configured.", "quantifier": "all batch sizes, chain lengths, save intervals, random choices of chains", "why_tests_cant": "the default batch is large; the small batches and the misspelt key are never exercised", "anchors": ["discs/experiment/sampling.py: Experiment.__init__, Sampling_Experiment._compute_chain"]}
{"id": "C81", "title": "A long enough optimisation run reports the optimum", "statement": "For every objective, every temperature schedule bounded away from zero, every logging interval and every start, the probability that the saved best ratio equals optimum/reference tends to one as chain_length grows, more chains help exponentially, and the saved ratio is never above it.", "quantifier": "all objectives, schedules, samplers, logging intervals, batches, run lengths", "why_tests_cant": "the probability of a miss in a finite run is positive, so no run can show the limit; a run that can never succeed looks like an unlucky one", "anchors": ["discs/experiment/sampling.py: CO_Experiment._compute_chain, _build_temperature_schedule, _initialize_chain_vars", "discs/models/comb_ebm.py: CombEBM.forward, evaluate", "discs/samplers/gibbs.py: GibbsSampler.step", "discs/samplers/path_auxiliary.py: PAFSNoReplacement", "discs/samplers/gwg.py: BinaryGWGSampler"]}
{"id": "C82", "title": "Training follows the likelihood gradient", "statement": "The gradient computed by a training step (value_and_grad of the contrastive loss, averaged over shards) is, in expectation, the gradient of the negative log-likelihood of the data: exactly when the persistent chains have the model law, and up to any error when pcd_steps is large, from any stored chains.", "quantifier": "all models, parameters and directions, data laws, batch sizes, numbers of shards, sampler kernels, stored chains", "why_tests_cant": "bias is an average over infinitely many runs and the true gradient needs the intractable partition function", "anchors": ["discs/learning/train.py: Trainer.global_update_fn", "discs/learning/rbm/main_rbm_training.py: RBMTrainer.build_loss_func, batch_processing", "discs/learning/binary_ebm/main_binary_training.py: EBMTrainer.build_loss_func, batch_processing", "discs/models/rbm.py: RBM.forward", "discs/samplers/blockgibbs.py: RBMBlockGibbsSampler.step"]}
{"id": "C83", "title": "Training images are what the models assume", "statement": "For every data set name the loader separates the source images into training, validation and test images that are disjoint and complete, keeps the pixels of each image together, and gives binary pixels where the model has two categories, so that the training objective is that of binary images.", "quantifier": "all file contents, shuffles, binarisation draws, numbers of validation images, image sizes", "why_tests_cant": "the files are large and external, gray levels pass through the network without an error, and an empty training set only arises for one argument", "anchors": ["discs/learning/raw_torch_dataset.py: load_raw_dataset, load_static_mnist, load_dynamic_mnist, load_omniglot, load_caltech101silhouettes, load_freyfaces", "discs/learning/train.py: load_numpyds", "discs/learning/rbm/main_rbm_training.py: data_preprocess", "discs/learning/binary_ebm/main_binary_training.py: main"]}
{"id": "C84", "title": "Penalised partitioning prefers balanced partitions and its scores agree with it", "statement": "With a positive penalty the objective of the graph partitioning model is the number of cut edges plus a penalty that vanishes exactly for part sizes within the tolerance, its best partitions are balanced whenever balanced partitions exist, and the neighbourhood scores are differences of that objective; without a penalty an empty part is never best; the initial samples use every part.", "quantifier": "all graphs, numbers of parts, penalties, tolerances, partitions", "why_tests_cant": "whether the best of exponentially many partitions is balanced depends on the size of the penalty against the number of edges, and the scores are only compared with the objective if someone does it for a configuration with a penalty", "anchors": ["discs/models/normcut.py: NormCut.objective, NormCut.get_init_samples, NormCut.logratio_in_neighborhood", "discs/models/configs/normcut_config.py"]}
{"id": "C85", "title": "The lattice models start with the described field and coupling", "statement": "The initial parameters of the Ising and Potts models couple each pair of neighbours of a cyclic lattice with strength lambdaa and give every site an external field of strength mu, of one sign inside a central disc covering half the lattice and of the other sign outside, up to noise of size init_sigma.", "quantifier": "all lattice sizes, lambdaa, mu, init_sigma, uniform draws, configurations", "why_tests_cant": "the field is random, its effect is only visible in the distribution over all configurations, and a parameter without any effect raises no error", "anchors": ["discs/models/ising.py: Ising.make_init_params, Ising.forward", "discs/models/potts.py: Potts.make_init_params, Potts.forward"]}
{"id": "C86", "title": "Padding an instance to the common size does not change what is sampled for its real nodes", "statement": "Combinatorial instances are padded to a common number of nodes and edges and sampled together; for every sampler the law of the real nodes of the padded chain is the law of the chain run on the unpadded instance, whatever values the padding entries hold.", "quantifier": "all graphs, paddings, states including the padding entries, statistics of the real nodes, numbers of steps, sampler settings", "why_tests_cant": "the claim equates two distributions over exponentially many configurations of different sizes; only two samplers use the mask, and a sampler that quietly moves less because of padded entries still returns legal samples", "anchors": ["discs/graph_loader/mis_loader.py, discs/graph_loader/maxclique_loader.py: params['mask']", "discs/experiment/sampling.py: CO_Experiment (x_mask)", "discs/samplers/gwg.py: get_dist_at", "discs/samplers/path_auxiliary.py: get_local_dist", "discs/samplers/randomwalk.py: sample_from_proposal", "discs/samplers/dmala.py: reset_stats"]}
{"id": "C87", "title": "Langevin samplers with co_opt_prob leave the targets of a batch invariant", "statement": "With co_opt_prob (set by every combinatorial experiment) DMALA and DLMC recompute the step size from the current batch before the proposal and from the proposed batch before the acceptance test; the chains of a batch keep their product target and move independently.", "quantifier": "all batches, states, sampler states, configurations, rates, balancing functions and both DLMC solvers", "why_tests_cant": "the step size couples all chains of a batch through one average; each chain alone looks right in any test with batch size one, and the error of the joint law is invisible in samples of a few thousand steps", "anchors": ["discs/samplers/dmala.py: BinaryDMALASampler.step, update_sampler_state", "discs/samplers/dlmc.py: BinaryDLMCSampler.step", "discs/experiment/configs/co_experiment.py: co_opt_prob", "discs/experiment/sampling.py: CO_Experiment"]}
{"id": "C88", "title": "Chains never leave the sample space and no step of a configured sampler raises", "statement": "For every sampler configuration and model, the initial samples lie in the sample space (evenly spread where the model draws them at random), every step of every chain of the batch stays there, no step raises or loses probability, and the sampler state after n steps has exactly the documented step counter, number of model calls, scan position, radius within [1, number of sites] and a step size that is a number or NaN.", "quantifier": "all models, numbers of sites and categories, batches, numbers of steps, configurations that build a usable sampler", "why_tests_cant": "tests run one sampler for a few steps on one model; which class is built depends on the configuration and the number of categories, and legality has to hold along all random choices of arbitrarily long runs", "anchors": ["discs/samplers: build_sampler, make_init_state, step, update_sampler_state of all samplers", "discs/samplers/configs", "discs/models: get_init_samples", "discs/experiment/sampling.py: 245, 270, 435, 453, 560, 609, 762"]}
{"id": "C89", "title": "In any reachable state one step keeps the joint target of all chains of a batch", "statement": "For Gibbs, block Gibbs, random walk, binary GWG, binary or adaptive categorical path auxiliary and the Langevin samplers without co_opt_prob after their first step, one call of step in any state a run can reach leaves the product of the targets of the chains invariant, whatever the adapted radius or step size is; without adaptation the whole run does (exact arithmetic, guards 0).", "quantifier": "all models, batches, reachable sampler states, adapted radii and step sizes, numbers of steps", "why_tests_cant": "the joint law of a batch lives on all combinations of states of all chains; no finite sample distinguishes a small coupling between chains from noise", "anchors": ["discs/samplers: step of gibbs, blockgibbs, randomwalk, gwg, path_auxiliary, dmala, dlmc", "discs/samplers/abstractsampler.py", "discs/common/math_util.py: mh_step"]}
{"id": "C90", "title": "A graph data set reports sizes that fit all its instances and delivers each once with its own reference value", "statement": "For every folder of instance files, the loader reads exactly the matching files, each once, in an order that does not depend on how the file system lists them. When the sizes are not all configured, every delivered graph fits into the reported numbers of nodes and edges, these are attained, and the reported number of instances is the number delivered. Benchmark instances are delivered unchanged with the counts of their header. Each setting selects a loader of its own problem.", "quantifier": "all folders, listings, file contents, configured sizes and setting names", "why_tests_cant": "the data sets are not in the repository, so no test reads one; the property is about all folders and all listing orders, and a listing order that happens to be sorted hides a missing sort", "anchors": ["discs/graph_loader/graph_gen.py: get_graphs", "discs/graph_loader/maxcut_loader.py", "discs/graph_loader/mis_loader.py", "discs/graph_loader/maxclique_loader.py", "discs/graph_loader/normcut_loader.py", "discs/models/configs/maxcut/ba.py", "discs/experiment/sampling.py: 487-500"]}
{"id": "C91", "title": "The infilling network scores the sentence in which the chosen tokens stand at the chosen positions", "statement": "For every sentence, choice of distinct infill positions and tokens, the customised network given the tokens as one-hot rows computes the same logits as the plain network given the completed sentence, and what stood at those positions before has no influence. Attention averages over the positions with weights that sum to one, and whatever the sentence, no logit leaves bounds that depend on the prediction head alone, so that every token keeps a probability bounded away from zero and the score of n words lies between -nK and 0.", "quantifier": "all network sizes, numbers of layers, weights, activations, sentences, positions, tokens and one-hot rows", "why_tests_cant": "tests load one pretrained network and compare a few sentences up to rounding; equality for every weight and sentence and a bound over all sentences are statements about an infinite set of inputs", "anchors": ["discs/common/customized_huggingface_flax_bert.py: 145-837", "discs/models/text_infilling.py: single_forward, get_init_samples"]}
{"id": "C92", "title": "The constants inside the acceptance rule do not bias long runs", "statement": "The 1e-24 added inside the logarithm of the acceptance draw and the 1e-32 added inside the logarithms of the binary Langevin samplers move every bounded statistic of a run of n steps with B chains by at most about n * B * 3e-24 of its bound, for every sampler object and model, so that a run started from the target is still distributed as the target to that precision; and the states a run can reach are those of the exact rule.", "quantifier": "all usable sampler objects, models of any size, batch sizes, numbers of steps, legal initial batches and bounded observables of samples and sampler state", "why_tests_cant": "the difference is far below what any finite sample can resolve and accumulates over the run; a bound uniform in model, batch and observable is a statement about all executions", "anchors": ["discs/common/math_util.py: bernoulli_logp, mh_step", "discs/samplers/dmala.py: 130-139", "discs/samplers/dlmc.py: 135-143"]}
{"id": "C93", "title": "The reported effective sample size is a sane measure of mixing", "statement": "For every run with at least one mixing step the reported mean effective sample size lies between one half and the number of mixing steps, does not depend on unit, offset or time direction of the mapped values, and is exactly one with zero spread when no chain moves; a chain that moves is not reported as frozen; the efficiency per step never exceeds one effective sample per step, and the efficiency per likelihood call is the one per step divided by the calls of a step.", "quantifier": "all series of mapped values, all transitions, initial batches, numbers of chains and steps, and all burn-in ratios", "why_tests_cant": "the estimator truncates a random sum at its first negative term; tests look at particular chains and cannot show bounds or invariance for all series", "anchors": ["discs/evaluators/ess_eval.py: 11-43", "discs/experiment/sampling.py: 286-305, 341-346"]}
{"id": "C94", "title": "The image network computes the energy of the checkpoint it was converted from, for every image", "statement": "For every image size, number of features and set of parameters of the right shapes the residual network of the image models returns an energy (the two branches of every block have equal sizes, odd or even); a checkpoint of the torch network that converts without error gives the same energy for every image; the energy is bounded by a number computed from the parameters and differentiable in every pixel, so every binary image has positive probability and no pixel is frozen, with or without the data mean.", "quantifier": "all parameter dictionaries, image sizes, feature counts and images; all torch checkpoints with the names of the network", "why_tests_cant": "a wrong transposition, stride or padding only shows in the numbers of a full network with trained weights, and the sandboxed tests have neither weights nor the torch code", "anchors": ["discs/models/resnet.py: 14-160", "discs/learning/binary_ebm/pt2params.py: 34-75", "discs/learning/binary_ebm/main_binary_training.py: 96"]}
{"id": "C95", "title": "A sweep file runs exactly the programs it describes", "statement": "The jobs of a sweep file are exactly the combinations of its values, each saves in a folder of its own, and its command line gives every key the swept value, else the launcher's, else the file's; a program that starts got only known keys with values of their types, and its configuration holds every value asked for, tuples included, with the remaining ones from the files; every job of every sweep file of the repository starts the model, sampler, experiment and evaluator it names on the GPUs requested, with a sampler that can step.", "quantifier": "all sweep files, launcher flags, command lines, configuration files and graph modules; for the shipped files all jobs, whatever Python prints for values, wherever results go and whatever sizes the checkpoints store", "why_tests_cant": "the launcher needs the cluster; no test opens the sweep files or runs main_sampling on a command line, and a swept key that is dropped or overridden later leaves a run that looks normal", "anchors": ["discs/xm_launcher.py: 47-51, 54-187", "discs/experiment/main_sampling.py: 13-17, 27-53, 56-88", "discs/experiment/run_sampling_local.sh: 4-32", "discs/models/deep_ebm.py: 13-43", "discs/models/rbm.py: 206-212"]}
{"id": "C96", "title": "A job of a classical sweep samples the model it configures", "statement": "The program that a job of a sweep over a classical model (Bernoulli, categorical, Ising, Potts, factorial hidden Markov) starts evaluates, up to a constant factor, the density described by the job's shape, number of categories, coupling, field, standard deviation, start and persistence probabilities; chains started with the model's initial samples stay within its states, and the sampler object the job builds keeps the described density up to the guards inside the logarithms.", "quantifier": "all well-formed model sections, random parameters, sampler objects and samples; for the shipped sweeps all jobs, whatever Python prints for values, wherever results go", "why_tests_cant": "a test runs one model with one sampler on tiny shapes and checks shapes or moments; whether the coupling or persistence that a sweep sets is the one of the chain that runs is only visible by comparing laws over a state space that cannot be enumerated", "anchors": ["discs/experiment/sampling.py: 26-46, 48-104, 120-140", "discs/models/bernoulli.py: 16-37", "discs/models/categorical.py: 18-45", "discs/models/ising.py: 18-67", "discs/models/potts.py: 27-57", "discs/models/fhmm.py: 38-89, 113-187", "discs/experiment/main_sampling.py: 56-88"]}
{"id": "C97", "title": "Saved BLEU scores measure the infilled sentences against the files they name", "statement": "The scores saved by the language-model evaluator are the BLEU-4 scores of the white-space separated words of the infilled sentences against the reference file named by the entry, against both, and of each sentence against the others: brevity penalty of the closest reference length times the geometric mean of the clipped n-gram precisions, between 0 and 1, 1 exactly for sentences of at least four words all of whose n-grams are found without penalty, independent of the order of sentences and references; evaluation fails only for empty inputs or too short sentences.", "quantifier": "all lists of generated sentences and reference lines, all words", "why_tests_cant": "a test compares a score on a couple of sentences; invariance under order and repetition, which sentences score one, when nothing is saved, and that capitals or three-word sentences spoil the score are statements about all texts", "anchors": ["discs/evaluators/lm_eval.py: 13-55, 87-119"]}
{"id": "C98", "title": "All random draws of a run are made with different keys", "statement": "The draws of a run - model parameters, initial samples, the point of the ESS map, the choice of saved chains, every proposal and acceptance of every step on every device or instance - use pairwise different random keys and are therefore jointly independent, for every model, sampler, number of devices, instances and steps, and with either way JAX derives keys; no key is both drawn with and used to derive further keys; and runs started with different seeds, jobs of a sweep and groups of graphs use different keys.", "quantifier": "all models, samplers, devices, instances, batch sizes, step counts, seeds, both key derivations", "why_tests_cant": "a repeated key makes two draws equal or correlated without any error, and only for particular combinations of sampler, model, device count and library version; tests run one combination with one seed", "anchors": ["discs/experiment/sampling.py: 26-46, 166-196, 228-300, 555-625, 683-775; discs/samplers/*.py: step; discs/common/math_util.py: 76-120; discs/models/fhmm.py: 37-58, 113-145; discs/models/normcut.py: 33-43"]}
{"id": "C99", "title": "A job of a graph sweep reports, for every graph, how well the problem was solved", "statement": "A run over a set of graphs ends with a results file that lists for every graph the best value any chain showed at a looked-at step, relative to the reference, with its history and the best sample: for independent sets and cliques a number at least as large as every feasible sample, backed by a feasible set and never above the optimum; for cuts the largest cut. This holds for any number of chains, graphs, groups, devices and steps, for every job of every shipped graph sweep, and the saved best sample solves the problem.", "quantifier": "all settings, graphs, references, samples, device counts, group sizes; all jobs of the shipped graph sweeps", "why_tests_cant": "needs data sets, several devices and long chains; tests run single models on one device, and a file overwritten for every group or an exception on eight devices does not show on one", "anchors": ["discs/experiment/sampling.py: 17-104, 478-680; discs/common/experiment_saver.py: 121-129; discs/graph_loader/common.py: 105-138; discs/models/{mis,maxclique,maxcut,comb_ebm}.py; discs/models/configs/*; discs/run_configs/co/**"]}
{"id": "C100", "title": "The log partition values an annealing run of an image model saves estimate its partition function", "statement": "A run of the image-model experiment saves one number per step. Every number lies within the energies' range, the exponential of the n-th of L numbers has as mean the partition function at temperature n/L up to what the code's small constants contribute, the number itself is on average at most its logarithm, exceeds it by much only rarely, and its exponential converges to the partition function as the number of chains grows; the law of the list does not depend on the number of devices the chains share; and the shipped sweep over samplers reports such values.", "quantifier": "all bounded energies, data means, image sizes, gradients, step counts, chain and device counts, sampler objects; all jobs of the shipped log-partition sweep", "why_tests_cant": "an estimator's mean and concentration are statements about all random draws of a run of ten thousand steps; one run gives one number, and a bias of the estimator looks like noise", "anchors": ["discs/experiment/sampling.py: 683-775; discs/models/resnet.py: 84-152; discs/samplers/*.py; discs/run_configs/ebm/binray_ebm/logz.py: 6-56; discs/common/experiment_saver.py"]}
{"id": "C101", "title": "The sentences a text-infilling run prints and evaluates", "statement": "For every entry of the data set a text-infilling run prints as many sentences as asked, each the entry with its blanks filled by tokens of the vocabulary and nothing else changed; every resample has the same law; long chains make the resamples of an entry jointly as close as desired to independent draws from the law of the network; with top-k the likeliest ones are kept in ascending order; each entry is sampled with draws of its own; the evaluation gets the decoded sentences; and the shipped sweeps start such runs.", "quantifier": "all networks, vocabularies, entries, sampler objects, chain lengths, numbers of resamples and kept sentences; all jobs of the two shipped language-model sweeps", "why_tests_cant": "the joint law of the resamples cannot be read off printed sentences, and the defects (shared start, reused key, lost character) show up as ordinary-looking text", "anchors": ["discs/experiment/sampling.py: 166-184, 349-475; discs/models/text_infilling.py: 31-143; discs/samplers/*.py; discs/run_configs/ebm/lm/*.py; discs/experiment/configs/lm_experiment.py"]}
{"id": "C102", "title": "The folder of a run tells the report the run's settings", "statement": "The report tool recovers the swept settings of a run from the name of the folder the launcher gave it: every plain setting under its short key with the value that was swept, the name of the graph settings, nothing else; for the shipped sweeps every setting of every job (of a list of numbers written as text the first); settings that differ are read differently; and the sampler is read as the sampler.", "quantifier": "all sweeps, printers of values, work-unit numbers and settings without separators; all jobs of the 44 shipped sweep files under every root folder and every extra argument", "why_tests_cant": "names of folders are built by one program and parsed by another; a mistake yields a plausible table with a wrong label, and the shipped sweeps have 1500 folders", "anchors": ["discs/plot_results/plot_utils.py: 71-94; discs/common/xm_launcher.py: 147-176; discs/run_configs/*.py"]}
{"id": "C103", "title": "The report shows each result under the sampler that produced it", "statement": "Every finished run that has the compared key appears in exactly one table, together with runs that agree on the other settings; a table has one row per sampler name, the row has exactly the results of the runs of that name in order, the name says sampler, solver, adaptation, step size and balancing function; rows are ordered by sampler family; different tables go to different files; csv files repeat the tables; compared by name, every run of every shipped sweep has its own row; and no run is left out.", "quantifier": "all directories without figures, all result files, keys and settings; all shipped sweeps", "why_tests_cant": "grouping and naming work on text; merging two runs into one cell or losing one leaves a well-formed table", "anchors": ["discs/plot_results/plot_results.py: 291-370, 380-459; discs/plot_results/plot_utils.py: 10-68, 97-119, 138-195"]}
{"id": "C104", "title": "Bars stand over the value of the swept key they were run with", "statement": "In the figure over the values of a swept key, the bar of a sampler over a value shows the result of the run of that sampler with that value: values are ordered by the key, ticks are the distinct values in order, and with one finished run per sampler and value every bar stands over its own value; missing runs leave a gap at their own place; different values have different ticks.", "quantifier": "all directories without figures, keys, result files and conversions of texts to whole numbers", "why_tests_cant": "bars are matched with ticks by position only; a shift by one place yields a figure that looks as expected", "anchors": ["discs/plot_results/plot_results.py: 40-122, 322-348, 380-459; discs/plot_results/plot_utils.py: 124-135"]}
{"id": "C105", "title": "The normalised-cut table scores every run by the partition it saved", "statement": "For a folder of normalised-cut runs the evaluator writes a table with a header and one row per run, in the order of the folder names: the name of the run's sampler read from the folder, the fraction of edges that the saved partition cuts and a balance score, both between 0 and 1, the first 0 exactly when nothing is cut, the second 1 exactly for groups of equal size; for the shipped sweeps over computation graphs every finished run has its own row with its own name; names agree with the other reports; unfinished runs do not hide the others; the scores are those of the graph the sampler saw; and different result folders are written to different files.", "quantifier": "all simple graphs, listings, partitions and saved results; all jobs of the five shipped sweeps over computation graphs, every root folder and extra argument", "why_tests_cant": "the evaluator is a separate program with its own copy of the naming code, a fixed number of groups and its own view of the graph; a wrong row looks like a result", "anchors": ["discs/common/normcut_evaluator.py: 22-211; discs/graph_loader/normcut_loader.py: 12-30; discs/common/utils.py: 143-181; discs/run_configs/co/normcut/*.py"]}
{"id": "C106", "title": "The report's efficiency bars are the effective sample sizes the runs measured", "statement": "For every finished run of an ESS experiment the report reads the mean and deviation that the run saved and shows the effective sample size divided by the likelihood evaluations a step makes on average, and the effective sample size per second of sampling, up to the error of printing a number; the same on one device as on several, for every length of the chain and every share of burn-in; and so for every job of the shipped sweeps.", "quantifier": "all runs, printed rows with any padding, settings, chain lengths, burn-in shares and numbers of evaluations; all jobs of the shipped sweeps that compute an ESS", "why_tests_cant": "the saver prints arrays, the report cuts the text at fixed places and multiplies by a length it takes from the folder name or assumes: a wrong number is still a number, and no test runs both programs", "anchors": ["discs/plot_results/plot_results.py: 372-377, 415-437; discs/common/experiment_saver.py: 80-95; discs/experiment/sampling.py: 20-24, 112-121, 294-305; discs/evaluators/ess_eval.py: 11-29; discs/common/configs.py: 10-35"]}
{"id": "C107", "title": "The optimisation table shows the mean, the spread and the time of a run", "statement": "For every finished combinatorial-optimisation run the report shows the mean and the standard deviation, over the instances in the saved file, of the best value seen relative to the reference, and the time the sampling took; the deviation is that of the best values although it is taken from the trajectory; so for every job of the shipped sweeps; and every finished run has a row.", "quantifier": "all objectives, data sets, devices, settings and sampled chains; all chain lengths, burn-in shares and times of steps; all jobs of the shipped sweeps over graphs", "why_tests_cant": "the time is doubled on the assumption that half of the steps were timed, and the deviation comes from another array than the mean: plausible numbers either way", "anchors": ["discs/plot_results/plot_results.py: 407-413; discs/common/experiment_saver.py: 121-129; discs/experiment/sampling.py: 548-657; discs/experiment/configs; discs/run_configs/co"]}
{"id": "C108", "title": "The temperature figure shows every run at its temperature", "statement": "In the figure of effective sample size against temperature every run of the two shipped temperature sweeps is one point: on the line of its sampler, at its own temperature, with its own results, whatever the results and the order of the directory; the numbers are those saved; runs that are not finished are left out.", "quantifier": "all results of the runs; all orders of the listing; all printed numbers; all titles and tables of clusters", "why_tests_cant": "208 runs are grouped, named and ordered by texts cut out of folder names; the first temperature is written into the tool, and one of the deviations is divided by ten: the curves look right in any case", "anchors": ["discs/plot_results/plot_ising_temp.py: 157-274, 348-387, 390-464; discs/run_configs/classical_models/ising"]}
{"id": "C109", "title": "The optimisation curves show the mean of the best values found so far", "statement": "For every finished run the curves over steps and over time have one point per logged step; it shows the mean over the instances in the file of the best value seen up to that step, with their standard deviation as band, and stands at that step; so for every job of the shipped sweeps over graphs.", "quantifier": "all objectives, data sets, devices, settings and sampled chains; all chain lengths and logging intervals; all jobs of the shipped sweeps over graphs", "why_tests_cant": "whether the time axis has the right number of points depends on the rounding of 1/(1/n) in doubles, which first fails for n = 49; a shifted or stretched axis of steps looks like any other curve", "anchors": ["discs/plot_results/plot_co_through_time.py: 31-88, 181-231; discs/experiment/sampling.py: 548-657; discs/experiment/configs; discs/run_configs/co"]}
