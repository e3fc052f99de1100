# Formal model of google-research/discs — design

Everything is a Rocq/Coq 8.16.1 development in `rocq/theories` (logical name `Verif`), using only
the Coq standard library.  The Python in `/repo` was read, never run.

## 1. Modelling conventions

* **Values.** Float arithmetic is modelled by the real numbers `R` (rounding is *not* modelled).  Where
  special values decide behaviour (NaN/infinite log-acceptance, NaN step size) a small type of extended floats
  `Fin r | PInf | NInf | NaN` with IEEE rules is used.  Integers are unbounded (`nat`/`Z`).
* **Arrays.** A batch is a list of chains; a sample of shape `s` is its row-major flattening, a list of
  length `prod s` (the code itself flattens with `reshape`, which keeps order).  Gather out of
  bounds clamps, scatter out of bounds drops (JAX semantics, `mode` not given).
* **Randomness.** Two levels.  (a) *Functional*: random draws are explicit arguments, and a function of the
  code becomes a function of its inputs and draws.  (b) *Law*: a randomised function is a finite weighted list
  of outcomes (`dist A := list (A * R)`) with `ret`/`bind`; `jax.random.categorical` draws index `i` with
  weight softmax(logits)_i, `bernoulli(p)`, `randint`, `choice` likewise; `uniform` is only used through the
  acceptance test, whose acceptance set is computed exactly at level (a).
  Gumbel-top-k (used for sampling without replacement) is given its known law
  (sequential sampling without replacement).
* **Models/energies.** In sampler theorems the energy `forward` is an arbitrary function, and so
  is the gradient (score) — hence the theorems hold for every model in the repo, and even for inexact gradients.
* **Exceptions** are values (`option`, or an error constructor).

Layout: `Base/` (sums, distributions, state spaces, no repo content), `Model/` (the code, function by function,
each definition citing file and lines), `Spec/` (independent statements of what is claimed), `Proof/`
(lemmas), `Thm/` (property theorems: `Theorem … exact …`, an `Example` showing a non-trivial case meets the
hypotheses, `Print Assumptions`).

## 2. Specification vocabulary for samplers

`S` a finite list of states without duplicates, `pi x = exp(forward x)`:
* `reversible S pi step := forall f g, sum_{x in S} pi x * f x * E[g(step x)] = sum_{x in S} pi x * g x * E[f(step x)]`
* `invariant S pi step := forall f, sum_{x in S} pi x * E[f(step x)] = sum_{x in S} pi x * f x`
`E` is the finite expectation.  Neither mentions any helper of the model.

## 3. Per property: what is modelled and how it is to be proved

| id | plan |
|---|---|
| C01 | `mh_step`, `bernoulli_logp` on extended floats, per chain; acceptance set as interval; probability = length. |
| C02 | the two weight functions with error value; real algebra by cases. |
| C03 | `GibbsSampler.step` as `dist`; reversibility: the conditional kernel on an orbit `{x + i at dim}`; reindexing of sums. |
| C04 | state machines `update_sampler_state`; modular arithmetic, gcd. |
| C05 | `BlockGibbsSampler.step` with scatter-drop; same orbit lemma with multiplicities. |
| C06 | `HammingBallSampler` as `dist`; refutation by an explicit 2-site energy; positive theorem when the radius law is uniform on the ball and for block size 1. |
| C07 | `RandomWalkSampler` as `dist`; generic Metropolis–Hastings lemma with auxiliary involution. |
| C08 | binary/adaptive GWG; auxiliary = list of drawn indices, involution = identity on indices. |
| C09 | categorical GWG on batches including the `[B,1]` x `[B]` broadcast; B=1 proved, B>=2 refuted. |
| C10 | PAFS binary and categorical; auxiliary = ordered distinct sites (+ new values), involution reverses the order. |
| C11 | DMALA with the guard constant as in the code; exact reversibility of the guard-free variant, explicit error bound with the guard; categorical has no guard. |
| C12 | DLMC likewise; bounds on `get_dist_at`. |
| C13 | LB sampler step for max-cut (the only model whose `logratio_in_neighborhood` has the arity the sampler unpacks); stationary law is pi*Z_g, refuted for pi. |
| C14 | radius updates, clip, rounding; induction on histories. |
| C15 | `update_sampler_state` of DMALA/DLMC on extended floats; refutation by a history; exact condition; consequence (frozen chain). |
| C16 | `log1mexp`, `noreplacement_sampling_renormalize`; sequential law; sum over ordered k-subsets by induction. |
| C17 | `multinomial` with replacement, both code paths, as functions of draws. |
| C18 | threshold mask; sorting. |
| C19, C20 | `Ising.forward`, `Potts.forward` on 2-d arrays; edge-sum specification. |
| C21, C22 | partial derivatives via `derivable_pt_lim`, multilinearity; half-penalty formula for max-clique (refuted). |
| C23, C24 | MIS/MaxClique energies over edge lists; extraction of independent set/clique by removal. |
| C25 | MaxCut energies; cut weight spec; flip scores. |
| C26 | `CombEBM.forward/evaluate`. |
| C27 | NormCut. |
| C28 | MIS logratio on padded arrays (refuted for node 0), exact deviation formula. |
| C29 | `graph2edges` functions. |
| C30 | `get_iterator` as list function. |
| C31 | CO chain bookkeeping fold. |
| C32 | result file model; refuted for >= 2 batches. |
| C33, C34 | loop bounds of `_compute_chain`, saver divisor. |
| C35 | schedules (optax formulas). |
| C36 | AIS fold as `dist`; induction on the schedule. |
| C37 | Bernoulli/Categorical: sums over the cube factorise. |
| C38 | RBM: sums over hidden cube; two-block Gibbs lemma. |
| C39, C40 | FHMM. |
| C41 | `cnf2graph`. |
| C42 | `gen_connected`. |
| C43 | `ReplayBuffer`. |
| C44–C49 | utilities as list functions. |
| C50 | n-gram counters. |
| C51 | normcut evaluator. |
| C52 | infilling data. |
| C53 | hop metric. |
| C54 | step counters (refuted for the random walk). |
| C55 | image tiling index arithmetic. |
| C56 | learning-rate schedules. |
| C57 | joint law of a batch step as a product of per-chain laws; refuted where one draw is shared. |
| C58 | `comb` and `prod` against subset and cell counting. |
| C59, C60 | shapes: number of energies of the categorical FHMM; broadcast in the categorical RBM's initialisation. |
| C61–C64 | data loader shares, training loop and checkpoints, logged rate, data mean. |
| C65–C69 | text infilling: energy, data set, top-k selection, keys, saving. |
| C70 | proposals of the informed samplers in terms of the change of log-probability of each move. |
| C71 | DLMC on product targets: balanced rates, acceptance one. |
| C72 | monotonicity of the radius updates in the acceptance rate. |
| C73 | minorisation of one sweep or step (Doeblin) gives geometric convergence; a sign-alternating or conserved parity refutes it. |
| C74 | C73 with the log-density each sampler family sees; a mixed second difference at one edge shows the two Ising targets are not proportional. |
| C75 | joint chain of samples and radius; explicit finite chain of radius levels, its stationary weights, reachability by computation, then the convergence theorem of C73; for the informed samplers the law of a run of up to three steps is computed exactly and carried over to the constants of the code with C92. |
| C76 | lookup in an updated dictionary; the source of each key by cases on the path taken. |
| C77 | the label as a function of four keys; finite check of all variants of the shipped samplers. |
| C78 | second moments of sums of independent draws by induction; columns of the sample array; windows as a filter of a range. |
| C79 | loop invariant of the conversion, one-to-one names, pigeonhole on the count check; exchange of finite sums for the layers. |
| C80 | saved steps as multiples; prefix of a permutation. |
| C81 | probability of missing the optimum factorises over chains; blocks of steps each hit the optimum with a probability bounded below; closed sets without optimum for the refutations. |
| C82 | derivative of log-sum-exp; marginals of a batch of independent chains; the convergence theorem applied to each chain; a two-state chain with eigenvalue 1/36 for the refutation. |
| C83 | list slices as firstn/skipn; index arithmetic of the F-order reshape; supports and means of products of Bernoulli pixels; softplus lies above its tangents. |
| C84 | counts by summing indicators; the two relu terms are the squared distance from an interval; integrality of volumes for the ratio objective; one-edge graph as witness. |
| C85 | disc membership as an inequality, 3 < PI <= 7/2; grid energies of C19/C20; products of Bernoulli laws; a constant added to every log-density cancels. |
| C86 | lumping: the first d entries of the padded kernel have the law of the unpadded kernel, lifted to runs; for masked proposals a coupling of sums split by whether a selection touches the padding; flat one-node instances as witnesses. |
| C87 | the batch step rewritten as a product kernel when the average rate is a function of one chain (or constant); the exact flow into one joint state for two one-bit chains as the witness. |
| C88 | one generic batch of proposals with accept/reject draws; each sampler supplies proposal law, move and log-acceptance; support and mass by induction over the steps, with the state described exactly after n steps. |
| C89 | the marginal of the generic batch step is the product of the one-chain kernels, whose reversibility is proved elsewhere; runs by induction, the next state being the same for all outcomes. |
| C90 | sorting by distinct names is unique up to permutation of the listing; the reported sizes are a running maximum over the same files that are delivered; inserting the edges of a graph built by insertion gives it back. |
| C91 | every layer depends only on the values of its input, and a one-hot row times the embedding table is the looked-up row; a normalised feature is at most the square root of the number of features, which bounds the prediction head. |
| C92 | coupling of two laws with the same outcomes whose acceptance probabilities differ by at most the constant; the errors of independent chains and of successive steps add up, the kernels being probability laws. |
| C93 | the deviations from the mean sum to zero, so the weighted autocorrelations over all lags sum to one half and some lag is negative; kept lags are non-negative, so the denominator is at least one; the upper bound 2N follows from each correlation being at most one. |
| C94 | sizes: (n+2-3)/s+1 = (n-1)/s+1 for the 3x3 branch and the 1x1 shortcut; the torch network is simulated layer by layer (entries by channel first against channel last), the entry of each name found through the one-to-one renaming of C79; the bound follows layer by layer from the sum of absolute weights, with abs(swish x) <= abs x. |
| C95 | command lines: one induction over the arguments with the five sections they can address; the typed merging erases to the untyped one of C76; folders: the decimal number of a work unit has no underscore; shipped files: one evaluation of all jobs with repr, root folder and checkpoint sizes left as variables. |
| C96 | weights: the lattice and factor lemmas of the model theorems rewritten on flat samples; shipped jobs: one evaluation of all jobs of the classical sweeps (well-formed section, sampler object that keeps the target), then the run and step theorems of C73/C89; refutations: two states that differ in one site. |
| C97 | the counters of nltk are rewritten as counts of positions (Spec/BleuSpec.v), the scores as closed expressions S4/S2 of the counts; order: corpora that are permutations with references equal as sets have equal counts; text: split and lower are characterised by their equations. |
| C98 | keys are derivation terms; the number of a key (Model/Keys.v, name) is its path, with two variants of JAX. Draws with distinct names are independent and conversely (memo table against product law); separated keys stay separated under derivation (suffixes of paths), siblings are separated; the runs are cut into subtrees. |
| C99 | arrays as flat lists; the row of an instance is its block whatever the layout on the devices; the bookkeeping lemmas of Experiment.v per row; the objective lemmas of CombOpt.v give honest numbers; shipped settings by computation. |
| C100 | annealed importance sampling by induction over the steps: a step that keeps the tempered target within eps changes the mean weight by a factor within the same eps; chains of fixed rules factorise over devices; Chebyshev and Markov for concentration; the two biases by computing a two-step (three-step) run in closed form. |
| C101 | one entry is a start law followed by m conditionally independent chains; total variation of m copies is at most m times that of one chain, which the convergence theorems of C73 bound; the shared start is separated from two runs by a network whose two positions want to agree, with a coupling constant that grows with the chain length. |
| C102 | splitting and finding in texts are inverse to joining when the pieces are free of the separator; the shipped sweeps are checked by evaluation in the kernel, one boolean test per folder with a soundness lemma. |
| C103 | an invariant of the loop over the runs of a cluster (each cell is the column of the runs seen so far); clusters partition the runs (C49); for the shipped sweeps, runs of equal name differ in a setting that all runs have, so no first member of a cluster can agree with both. |
| C104 | runs are loaded in the order of their ticks and clusters list them in that order; a sorted list of distinct ticks of full length is the list of ticks. |
| C105 | C102 for the second parser; the sum over the groups that occur equals the sum over all three; C51 for the scores; the names of the shipped sweeps are compared by evaluation in the kernel. |
| C106 | What is cut from the printed array is computed on texts with any padding; the factor is compared with the definition of ESS_EE; the settings of all shipped jobs are evaluated in the kernel beside the names of their folders. |
| C107 | The last row of the trajectory is compared with the best values step by step; C99 for whole jobs; the deviation is stated by moments; times are sums over the steps of the two loops. |
| C108 | The tool is generic in the results, so the shipped sweeps are computed once with results as unknowns and compared with the folders; the lines of arbitrary clusters by induction over temperatures. |
| C109 | C99 for whole jobs; all rows have the length of the best values; the number of points of numpy.arange is computed with SpecFloat doubles (53 bits), which needs no axioms. |

## 4. Trusted base

* The Coq kernel (8.16.1) and `coqchk`.
* The axioms of section 5: standard-library axioms of the classical reals and functional extensionality, no others.
* The reading of the Python code: that `Model/*.v` says what the cited lines do.  The details follow.

### 4.1 What is modelled

| Model file | code |
|---|---|
| MathUtil.v | common/math_util.py (all functions), acceptance step of samplers/abstractsampler.py users |
| LocallyBalanced.v, Gibbs.v, RandomWalk.v, GWG.v, PathAux.v, Langevin.v, HammingBall.v, AdaptiveRun.v | samplers/*.py: proposal, acceptance, state update, adaptation |
| Lattice.v, LatticeRun.v, Factorised.v, RBM.v, FHMM.v, CombOpt.v | models/ising, potts, bernoulli, categorical, rbm, fhmm, comb_ebm, mis, maxclique, maxcut, normcut |
| GraphIter.v, GraphGen.v | graph_loader/common.py, mis_loader.py (SAT), gen_connected, graph2edges of the loaders |
| Experiment.v | experiment/sampling.py loops, metrics, bookkeeping, temperatures, AIS; evaluators/ess_eval.py; what experiment_saver.py leaves on disk |
| Training.v, Utils.v | learning/train.py, learning/replay_buffer.py, common/utils.py, common/data_loader.py, key handling of binary_ebm/main_*_training.py |
| Tools.v | xm_launcher.py sweeps, plot_results (clusters, tiling), evaluators/lm_eval.py, common/normcut_evaluator.py |
| Infill.v | models/text_infilling.py, data set creation, Text_Infilling_Experiment |
| Config.v | experiment/main_sampling.py (merging of files, save directory), common/configs.py, sampler label of experiment_saver.py |
| Annealing.v | a whole run of CO_Experiment._compute_chain (experiment/sampling.py 555-656) with the Gibbs, random-walk, GWG and path-auxiliary steps at the scheduled temperature |
| Learning.v | contrastive loss and shard average of the two trainers (learning/rbm/main_rbm_training.py 56-86, learning/binary_ebm/main_binary_training.py 46-72, learning/train.py 125-130); gradients are derivatives along a line of parameters |
| Datasets.v | learning/raw_torch_dataset.py 15-216 after the files are read, learning/train.py 38-43, the RBM preprocessing (main_rbm_training.py 37-42) and rbm.py 42-53 on floats |
| BernEval.v, SavedChains.v | evaluators/bernoulli_eval.py, choice and recording of saved chains in experiment/sampling.py |
| Convert.v | learning/binary_ebm/pt2params.py (names, checks, transpositions) |
| FullRun.v | construction of the sampler objects (`build_sampler` of every samplers/*.py) and the joint step of samples and sampler state of a batch, with whole runs |
| Loaders.v | graph_loader/*.py: file lists, order of instances, maximal sizes, reference values, mis_loader/maxcut_loader/maxclique_loader/normcut_loader iterators |
| Bert.v | common/customized_huggingface_flax_bert.py as called by models/text_infilling.py: embedding, attention, normalisation, feed-forward, prediction head; weights arbitrary |
| EssEval.v | evaluators/ess_eval.py 11-43 with tfp.mcmc.effective_sample_size (documented defaults), report of experiment/sampling.py 286-305 |
| Resnet.v | models/resnet.py: the residual network from its parameter dictionary, ImageEBM.forward with data mean and temperature, the base log-probability in rounded arithmetic |
| Launch.v | xm_launcher.py: jobs and command lines of a sweep file; config_flags overrides and the typed merging of main_sampling.py 13-53; run_sampling_local.sh |
| RunConfigs.v | the shipped files, transcribed value by value: run_configs (44 sweep files), models/configs, samplers/configs, experiment/configs |
| Start.v | main_sampling.py 56-88: construction of model, sampler, experiment and evaluator from the configuration, device assertions, settings stored with checkpoints |
| RunTarget.v | what a started program samples when the model is classical: parameters, density and initial samples as functions of the model section of the configuration |
| Bleu.v | lm_eval.py 13-55, 87-119: reference files to words, corpus BLEU (nltk, from its published source) against files and against the other sentences, the saved table |
| Keys.v | the keys of every draw of sampling.py (26-46, 228-300, 555-625, 683-775), of the steps of all samplers and of the initialisations of the models; JAX: what a key derivation computes, in the original and in the partitionable (fold-like) variant, from the published source of jax/_src/prng.py |
| GraphRun.v | sampling.py 17-104 and 478-680 as a whole: settings, devices, masks, best values, one results file per group; model.evaluate of the three node models; times, acceptance ratios and hops left out; the samples visited are given |
| AisRun.v | sampling.py 683-775 with resnet.py 99-152: start at the data mean, weights, steps, devices, one number per step; the energies of the network are an arbitrary function of the image, the gradient array is arbitrary; `log1p(-mean + 1e-20)` is taken in the reals (in floats a mean of exactly one gives minus infinity) |
| InfillRun.v | sampling.py 349-475 with text_infilling.py 31-143: start, chain, resamples, top-k, loop over the entries; network, gradient and tokenizer are arbitrary functions of the entry; draws of different resamples of an entry are independent (their keys differ, C98), the compiled functions of jit are taken to follow the current entry; the float cast of the tokens before decoding (457-460) is taken to be exact |
| Report.v | plot_results.py 291-370, 380-459 and 40-122 (positions and padding of the bars), plot_utils.py 10-94, 124-195: reading folder names, naming samplers, ordering, grouping, tables, csv rows, bars; reading result files and int(float(text)) are parameters; drawing, labels, axes, the scaling of ESS values and the single-group figure of key name are outside |
| CutReport.v | normcut_evaluator.py 73-211: settings, names, scores, rows, file name; the pickles, the directory listing and the order of the nodes are inputs; messages are outside |
| EssReport.v | experiment_saver.py 80-83, 91-95 and plot_results.py 372-377, 415-437: printing, reading and scaling of the ESS; how numpy prints a row of two numbers and float() on a text without white space are inputs |
| CoReport.v | sampling.py 608-616, 654-657, experiment_saver.py 121-129 and plot_results.py 407-413: timed steps, mean, deviation; the time of each step is an input |
| TempReport.v | plot_ising_temp.py 157-274, 348-387, 390-464: settings, results, order, lines of the temperature figure; the order of floats and results.csv are inputs; the drawing is not modelled |
| CoCurve.v | plot_co_through_time.py 31-88, 181-231: axes, means and bands of the curves; the length of numpy.arange(0, 1, 1/n) in doubles, the numbers themselves exact; labels and drawing are not modelled |

Not modelled: file formats and path handling, plotting itself,
the xmanager launcher apart from sweeps, absl flags.

### 4.2 Idealisations, by area

* Floats are reals.  Constants added against log(0) are parameters of the model: the acceptance guard 1e-24 is
  kept (theorems give exact statements for guard 0 and explicit error bounds for the real guard); the guard 1e-32 in the
  DMALA/DLMC likelihoods likewise; C71 and C73 take both as 0 (except C73_random_walk_code_rate); the guard 1e-20 of the AIS base law is taken as 0.
* `jax.random.*` calls are independent draws of their documented laws.  Where the code uses one key for two
  draws (PAFS: gumbel noise and split; FHMM `sample_X`) the model treats them as independent.
  For questions about key reuse (C45, C68) keys are instead free derivation terms (`PRNGKey`, `fold_in`, `split`);
  `fold_in` raises for data of 2^32 or more.
* JAX array semantics: `.at[].set` casts to the type of the array (float into int truncates), drops out-of-bounds
  updates; gather clamps; broadcasting as documented; `jax.jit` rejects string arguments.
* PAFS: the -1e18 used to mask entries becomes weight 0.  `multinomial` without replacement: Gumbel-top-k has the sequential law.
* Autodiff is trusted: gradients are the partial derivatives (C21, C22 take them via `derivable_pt_lim`).
* `comb` uses Python true division on ints, exact below 2^53; `lgamma` is only used at integers; `int(a * b)` is the floor of the real product.
* Libraries by their documentation: optax schedules, networkx (iteration order, components, Barabasi-Albert; see `draw_ok`),
  `to_numpy_array`, nltk `ngrams`, tf dataset `shard`/`batch`, numpy `choice`, `jax.random.shuffle` (a permutation), the tokenizer (word by word, mask word to mask token).
  `repeat`, `shuffle` and preprocessing of data sets are not modelled.
* Configuration files are dictionaries with distinct keys; ConfigDict type checks and locking are not modelled.  Convolutions and linear
  layers are those of the torch and flax documentation.
* Containers: pytrees are binary trees with leaves of equal shape; replay-buffer cells are integers; image channels are carried along;
  NaN log-likelihoods are excluded from the top-k sort; `cnf2graph` collects literal positions in increasing order.

### 4.3 Reading of the results

A theorem named `…_refuted` exhibits inputs for which the property as stated fails in the model; the property then has
status "partial" in MANIFEST.json, its note says REFUTED and names the part that does hold.  `…_partial` marks a theorem
that covers less than its property.

## 5. Assumptions per theorem

From `Print Assumptions` (it follows every theorem in `Thm/*.v`).  Abbreviations: SFD = `ClassicalDedekindReals.sig_forall_dec`,
SND = `ClassicalDedekindReals.sig_not_dec`, FE = `FunctionalExtensionality.functional_extensionality_dep`, CL = `Classical_Prop.classic`;
all four come with the standard library's real numbers.

* **Closed under the global context** (194 theorems): `C04_block_counters`, `C04_block_later_window_refuted`, `C04_block_prefix_cover`, `C04_block_window_cover`, `C04_gibbs_counters`, `C04_gibbs_scan`, `C06_scan`, `C101_entries`, `C101_keys_refuted`, `C102_cfg`, `C102_dotted`, `C102_name_refuted`, `C102_read`, `C102_shipped`, `C102_tuple_refuted`, `C103_approx_refuted`, `C103_balancing_refuted`, `C103_colour`, `C103_colour_dlmc`, `C103_csv`, `C103_figure_refuted`, `C103_files`, `C103_name`, `C103_order`, `C103_shipped`, `C103_tables`, `C103_unknown_refuted`, `C104_bars`, `C104_fraction_refuted`, `C104_labels`, `C104_missing_refuted`, `C104_tick`, `C104_tick_tuple`, `C104_values`, `C105_comma`, `C105_csv`, `C105_name_refuted`, `C105_read`, `C105_same`, `C105_slash_refuted`, `C106_read`, `C106_shipped`, `C106_single`, `C108_figure`, `C108_first_refuted`, `C108_last_refuted`, `C108_missing`, `C108_read`, `C108_shipped`, `C108_unfinished_refuted`, `C109_default_refuted`, `C109_shipped`, `C109_step_refuted`, `C109_steps`, `C30_batches`, `C30_configured_count_refuted`, `C30_every_graph_once`, `C32_batches_overwritten_refuted`, `C32_last_batch_saved`, `C41_empty_clause_refuted`, `C41_four_literals_refuted`, `C41_no_node_lost`, `C41_sat_iff_independent_set`, `C41_short_clause_fails`, `C42_always_a_graph_refuted`, `C42_connected`, `C42_same_graph`, `C42_twenty_tries`, `C43_bounded_and_genuine`, `C43_categorical_refuted`, `C43_sample_rows`, `C43_too_many`, `C43_update_exact`, `C43_update_succeeds`, `C44_gather`, `C44_per_process`, `C44_per_process_rejects`, `C44_shard_rejects`, `C44_shard_roundtrip`, `C44_stack_mismatch_refuted`, `C44_stack_roundtrip`, `C45_advance_zero_refuted`, `C45_all_served`, `C45_distinct`, `C45_training_disjoint`, `C45_training_sampler_keys`, `C45_training_update_keys`, `C47_comma_refuted`, `C47_last_wins`, `C47_roundtrip`, `C48_count`, `C48_every_combination`, `C48_fails_only_empty`, `C48_once`, `C49_agrees_with_first`, `C49_extra_setting_refuted`, `C49_partition`, `C49_same_iff_agree`, `C52_count`, `C52_decode`, `C52_literal_mask_refuted`, `C52_positions`, `C52_roundtrip`, `C52_words`, `C54_locally_balanced_refuted`, `C54_scan_samplers`, `C55_fails_iff`, `C55_square_smallest`, `C55_tiling`, `C58_comb_counts_subsets`, `C58_comb_factorials`, `C58_prod_counts_cells`, `C59_as_many_chains_as_categories`, `C59_as_many_chains_as_categories_refuted`, `C59_one_energy_per_chain`, `C60_categorical_init_fails`, `C60_categorical_init_refuted`, `C61_batches`, `C61_dropped`, `C61_share`, `C61_total`, `C62_checkpoints`, `C62_final_step`, `C62_last_state_saved_refuted`, `C62_resume`, `C62_steps`, `C66_equal_shares_refuted`, `C66_fails_iff`, `C66_removed`, `C66_repeated_line_refuted`, `C66_selection`, `C67_digit_left_refuted`, `C68_across_sentences_refuted`, `C68_within_sentence`, `C69_never_saved`, `C69_saved_refuted`, `C72_path_auxiliary_fixed`, `C76_classical`, `C76_default_experiment`, `C76_empty_graph_type`, `C76_files_used_refuted`, `C76_graph`, `C76_graph_experiment`, `C76_infilling`, `C76_penalty_refuted`, `C76_save_dir`, `C76_save_dir_remote`, `C77_adaptive_refuted`, `C77_label_depends`, `C77_labels_distinct`, `C77_unknown_balancing_refuted`, `C78_windows`, `C84_init`, `C88_fast_path`, `C88_gwg_categories`, `C90_ba_density_refuted`, `C90_ba_sizes`, `C90_dispatch`, `C90_files`, `C90_prefixes`, `C90_reference`, `C90_sizes_tight`, `C95_accepted`, `C95_arguments`, `C95_class`, `C95_class_refuted`, `C95_classical`, `C95_defaults`, `C95_files`, `C95_folder`, `C95_graph`, `C95_infilling`, `C95_jobs`, `C95_jobs_count`, `C95_local_folder_refuted`, `C95_local_graph_refuted`, `C95_no_jobs`, `C95_results_apart`, `C95_shipped_jobs`, `C95_sweep_model_refuted`, `C95_sweeps_run_refuted`, `C95_tuple`, `C95_units`, `C95_unknown_key`, `C95_wrong_type`, `C97_prepare`, `C97_words`, `C98_chain_seed`, `C98_discipline_ais`, `C98_discipline_graphs`, `C98_discipline_path_refuted`, `C98_discipline_sampling_refuted`, `C98_seed_refuted`, `C99_sizes`.

* **SFD** (21 theorems): `C29_bidirectional`, `C29_edges_first`, `C29_lengths`, `C29_padding_masked`, `C79_all_replaced`, `C79_any_names_refuted`, `C79_kernels`, `C83_binarisation`, `C83_omniglot_no_validation_refuted`, `C83_transpose`, `C90_configured`, `C90_configured_refuted`, `C90_first_solution`, `C90_gap_refuted`, `C90_mis_ratio`, `C90_never_cut`, `C90_optsicom`, `C90_order`, `C90_sizes`, `C90_stackable`, `C90_twitter_refuted`.

* **SFD, FE** (200 theorems): `C07_rw_symmetric`, `C100_shipped`, `C105_missing_refuted`, `C105_order_refuted`, `C105_scores`, `C105_shipped`, `C105_table`, `C105_total`, `C106_factor`, `C106_length_refuted`, `C106_load`, `C106_odd_refuted`, `C106_ratio_refuted`, `C106_single_refuted`, `C107_even`, `C107_shipped`, `C107_time`, `C107_time_refuted`, `C108_band_refuted`, `C108_padding_refuted`, `C108_results`, `C14_num_sites`, `C16_probabilities_sum_to_one`, `C16_selection_law`, `C17_counts`, `C18_selects_k`, `C19_encodings_differ_refuted`, `C19_ising_energy_float`, `C19_ising_energy_int_no_coupling`, `C19_ising_int_integral_partial`, `C20_potts_energy`, `C20_potts_onehot_agrees`, `C21_bernoulli_gradient_exact`, `C21_bernoulli_logratio_exact`, `C21_categorical_exact`, `C21_ising_gradient_exact`, `C21_ising_gradient_exists`, `C21_maxcut_differentiable`, `C21_maxcut_exact`, `C21_mis_differentiable`, `C21_mis_exact`, `C21_potts_gradient_exact`, `C21_potts_gradient_exists`, `C22_clique_gradient_excess`, `C22_clique_gradient_refuted`, `C22_clique_ranking`, `C23_extract`, `C23_independent_value`, `C23_optimum`, `C23_small_coefficient_refuted`, `C24_clique_value`, `C24_extract`, `C24_optimum`, `C25_complement`, `C25_cut_weight`, `C25_flip_scores`, `C25_value`, `C26_clique_value`, `C26_mis_value`, `C26_temperature_free`, `C26_zero_temperature_refuted`, `C27_cut_size`, `C27_cut_total`, `C27_padded_nodes_refuted`, `C27_padded_scores_refuted`, `C27_scores`, `C27_volume`, `C27_volume_node_order_refuted`, `C27_volume_total`, `C28_exact`, `C28_formula`, `C28_masked_nodes`, `C28_padded_refuted`, `C29_energies_padding_free`, `C31_best_is_attained`, `C31_best_is_maximum`, `C31_trace_last`, `C31_trace_monotone`, `C31_unlogged_missed_refuted`, `C33_all_steps`, `C33_kept_samples`, `C33_ratio_above_one_refuted`, `C33_saved_count`, `C34_per_step_condition`, `C34_per_step_half`, `C34_per_step_refuted`, `C35_constant`, `C35_linear`, `C36_ais_telescopes`, `C37_categorical_energy`, `C39_generator_law`, `C39_prior_total`, `C40_initial_total`, `C40_rows_above_one`, `C40_rows_refuted`, `C43_initial_mean`, `C46_between`, `C46_convex`, `C46_first_copies`, `C46_weights`, `C50_fails_iff`, `C50_reference_score`, `C50_self_score`, `C50_tables`, `C51_balance`, `C51_cut`, `C51_cut_list`, `C51_cut_ratio`, `C51_loop_refuted`, `C51_volume_of_group`, `C51_volumes`, `C51_weighted_refuted`, `C53_binary`, `C53_categories_refuted`, `C53_triangle`, `C53_zero_iff_same`, `C56_constant`, `C56_updown`, `C56_warmup_length`, `C63_constant_rate`, `C63_first_update_idle`, `C63_logged_rate_refuted`, `C64_clipped`, `C64_exact`, `C67_many_refuted`, `C67_topk`, `C67_zero_refuted`, `C73_limit_is_invariant`, `C78_mean_unbiased`, `C78_variance_unbiased`, `C79_conv_same`, `C79_dense_same`, `C80_saved`, `C80_small_batch_refuted`, `C81_convergent`, `C81_never_above`, `C82_gradient`, `C82_shards`, `C83_caltech_split`, `C83_frey_split`, `C83_gray_affine`, `C83_histopathology`, `C83_mnist_split`, `C83_omniglot_split`, `C83_rbm_preprocess`, `C83_train_binary`, `C83_train_binary_refuted`, `C83_train_gray`, `C84_balanced_iff`, `C84_default_refuted`, `C84_large_penalty`, `C84_optimum_violation`, `C84_quad_iff`, `C84_quad_objective`, `C84_ratio_nonempty`, `C84_scores_refuted`, `C84_span_objective`, `C85_cyclic_refuted`, `C85_ising_energy`, `C85_potts_energy`, `C86_models`, `C86_scores`, `C88_path_default`, `C88_schedule`, `C88_shipped`, `C90_random_weights_refuted`, `C93_affine`, `C93_cut`, `C93_frozen`, `C93_mapped`, `C93_moving_refuted`, `C93_negative`, `C93_range`, `C93_reverse`, `C95_devices`, `C95_sampler`, `C95_shipped`, `C98_ais`, `C98_ais_ball_refuted`, `C98_ais_newer`, `C98_ais_refuted`, `C98_categ_fhmm_refuted`, `C98_devices_refuted`, `C98_graphs`, `C98_graphs_newer`, `C98_graphs_refuted`, `C98_groups_refuted`, `C98_independent`, `C98_jobs_refuted`, `C98_normcut_refuted`, `C98_sampling`, `C99_clique`, `C99_cut`, `C99_few_instances`, `C99_mis`, `C99_one_by_one`, `C99_optimum`, `C99_ready`, `C99_sample_refuted`, `C99_saved`.

* **SFD, SND, FE** (85 theorems): `C02_balancing_identity`, `C02_supported`, `C03_gibbs_conditional`, `C03_gibbs_invariant`, `C03_gibbs_reversible`, `C03_gibbs_run_invariant`, `C03_gibbs_support`, `C05_block_invariant`, `C05_block_reversible`, `C05_block_run_invariant`, `C05_block_support`, `C06_block_one_invariant_partial`, `C06_block_one_is_gibbs_partial`, `C06_proper`, `C07_rw_invariant_upto`, `C07_rw_reversible`, `C07_rw_run`, `C07_rw_support`, `C106_bars`, `C107_short_refuted`, `C107_table`, `C109_band`, `C109_band_refuted`, `C109_curves`, `C109_length_refuted`, `C14_gwg_radius`, `C14_path_aux_radius`, `C14_random_walk_radius`, `C36_ais_unbiased`, `C36_ais_weighted_expectation`, `C36_no_data_mean_weights`, `C37_bernoulli_expected_range`, `C37_bernoulli_law`, `C37_bernoulli_mean`, `C37_bernoulli_partition`, `C37_bernoulli_variance`, `C37_categorical_law`, `C38_block_is_prob`, `C54_random_walk_refuted`, `C57_hamming_independence_refuted`, `C57_hamming_marginal`, `C65_conditional`, `C73_block_gibbs`, `C73_gibbs`, `C73_hamming_ball`, `C73_hamming_block_one`, `C73_locally_balanced`, `C73_locally_balanced_refuted`, `C73_random_walk`, `C73_random_walk_refuted`, `C74_ising_forward_samplers`, `C75_flat_target`, `C75_one_step`, `C78_defined`, `C78_errors`, `C78_expected_mean_error`, `C78_single_chain_refuted`, `C85_gibbs_sites`, `C85_ising_field_law`, `C85_potts_field_refuted`, `C86_block`, `C86_gibbs_site`, `C86_gibbs_sweeps`, `C86_random_walk`, `C86_random_walk_refuted`, `C86_target`, `C91_attention`, `C91_forgets`, `C91_full_mask`, `C91_heads`, `C91_infill`, `C91_logits_bounded`, `C91_masked`, `C91_normalised`, `C91_scale`, `C91_zero_row`, `C93_chains`, `C93_efficiency`, `C93_efficiency_refuted`, `C93_report`, `C93_report_frozen`, `C94_bounded`, `C94_converted`, `C94_defined`, `C94_gradient`.

* **SFD, SND, CL, FE** (240 theorems): `C01_accept_iff`, `C01_accept_probability`, `C01_special_values`, `C01_whole_chain`, `C02_logscale`, `C06_every_block_refuted`, `C06_hamming_ball_refuted`, `C06_invariant_iff`, `C06_log_count_radius_reversible_partial`, `C06_logits`, `C08_adaptive_invariant_upto`, `C08_adaptive_reversible`, `C08_gwg_invariant_upto`, `C08_gwg_proper`, `C08_gwg_reversible`, `C09_chains_interact_refuted`, `C09_single_chain_invariant_upto_partial`, `C09_single_chain_reversible_partial`, `C09_two_chains_invariant_refuted`, `C100_adaptive_refuted`, `C100_below`, `C100_chains`, `C100_converges`, `C100_exact`, `C100_first`, `C100_hamming_refuted`, `C100_mean`, `C100_no_mean_refuted`, `C100_saved`, `C100_shipped_block`, `C100_tail`, `C100_unshared`, `C101_blank_refuted`, `C101_block`, `C101_dmala`, `C101_each`, `C101_gibbs`, `C101_independent_refuted`, `C101_sentences`, `C101_shape`, `C101_shipped`, `C10_adaptive_binary_invariant_upto`, `C10_adaptive_binary_is_prob`, `C10_adaptive_binary_reversible`, `C10_adaptive_categorical_invariant_upto`, `C10_adaptive_categorical_is_prob`, `C10_adaptive_categorical_reversible`, `C10_binary_invariant_upto`, `C10_binary_is_prob`, `C10_binary_reversible`, `C10_constant_categorical_refuted`, `C11_batch_law`, `C11_binary_invariant_upto`, `C11_binary_proper`, `C11_binary_reversible`, `C11_categorical_invariant_upto`, `C11_categorical_is_prob`, `C11_categorical_proposal`, `C11_categorical_reversible`, `C11_flip_probability`, `C11_local_step_size`, `C12_batch_law`, `C12_binary_invariant_upto`, `C12_binary_proper`, `C12_binary_reversible`, `C12_categorical_invariant_upto`, `C12_categorical_is_prob`, `C12_categorical_proposal`, `C12_categorical_reversible`, `C12_flip_probability`, `C12_local_step_size`, `C13_locally_balanced_refuted`, `C13_reversible_for_weighted_target_partial`, `C13_supported_models`, `C15_dlmc_refuted`, `C15_dmala_refuted`, `C15_finite_partial`, `C15_nan_frozen`, `C15_update_cases`, `C16_log1mexp`, `C16_log1mexp_boundary`, `C16_path_probability`, `C35_exp_decay`, `C35_exp_heating_refuted`, `C36_image_ebm`, `C36_image_ebm_gibbs`, `C36_no_data_mean_refuted`, `C38_bias_init`, `C38_binary_marginal`, `C38_block_invariant`, `C38_block_reversible`, `C38_categorical_marginal`, `C39_degenerate_refuted`, `C39_joint_density`, `C40_energy_of_proper_chain`, `C54_adaptive_samplers`, `C56_small_rate_refuted`, `C56_up_exp_down`, `C65_energy`, `C65_mask_refuted`, `C65_nonpositive`, `C70_dlmc`, `C70_dmala`, `C70_dmala_categorical`, `C70_gwg`, `C70_gwg_categorical`, `C70_gwg_categorical_stay`, `C70_gwg_mask`, `C70_named_functions`, `C70_path_auxiliary`, `C70_path_auxiliary_categorical`, `C71_binary`, `C71_binary_step`, `C71_categorical`, `C72_gwg`, `C72_path_auxiliary`, `C72_random_walk`, `C73_adaptive_gwg`, `C73_adaptive_path_auxiliary`, `C73_categorical_gwg_one_chain`, `C73_categorical_gwg_refuted`, `C73_categorical_path_auxiliary`, `C73_categorical_path_auxiliary_refuted`, `C73_dlmc_binary`, `C73_dlmc_categorical`, `C73_dmala_binary`, `C73_dmala_categorical`, `C73_gibbs_rate`, `C73_gwg_flat_parity`, `C73_gwg_many_flips`, `C73_gwg_one_flip`, `C73_gwg_refuted`, `C73_hamming_ball_refuted`, `C73_path_auxiliary_all_sites`, `C73_path_auxiliary_even`, `C73_path_auxiliary_odd`, `C73_path_auxiliary_refuted`, `C73_random_walk_code_rate`, `C74_ising_gradient_samplers`, `C74_ising_integral_partial`, `C74_ising_samplers_disagree`, `C74_potts_same_target`, `C74_same_target_refuted`, `C75_dlmc_refuted`, `C75_dmala_refuted`, `C75_gwg_refuted`, `C75_long_run_refuted`, `C75_path_refuted`, `C75_shipped_refuted`, `C75_two_steps_refuted`, `C81_cold_target`, `C81_gibbs`, `C81_gibbs_limit`, `C81_gibbs_schedules`, `C81_gwg_refuted`, `C81_gwg_trapped`, `C81_path_auxiliary_even`, `C81_path_auxiliary_refuted`, `C81_random_walk`, `C82_finite_steps_refuted`, `C82_many_steps`, `C82_rbm_block_converges`, `C82_rbm_pcd`, `C82_rbm_slope`, `C82_stationary`, `C82_unbiased`, `C83_float_binary`, `C83_gray_rbm`, `C83_gray_refuted`, `C85_centred_refuted`, `C85_field`, `C85_middle_and_border`, `C85_potts_mu_invisible`, `C85_sign`, `C85_sign_refuted`, `C86_adaptive_gwg`, `C86_adaptive_path_auxiliary`, `C86_dlmc`, `C86_dmala`, `C86_gwg`, `C86_local_step`, `C86_local_step_refuted`, `C86_local_step_smaller`, `C86_path_auxiliary`, `C87_constant_rate`, `C87_dlmc_one_chain`, `C87_dlmc_refuted`, `C87_dmala_refuted`, `C87_independence_refuted`, `C87_one_chain`, `C87_one_chain_reversible`, `C88_adaptive`, `C88_exact_ratios`, `C88_initial`, `C88_local_refuted`, `C88_not_adaptive`, `C88_run`, `C88_unknown_balancing`, `C88_whole_run`, `C89_co_one_chain`, `C89_run`, `C89_step`, `C91_mask_token_refuted`, `C91_probability`, `C91_score`, `C92_log_error`, `C92_run`, `C92_run_close`, `C92_step`, `C92_support_refuted`, `C94_base_finite`, `C94_density`, `C94_mean_one_refuted`, `C94_odds`, `C94_odds_plain`, `C96_fhmm_categories`, `C96_fhmm_refuted`, `C96_ising_lost`, `C96_ising_refuted`, `C96_ratios`, `C96_shipped`, `C96_target`, `C96_weight`, `C97_case_refuted`, `C97_copies`, `C97_copies_refuted`, `C97_entries`, `C97_fails`, `C97_more_references_refuted`, `C97_order`, `C97_perfect`, `C97_report`, `C97_self`, `C97_self_value`, `C97_third`, `C97_third_refuted`, `C97_value`, `C99_er_refuted`, `C99_gap_rand_refuted`, `C99_shipped`.

