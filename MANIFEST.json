{
 "claims": [
  {
   "property": "C01",
   "status": "proved",
   "theorems": [
    "C01_whole_chain",
    "C01_accept_iff",
    "C01_accept_probability",
    "C01_special_values"
   ],
   "note": "per chain and for the whole batch; special values (NaN, infinities) included"
  },
  {
   "property": "C02",
   "status": "proved",
   "theorems": [
    "C02_balancing_identity",
    "C02_logscale",
    "C02_supported"
   ],
   "note": ""
  },
  {
   "property": "C03",
   "status": "proved",
   "theorems": [
    "C03_gibbs_reversible",
    "C03_gibbs_invariant",
    "C03_gibbs_conditional",
    "C03_gibbs_support",
    "C03_gibbs_run_invariant"
   ],
   "note": "one step, and any number of steps of a batch with the scan index from the sampler state"
  },
  {
   "property": "C04",
   "status": "proved",
   "theorems": [
    "C04_gibbs_scan",
    "C04_gibbs_counters",
    "C04_block_prefix_cover",
    "C04_block_window_cover",
    "C04_block_counters",
    "C04_block_later_window_refuted"
   ],
   "note": "coverage and counters as stated; C04_block_later_window_refuted records that ceil(d/b) steps are enough only for the first pass"
  },
  {
   "property": "C05",
   "status": "proved",
   "theorems": [
    "C05_block_reversible",
    "C05_block_invariant",
    "C05_block_support",
    "C05_block_run_invariant"
   ],
   "note": "includes blocks sticking out past the last coordinate"
  },
  {
   "property": "C06",
   "status": "partial",
   "theorems": [
    "C06_hamming_ball_refuted",
    "C06_block_one_is_gibbs_partial",
    "C06_block_one_invariant_partial",
    "C06_log_count_radius_reversible_partial",
    "C06_logits",
    "C06_proper",
    "C06_invariant_iff",
    "C06_every_block_refuted",
    "C06_scan"
   ],
   "note": "REFUTED for every block of at least two sites inside the variables and every category count (C06_every_block_refuted; the default block size 10 included): the radius is drawn with the point counts as logits (probabilities e : e^N) instead of as weights (1 : N). C06_invariant_iff characterises, for any two logits, exactly which targets are kept. Proved for block size 1, where the step is a Gibbs update, and for the corrected logits at every block size."
  },
  {
   "property": "C07",
   "status": "proved",
   "theorems": [
    "C07_rw_reversible",
    "C07_rw_invariant_upto",
    "C07_rw_symmetric",
    "C07_rw_support",
    "C07_rw_run"
   ],
   "note": "exact reversibility with the 1e-24 acceptance guard idealised to 0; the rule of the code is invariant up to 2e-24 per step (n*2e-24 after n steps)"
  },
  {
   "property": "C08",
   "status": "proved",
   "theorems": [
    "C08_gwg_reversible",
    "C08_gwg_invariant_upto",
    "C08_gwg_proper",
    "C08_adaptive_reversible",
    "C08_adaptive_invariant_upto"
   ],
   "note": "binary, constant and adaptive number of flips; exact reversibility with the 1e-24 acceptance guard idealised to 0, code up to 2e-24 per step"
  },
  {
   "property": "C09",
   "status": "partial",
   "theorems": [
    "C09_single_chain_reversible_partial",
    "C09_single_chain_invariant_upto_partial",
    "C09_chains_interact_refuted",
    "C09_two_chains_invariant_refuted"
   ],
   "note": "REFUTED for batches of two or more chains: the forward/backward log-probabilities of a chain sum over the indices drawn for ALL chains (get_ll_onestep broadcasts), so chains interact and the product target is not invariant. Proved for a batch of one chain."
  },
  {
   "property": "C10",
   "status": "partial",
   "theorems": [
    "C10_binary_reversible",
    "C10_binary_invariant_upto",
    "C10_binary_is_prob",
    "C10_adaptive_binary_reversible",
    "C10_adaptive_binary_invariant_upto",
    "C10_adaptive_binary_is_prob",
    "C10_adaptive_categorical_reversible",
    "C10_adaptive_categorical_invariant_upto",
    "C10_adaptive_categorical_is_prob",
    "C10_constant_categorical_refuted"
   ],
   "note": "REFUTED for the categorical sampler with a constant number of sites (adaptive=False): the forward log-probability of the drawn values is missing. Proved for binary (constant and adaptive) and for categorical adaptive. The -1e18 of unselected entries is modelled as weight 0."
  },
  {
   "property": "C11",
   "status": "proved",
   "theorems": [
    "C11_binary_reversible",
    "C11_binary_invariant_upto",
    "C11_binary_proper",
    "C11_flip_probability",
    "C11_categorical_reversible",
    "C11_categorical_invariant_upto",
    "C11_categorical_is_prob",
    "C11_categorical_proposal",
    "C11_local_step_size",
    "C11_batch_law"
   ],
   "note": "exact reversibility with both guards idealised to 0; the code (1e-32 inside the logarithms, 1e-24 in mh_step) is invariant up to 2((1+2e-32)^d-1)+2e-24; batch law, proposal law and initial step size stated separately. Also covers co_opt_prob with a single chain (state-dependent step size)."
  },
  {
   "property": "C12",
   "status": "proved",
   "theorems": [
    "C12_binary_reversible",
    "C12_binary_invariant_upto",
    "C12_binary_proper",
    "C12_flip_probability",
    "C12_categorical_reversible",
    "C12_categorical_invariant_upto",
    "C12_categorical_is_prob",
    "C12_categorical_proposal",
    "C12_local_step_size",
    "C12_batch_law"
   ],
   "note": "both solvers, binary and categorical; guards as for C11; proposal probabilities in closed form"
  },
  {
   "property": "C13",
   "status": "partial",
   "theorems": [
    "C13_locally_balanced_refuted",
    "C13_reversible_for_weighted_target_partial",
    "C13_supported_models"
   ],
   "note": "REFUTED: there is no accept/reject step, so the stationary law is the target times the total balanced weight Z(x); the target is invariant exactly when Z is constant. Only MaxCut can be used with this sampler: the call raises for the other models."
  },
  {
   "property": "C14",
   "status": "proved",
   "theorems": [
    "C14_random_walk_radius",
    "C14_gwg_radius",
    "C14_path_aux_radius",
    "C14_num_sites"
   ],
   "note": "the path-auxiliary radius starts at num_flips, which may be out of range; it is legal from the first update on, and the number of sites used is legal always"
  },
  {
   "property": "C15",
   "status": "partial",
   "theorems": [
    "C15_update_cases",
    "C15_finite_partial",
    "C15_dmala_refuted",
    "C15_dlmc_refuted",
    "C15_nan_frozen"
   ],
   "note": "REFUTED: with the default configuration DMALA (probability >= 3/4) and DLMC (probability >= 1/25) turn log_tau into NaN in the very first step of explicit small models; from then on no sample changes. Exact condition for a real result and a positive case (target <= 1/3, non-decreasing normaliser) proved."
  },
  {
   "property": "C16",
   "status": "proved",
   "theorems": [
    "C16_path_probability",
    "C16_probabilities_sum_to_one",
    "C16_selection_law",
    "C16_log1mexp",
    "C16_log1mexp_boundary"
   ],
   "note": "law of Gumbel top-k assumed to be sequential sampling without replacement (trusted base)"
  },
  {
   "property": "C17",
   "status": "proved",
   "theorems": [
    "C17_counts"
   ],
   "note": ""
  },
  {
   "property": "C18",
   "status": "proved",
   "theorems": [
    "C18_selects_k"
   ],
   "note": ""
  },
  {
   "property": "C19",
   "status": "partial",
   "theorems": [
    "C19_ising_energy_float",
    "C19_ising_energy_int_no_coupling",
    "C19_ising_int_integral_partial",
    "C19_encodings_differ_refuted"
   ],
   "note": "REFUTED for integer samples: the message array has the integer type of the sample, so every write truncates; with |coupling| < 1 (default 1/2) the coupling is lost on every lattice. Proved for float samples on every lattice, and for integer samples with integral couplings. Open boundary (the docstring says cyclic)."
  },
  {
   "property": "C20",
   "status": "proved",
   "theorems": [
    "C20_potts_energy",
    "C20_potts_onehot_agrees"
   ],
   "note": "integer samples and float one-hot arrays"
  },
  {
   "property": "C21",
   "status": "proved",
   "theorems": [
    "C21_ising_gradient_exact",
    "C21_ising_gradient_exists",
    "C21_potts_gradient_exact",
    "C21_potts_gradient_exists",
    "C21_bernoulli_gradient_exact",
    "C21_bernoulli_logratio_exact",
    "C21_categorical_exact",
    "C21_mis_exact",
    "C21_maxcut_exact",
    "C21_mis_differentiable",
    "C21_maxcut_differentiable"
   ],
   "note": "Bernoulli, categorical, Ising and Potts on float samples (what the gradient samplers pass), max independent set and max cut on every loop-free graph; the derivative is the analytic one (autodiff trusted)"
  },
  {
   "property": "C22",
   "status": "partial",
   "theorems": [
    "C22_clique_gradient_refuted",
    "C22_clique_gradient_excess",
    "C22_clique_ranking"
   ],
   "note": "REFUTED: the score is the true change plus coeff/(2T). Proved instead: the excess is the same for every node, so differences of scores are exact."
  },
  {
   "property": "C23",
   "status": "proved",
   "theorems": [
    "C23_independent_value",
    "C23_extract",
    "C23_optimum",
    "C23_small_coefficient_refuted"
   ],
   "note": "C23_small_coefficient_refuted shows that the bound 1 on the coefficient is needed"
  },
  {
   "property": "C24",
   "status": "proved",
   "theorems": [
    "C24_clique_value",
    "C24_extract",
    "C24_optimum"
   ],
   "note": ""
  },
  {
   "property": "C25",
   "status": "proved",
   "theorems": [
    "C25_value",
    "C25_complement",
    "C25_flip_scores",
    "C25_cut_weight"
   ],
   "note": "padding weight 0, as the loader passes"
  },
  {
   "property": "C26",
   "status": "proved",
   "theorems": [
    "C26_temperature_free",
    "C26_mis_value",
    "C26_clique_value",
    "C26_zero_temperature_refuted"
   ],
   "note": "T <> 0 needed; energies spelled out as counts"
  },
  {
   "property": "C27",
   "status": "proved",
   "theorems": [
    "C27_cut_size",
    "C27_cut_total",
    "C27_volume",
    "C27_volume_total",
    "C27_volume_node_order_refuted",
    "C27_scores",
    "C27_padded_scores_refuted",
    "C27_padded_nodes_refuted"
   ],
   "note": "REFUTED extras: scores of node 0 wrong with padding edges, volumes wrong when the graph does not list nodes in index order, shape error with padding nodes"
  },
  {
   "property": "C28",
   "status": "partial",
   "theorems": [
    "C28_padded_refuted",
    "C28_formula",
    "C28_exact",
    "C28_masked_nodes"
   ],
   "note": "REFUTED on padded graphs for the removal of node 0 (score too large by 2 coeff/T per padding edge). Proved for every other node and state, and for unpadded graphs."
  },
  {
   "property": "C29",
   "status": "proved",
   "theorems": [
    "C29_lengths",
    "C29_edges_first",
    "C29_padding_masked",
    "C29_bidirectional",
    "C29_energies_padding_free"
   ],
   "note": ""
  },
  {
   "property": "C30",
   "status": "partial",
   "theorems": [
    "C30_batches",
    "C30_every_graph_once",
    "C30_configured_count_refuted"
   ],
   "note": "Proved whenever the loader's instance count is at least the number of graphs (always so when the loader counts the files itself). REFUTED when the count comes from the model configuration and is too small: C30_configured_count_refuted."
  },
  {
   "property": "C31",
   "status": "proved",
   "theorems": [
    "C31_best_is_maximum",
    "C31_best_is_attained",
    "C31_trace_monotone",
    "C31_trace_last",
    "C31_unlogged_missed_refuted"
   ],
   "note": "Over the logged steps (step mod log_every_steps = 0), for positive reference values. C31_unlogged_missed_refuted shows that states visited between logged steps are not considered, which is why the property speaks of recorded evaluations."
  },
  {
   "property": "C32",
   "status": "partial",
   "theorems": [
    "C32_batches_overwritten_refuted",
    "C32_last_batch_saved"
   ],
   "note": "REFUTED: every batch writes the same results.pkl, so only the last batch survives. C32_last_batch_saved characterises what is on disk."
  },
  {
   "property": "C33",
   "status": "proved",
   "theorems": [
    "C33_all_steps",
    "C33_kept_samples",
    "C33_saved_count",
    "C33_ratio_above_one_refuted"
   ],
   "note": "For ess_ratio between 0 and 1; C33_ratio_above_one_refuted shows that the bound is needed. The product chain_length * ess_ratio is a real number, its double rounding is not modelled."
  },
  {
   "property": "C34",
   "status": "partial",
   "theorems": [
    "C34_per_step_refuted",
    "C34_per_step_condition",
    "C34_per_step_half"
   ],
   "note": "REFUTED for ratios other than 1/2; exact condition and the default case (ratio 1/2, even length) proved."
  },
  {
   "property": "C35",
   "status": "partial",
   "theorems": [
    "C35_constant",
    "C35_linear",
    "C35_exp_decay",
    "C35_exp_heating_refuted"
   ],
   "note": "Constant and linear schedules: all parameters. Exponential decay: for decay rate in (0,1) and final <= initial; REFUTED for final > initial (C35_exp_heating_refuted). optax formulas are taken from its documentation."
  },
  {
   "property": "C36",
   "status": "partial",
   "theorems": [
    "C36_ais_unbiased",
    "C36_ais_weighted_expectation",
    "C36_ais_telescopes",
    "C36_image_ebm",
    "C36_image_ebm_gibbs",
    "C36_no_data_mean_refuted",
    "C36_no_data_mean_weights"
   ],
   "note": "General unbiasedness, telescoping, and the end-to-end claim for image EBMs with data mean are proved (guard 1e-20 idealised to 0). REFUTED for models without data_mean: the temperature is ignored and all weights stay 1."
  },
  {
   "property": "C37",
   "status": "proved",
   "theorems": [
    "C37_bernoulli_law",
    "C37_bernoulli_partition",
    "C37_bernoulli_mean",
    "C37_bernoulli_variance",
    "C37_bernoulli_expected_range",
    "C37_categorical_law",
    "C37_categorical_energy"
   ],
   "note": ""
  },
  {
   "property": "C38",
   "status": "proved",
   "theorems": [
    "C38_binary_marginal",
    "C38_categorical_marginal",
    "C38_block_reversible",
    "C38_block_invariant",
    "C38_block_is_prob",
    "C38_bias_init"
   ],
   "note": "Binary and categorical marginals; the two-phase block step is reversible, hence invariant (binary). The sampler class is not reachable through build_sampler."
  },
  {
   "property": "C39",
   "status": "proved",
   "theorems": [
    "C39_joint_density",
    "C39_prior_total",
    "C39_generator_law",
    "C39_degenerate_refuted"
   ],
   "note": "For prior parameters strictly between 0 and 1 (Gaussian observations up to the code's constant). C39_degenerate_refuted: stay probability 1 gives NaN on states of positive probability."
  },
  {
   "property": "C40",
   "status": "partial",
   "theorems": [
    "C40_rows_refuted",
    "C40_rows_above_one",
    "C40_energy_of_proper_chain",
    "C40_initial_total"
   ],
   "note": "REFUTED: the rows of the categorical transition matrix sum to more than 1 (the stay probability is added on top of a full row). C40_energy_of_proper_chain gives the energy under the matrix as coded; the initial law is proper."
  },
  {
   "property": "C41",
   "status": "proved",
   "theorems": [
    "C41_sat_iff_independent_set",
    "C41_no_node_lost",
    "C41_four_literals_refuted",
    "C41_empty_clause_refuted",
    "C41_short_clause_fails"
   ],
   "note": "3-CNF formulas, as stated. Outside the statement: clauses with four literals and empty clauses are handled wrongly (C41_four_literals_refuted, C41_empty_clause_refuted), shorter clauses raise."
  },
  {
   "property": "C42",
   "status": "proved",
   "theorems": [
    "C42_connected",
    "C42_same_graph",
    "C42_always_a_graph_refuted",
    "C42_twenty_tries"
   ],
   "note": "Under networkx's contract (components connected, Barabasi-Albert graphs connected and numbered 0..n-1). The function may return None after twenty draws: C42_always_a_graph_refuted."
  },
  {
   "property": "C43",
   "status": "partial",
   "theorems": [
    "C43_bounded_and_genuine",
    "C43_update_exact",
    "C43_update_succeeds",
    "C43_sample_rows",
    "C43_too_many",
    "C43_initial_mean",
    "C43_categorical_refuted"
   ],
   "note": "Binary data: proved for every history, with the draws explicit. REFUTED for categorical data (more than two categories): the constructor never sets the buffer, so every request fails."
  },
  {
   "property": "C44",
   "status": "proved",
   "theorems": [
    "C44_shard_roundtrip",
    "C44_shard_rejects",
    "C44_gather",
    "C44_per_process",
    "C44_per_process_rejects",
    "C44_stack_roundtrip",
    "C44_stack_mismatch_refuted"
   ],
   "note": "Leaves of stacked trees are scalars; C44_stack_mismatch_refuted (outside the statement): trees of different structure are zipped to the shortest instead of being rejected."
  },
  {
   "property": "C45",
   "status": "proved",
   "theorems": [
    "C45_distinct",
    "C45_all_served",
    "C45_advance_zero_refuted",
    "C45_training_sampler_keys",
    "C45_training_update_keys",
    "C45_training_disjoint"
   ],
   "note": "Keys are free derivation terms, so distinct terms stand for distinct keys. Requests must advance the counter: advance(0) repeats a key (C45_advance_zero_refuted)."
  },
  {
   "property": "C46",
   "status": "proved",
   "theorems": [
    "C46_convex",
    "C46_first_copies",
    "C46_between",
    "C46_weights"
   ],
   "note": "Scalar leaves; exact reals."
  },
  {
   "property": "C47",
   "status": "proved",
   "theorems": [
    "C47_roundtrip",
    "C47_last_wins",
    "C47_comma_refuted"
   ],
   "note": "Keys without ',' and '-', values without ','; C47_comma_refuted shows that the last condition is needed."
  },
  {
   "property": "C48",
   "status": "proved",
   "theorems": [
    "C48_every_combination",
    "C48_count",
    "C48_once",
    "C48_fails_only_empty"
   ],
   "note": "Value lists may have repetitions in C48_every_combination and C48_count; an empty sweep raises."
  },
  {
   "property": "C49",
   "status": "partial",
   "theorems": [
    "C49_partition",
    "C49_same_iff_agree",
    "C49_agrees_with_first",
    "C49_extra_setting_refuted"
   ],
   "note": "Partition: all inputs. The iff holds when the experiments have the same setting names; REFUTED otherwise (get_diff_key looks only at the settings of the cluster's first member), and then the clusters depend on the order."
  },
  {
   "property": "C50",
   "status": "proved",
   "theorems": [
    "C50_reference_score",
    "C50_self_score",
    "C50_fails_iff",
    "C50_tables"
   ],
   "note": "nltk ngrams by documentation; float division as real division."
  },
  {
   "property": "C51",
   "status": "partial",
   "theorems": [
    "C51_cut",
    "C51_cut_ratio",
    "C51_cut_list",
    "C51_volumes",
    "C51_volume_of_group",
    "C51_balance",
    "C51_weighted_refuted",
    "C51_loop_refuted"
   ],
   "note": "Simple unweighted graphs: all claims. REFUTED for edge weights other than 1 (cut count) and for self-loops (volumes)."
  },
  {
   "property": "C52",
   "status": "proved",
   "theorems": [
    "C52_words",
    "C52_positions",
    "C52_count",
    "C52_decode",
    "C52_roundtrip",
    "C52_literal_mask_refuted"
   ],
   "note": "Tokenizer contract: word by word, '[MASK]' gives the mask token and no other word does. Filling in the original words needs them to be one token each. A sentence that holds '[MASK]' literally is outside the statement (C52_literal_mask_refuted)."
  },
  {
   "property": "C53",
   "status": "partial",
   "theorems": [
    "C53_binary",
    "C53_categories_refuted",
    "C53_zero_iff_same",
    "C53_triangle"
   ],
   "note": "Proved for binary samples; zero iff unchanged and the triangle inequality for all. REFUTED for three or more categories: |x - x'| of category numbers is summed."
  },
  {
   "property": "C54",
   "status": "partial",
   "theorems": [
    "C54_scan_samplers",
    "C54_adaptive_samplers",
    "C54_random_walk_refuted",
    "C54_locally_balanced_refuted"
   ],
   "note": "REFUTED for the random-walk samplers (counter stays 0) and the plain locally balanced sampler (entry dropped); proved for all others."
  },
  {
   "property": "C55",
   "status": "proved",
   "theorems": [
    "C55_tiling",
    "C55_fails_iff",
    "C55_square_smallest"
   ],
   "note": "Channels are carried along; the argument checks are not modelled."
  },
  {
   "property": "C56",
   "status": "partial",
   "theorems": [
    "C56_constant",
    "C56_warmup_length",
    "C56_updown",
    "C56_up_exp_down",
    "C56_small_rate_refuted"
   ],
   "note": "Constant and up-down schedules: all parameters. Exponential schedule: base rate at least 1e-6; REFUTED below, where the hard-coded end value exceeds the base rate. optax formulas from its documentation."
  },
  {
   "property": "C57",
   "status": "partial",
   "theorems": [
    "C57_hamming_marginal",
    "C57_hamming_independence_refuted"
   ],
   "note": "REFUTED for Hamming ball (one radius per batch; marginals are right) and, see C09, for categorical GWG. DMALA/DLMC with a common step size are products: C11_batch_law, C12_batch_law. The other samplers are modelled as products because their code is row-wise."
  },
  {
   "property": "C58",
   "status": "proved",
   "theorems": [
    "C58_comb_counts_subsets",
    "C58_comb_factorials",
    "C58_prod_counts_cells"
   ],
   "note": "nat division for the code's true division followed by int(): exact below 2^53"
  },
  {
   "property": "C59",
   "status": "partial",
   "theorems": [
    "C59_one_energy_per_chain",
    "C59_as_many_chains_as_categories_refuted",
    "C59_as_many_chains_as_categories"
   ],
   "note": "REFUTED when the number of hidden chains equals the number of categories: integer states are taken for one-hot ones. Proved in all other cases."
  },
  {
   "property": "C60",
   "status": "partial",
   "theorems": [
    "C60_categorical_init_refuted",
    "C60_categorical_init_fails"
   ],
   "note": "REFUTED: the initial sample is passed un-encoded to the network, which broadcasts only in coincidental sizes; C60_categorical_init_fails characterises the failing sizes."
  },
  {
   "property": "C61",
   "status": "proved",
   "theorems": [
    "C61_share",
    "C61_batches",
    "C61_total",
    "C61_dropped"
   ],
   "note": "tf.data shard and batch by documentation; repeat, shuffle and preprocessing are not modelled."
  },
  {
   "property": "C62",
   "status": "proved",
   "theorems": [
    "C62_steps",
    "C62_final_step",
    "C62_checkpoints",
    "C62_resume",
    "C62_last_state_saved_refuted"
   ],
   "note": "C62_last_state_saved_refuted (outside the statement): when the total is not a multiple of save_every_steps the final state is in no checkpoint."
  },
  {
   "property": "C63",
   "status": "partial",
   "theorems": [
    "C63_logged_rate_refuted",
    "C63_first_update_idle",
    "C63_constant_rate"
   ],
   "note": "REFUTED: the rate of the next update is logged. Constant schedules are unaffected."
  },
  {
   "property": "C64",
   "status": "proved",
   "theorems": [
    "C64_clipped",
    "C64_exact"
   ],
   "note": "Exact reals; one pixel position at a time."
  },
  {
   "property": "C65",
   "status": "partial",
   "theorems": [
    "C65_energy",
    "C65_conditional",
    "C65_nonpositive",
    "C65_mask_refuted"
   ],
   "note": "REFUTED: mask_dummy_array writes to row 1 of a one-row array, JAX drops the update, so the scored position is shown as the all-zero row. The rest (proper conditionals independent of the token, energy at most 0) is proved; the network is an arbitrary function of the one-hot rows."
  },
  {
   "property": "C66",
   "status": "partial",
   "theorems": [
    "C66_selection",
    "C66_removed",
    "C66_repeated_line_refuted",
    "C66_equal_shares_refuted",
    "C66_fails_iff"
   ],
   "note": "Proved for corpora without repeated lines; REFUTED with repeated lines and when the first corpus has too few suitable sentences. C66_selection describes the result for every input."
  },
  {
   "property": "C67",
   "status": "partial",
   "theorems": [
    "C67_topk",
    "C67_many_refuted",
    "C67_digit_left_refuted",
    "C67_zero_refuted"
   ],
   "note": "Up to ten resamples and k at least 1: proved. REFUTED for eleven or more resamples (tag removed by position) and k = 0. NaN likelihoods are not modelled."
  },
  {
   "property": "C68",
   "status": "partial",
   "theorems": [
    "C68_within_sentence",
    "C68_across_sentences_refuted"
   ],
   "note": "Within a sentence: proved. REFUTED across sentences: preprocess is always called with rnd_key 0. Keys are free derivation terms."
  },
  {
   "property": "C69",
   "status": "partial",
   "theorems": [
    "C69_saved_refuted",
    "C69_never_saved"
   ],
   "note": "REFUTED: the evaluator is jitted and called with strings, which JAX rejects (from its documentation)."
  },
  {
   "property": "C70",
   "status": "proved",
   "theorems": [
    "C70_gwg",
    "C70_gwg_mask",
    "C70_path_auxiliary",
    "C70_gwg_categorical",
    "C70_gwg_categorical_stay",
    "C70_path_auxiliary_categorical",
    "C70_dmala",
    "C70_dmala_categorical",
    "C70_dlmc",
    "C70_named_functions"
   ],
   "note": "Softmax entries are the proposal probabilities of one draw. Energies meeting the hypothesis: see C21."
  },
  {
   "property": "C71",
   "status": "proved",
   "theorems": [
    "C71_binary",
    "C71_binary_step",
    "C71_categorical"
   ],
   "note": "The 1e-32 inside the logarithms and the 1e-24 of mh_step are idealised to 0 (with them the acceptance is only nearly 1). Categorical: values of probability at least 1e-12, below which the code clips."
  },
  {
   "property": "C72",
   "status": "proved",
   "theorems": [
    "C72_random_walk",
    "C72_gwg",
    "C72_path_auxiliary",
    "C72_path_auxiliary_fixed"
   ],
   "note": "Exact reals. The step-size adaptation of DMALA and DLMC is C15."
  },
  {
   "property": "C73",
   "status": "partial",
   "theorems": [
    "C73_gibbs",
    "C73_gibbs_rate",
    "C73_block_gibbs",
    "C73_random_walk",
    "C73_random_walk_code_rate",
    "C73_random_walk_refuted",
    "C73_dmala_binary",
    "C73_dlmc_binary",
    "C73_dmala_categorical",
    "C73_dlmc_categorical",
    "C73_gwg_many_flips",
    "C73_gwg_one_flip",
    "C73_gwg_flat_parity",
    "C73_gwg_refuted",
    "C73_path_auxiliary_even",
    "C73_path_auxiliary_refuted",
    "C73_locally_balanced",
    "C73_locally_balanced_refuted",
    "C73_limit_is_invariant",
    "C73_hamming_ball",
    "C73_hamming_block_one",
    "C73_hamming_ball_refuted",
    "C73_path_auxiliary_odd",
    "C73_path_auxiliary_all_sites",
    "C73_adaptive_path_auxiliary",
    "C73_adaptive_gwg",
    "C73_categorical_path_auxiliary",
    "C73_categorical_gwg_one_chain",
    "C73_categorical_gwg_refuted",
    "C73_categorical_path_auxiliary_refuted"
   ],
   "note": "Proved: Gibbs and block Gibbs (with a rate for Gibbs), random walk below the full radius, DMALA and DLMC at a step size independent of the history, Gibbs with gradients with two or more flips, Hamming ball with block size 1, categorical path-auxiliary at any fixed radius and one-chain categorical Gibbs with gradients with at least three categories. Proved to hold exactly under a condition: Gibbs with gradients with one flip and path-auxiliary with an odd number of flips (iff some proposal can be rejected), Hamming ball (iff every step of the scan keeps the target). Adaptive Gibbs with gradients / path-auxiliary at a fixed radius are the constant variants. Exact acceptance rule, except C73_random_walk_code_rate, which has the guard of the code and the resulting bias floor. REFUTED: locally balanced sampler (every target), non-adaptive path-auxiliary with an even number of flips or with all sites (every target), Gibbs with gradients with one flip and random walk at full radius on flat targets, Hamming ball with every block of two or more, categorical path-auxiliary with a constant number of sites, categorical Gibbs with gradients with two chains. Missing: runs in which the radius or step size adapts (C75), two-category categorical variants."
  },
  {
   "property": "C74",
   "status": "partial",
   "theorems": [
    "C74_ising_forward_samplers",
    "C74_ising_gradient_samplers",
    "C74_ising_samplers_disagree",
    "C74_same_target_refuted",
    "C74_ising_integral_partial",
    "C74_potts_same_target"
   ],
   "note": "REFUTED for Ising (C74_ising_samplers_disagree for every lattice with an edge and every coupling parameter of modulus between 0 and 1, which includes the default 1/2; C74_same_target_refuted with explicit limits): samplers that call forward on integer samples converge to independent sites, the gradient samplers to the lattice distribution. Proved: Ising with integral couplings and Potts have one common limit. Exact acceptance rule; which samplers converge at all is C73. Other models not restated: their forward does not depend on the element type."
  },
  {
   "property": "C75",
   "status": "partial",
   "theorems": [
    "C75_one_step",
    "C75_flat_target",
    "C75_two_steps_refuted",
    "C75_long_run_refuted",
    "C75_shipped_refuted",
    "C75_gwg_refuted",
    "C75_path_refuted",
    "C75_dmala_refuted",
    "C75_dlmc_refuted"
   ],
   "note": "REFUTED for every adaptive configuration in the repository with the constants of the code (C75_shipped_refuted): at most three steps from equilibrium cost an event more than 1/700 of probability, on a binary model with the exact gradient. Exact sizes: random walk 1/72 in two steps, Gibbs-with-gradients 1/45 and path-auxiliary 1/30 in three, DMALA 9/260 and DLMC about 1/266 in the first step (its step size is taken from the current sample). With acceptance target 2/3 the random walk converges to 1080/1469 where the target has 3/4 (C75_long_run_refuted). Batch of one chain. Proved: a single step of the random walk at any radius, and any number of steps on flat targets, every batch size; single steps of the other samplers in a given state are C88. Missing: the long-run limit for the informed samplers, and batches of more than one chain for the size of the error."
  },
  {
   "property": "C76",
   "status": "partial",
   "theorems": [
    "C76_classical",
    "C76_graph",
    "C76_infilling",
    "C76_graph_experiment",
    "C76_default_experiment",
    "C76_files_used_refuted",
    "C76_penalty_refuted",
    "C76_empty_graph_type",
    "C76_save_dir",
    "C76_save_dir_remote"
   ],
   "note": "REFUTED: with --config at its default every graph model loses its name, sampler and experiment (C76_default_experiment, C76_files_used_refuted); a penalty given for the satlib graphs is dropped (C76_penalty_refuted); with an empty graph_type the experiment file is ignored. Proved: the exact source of every key for classical, graph and infilling models, that the shipped experiment files give the combinatorial experiment with the model and sampler asked for, and the save directory. The type checks of ConfigDict are in C95."
  },
  {
   "property": "C77",
   "status": "partial",
   "theorems": [
    "C77_label_depends",
    "C77_adaptive_refuted",
    "C77_labels_distinct",
    "C77_unknown_balancing_refuted"
   ],
   "note": "REFUTED: the label ignores the value of 'adaptive' for every sampler (C77_adaptive_refuted) and labels an unknown balancing function as sqrt. Proved: exactly which keys the label depends on, and that for the shipped samplers equal labels mean equal sampler, balancing function, forward solver and presence of the adaptive key."
  },
  {
   "property": "C78",
   "status": "partial",
   "theorems": [
    "C78_mean_unbiased",
    "C78_variance_unbiased",
    "C78_expected_mean_error",
    "C78_errors",
    "C78_defined",
    "C78_single_chain_refuted",
    "C78_windows"
   ],
   "note": "REFUTED: with one chain or one sample the result is not a number (C78_single_chain_refuted; C78_defined says exactly when). Proved: unbiasedness for every law and sample size, expected mean error, sign and zero of the errors, windows. plot_mixing_time_graph_over_chain is modelled up to the choice of windows."
  },
  {
   "property": "C79",
   "status": "partial",
   "theorems": [
    "C79_all_replaced",
    "C79_any_names_refuted",
    "C79_conv_same",
    "C79_dense_same",
    "C79_kernels"
   ],
   "note": "REFUTED for arbitrary parameter names (C79_any_names_refuted). Proved for the names of the torch network: all parameters are replaced; converted convolutions and linear layers compute the same. Reading and writing of files is not modelled."
  },
  {
   "property": "C80",
   "status": "partial",
   "theorems": [
    "C80_saved",
    "C80_small_batch_refuted"
   ],
   "note": "REFUTED: batches of fewer than four chains always fail and num_saved_samples cannot be configured (C80_small_batch_refuted). Proved for larger batches: which chains and steps are saved. The random choice is an arbitrary permutation."
  },
  {
   "property": "C81",
   "status": "partial",
   "theorems": [
    "C81_never_above",
    "C81_gibbs",
    "C81_gibbs_limit",
    "C81_gibbs_schedules",
    "C81_random_walk",
    "C81_convergent",
    "C81_cold_target",
    "C81_path_auxiliary_even",
    "C81_path_auxiliary_refuted",
    "C81_gwg_trapped",
    "C81_gwg_refuted"
   ],
   "note": "Proved: Gibbs for every schedule above a positive temperature, with an explicit bound in the run length and number of chains, hence for the constant, linear and exponential schedules of the code; random walk at a fixed radius with the guard of the acceptance rule when exp(-D/Tmin) exceeds it; every sampler at a constant temperature that converges (C73); nothing above the optimum is reported; concentration of the target at low temperature. REFUTED: the path-auxiliary sampler with an even number of flips reports an optimum of the other parity with probability 0 at every length (C81_path_auxiliary_refuted), and Gibbs with gradients with one flip and the guard 1e-24 never leaves a local optimum once d exp(-delta/T) <= 1e-24 (C81_gwg_trapped, C81_gwg_refuted). Missing: annealed runs of the other samplers, adapting radius, the padding mask. Real arithmetic; the gradient is that of a multilinear energy."
  },
  {
   "property": "C82",
   "status": "partial",
   "theorems": [
    "C82_gradient",
    "C82_shards",
    "C82_unbiased",
    "C82_stationary",
    "C82_many_steps",
    "C82_rbm_slope",
    "C82_rbm_block_converges",
    "C82_rbm_pcd",
    "C82_finite_steps_refuted"
   ],
   "note": "Proved: the loss gradient and when it is defined, shards, unbiasedness for chains at the model law, arbitrarily small bias for any sampler that converges, and for the RBM with its block sampler at all weights. REFUTED as an exact statement: no finite pcd_steps removes the bias (C82_finite_steps_refuted). jax.value_and_grad is taken to be the derivative; the optimiser and the drift of the parameters between steps are not modelled here."
  },
  {
   "property": "C83",
   "status": "partial",
   "theorems": [
    "C83_mnist_split",
    "C83_omniglot_split",
    "C83_omniglot_no_validation_refuted",
    "C83_frey_split",
    "C83_caltech_split",
    "C83_transpose",
    "C83_train_binary",
    "C83_train_gray",
    "C83_train_binary_refuted",
    "C83_binarisation",
    "C83_rbm_preprocess",
    "C83_gray_affine",
    "C83_gray_rbm",
    "C83_gray_refuted",
    "C83_float_binary",
    "C83_histopathology"
   ],
   "note": "Proved: the splits of MNIST, Omniglot (positive number of validation images), Caltech and Frey faces, the clipping of histopathology, the pixel order after the two reshapes, binary validation and test images, binary training images for static_mnist and caltech, and the RBM preprocessing. REFUTED: dynamic_mnist (and omniglot) training images are gray levels (C83_train_binary_refuted, C83_train_gray), which changes the objective (C83_gray_refuted; C83_gray_affine and C83_gray_rbm say how); no validation images means no training images (C83_omniglot_no_validation_refuted). File parsing is not modelled."
  },
  {
   "property": "C84",
   "status": "partial",
   "theorems": [
    "C84_span_objective",
    "C84_quad_objective",
    "C84_balanced_iff",
    "C84_quad_iff",
    "C84_optimum_violation",
    "C84_large_penalty",
    "C84_default_refuted",
    "C84_scores_refuted",
    "C84_ratio_nonempty",
    "C84_init"
   ],
   "note": "Proved: the penalised objective in counts of cut edges and part sizes for both penalty types, when it is free of penalty, the bound on the imbalance of a best partition, balance for large penalties, the ratio objective against empty parts, the initial samples. REFUTED: with the configured penalty the unbalanced partition is best (C84_default_refuted); the neighbourhood scores ignore the penalty (C84_scores_refuted)."
  },
  {
   "property": "C85",
   "status": "partial",
   "theorems": [
    "C85_field",
    "C85_middle_and_border",
    "C85_centred_refuted",
    "C85_ising_energy",
    "C85_potts_energy",
    "C85_cyclic_refuted",
    "C85_ising_field_law",
    "C85_gibbs_sites",
    "C85_sign",
    "C85_sign_refuted",
    "C85_potts_mu_invisible",
    "C85_potts_field_refuted"
   ],
   "note": "Proved: the field inside and outside the disc, the middle and the border, both energies as counts of equal and unequal neighbours, the law of the samplers that call forward, the limit of a Gibbs run at each site, the sign of the field when mu exceeds init_sigma. REFUTED: the lattice is not cyclic (C85_cyclic_refuted), the disc is not centred on the sites (C85_centred_refuted), the configured noise can turn the field round (C85_sign_refuted), mu has no effect in the Potts model (C85_potts_mu_invisible, C85_potts_field_refuted)."
  },
  {
   "property": "C86",
   "status": "partial",
   "theorems": [
    "C86_models",
    "C86_target",
    "C86_gibbs_site",
    "C86_gibbs_sweeps",
    "C86_block",
    "C86_dmala",
    "C86_dlmc",
    "C86_scores",
    "C86_random_walk",
    "C86_random_walk_refuted",
    "C86_local_step",
    "C86_local_step_smaller",
    "C86_local_step_refuted",
    "C86_gwg",
    "C86_adaptive_gwg",
    "C86_path_auxiliary",
    "C86_adaptive_path_auxiliary"
   ],
   "note": "Proved: the energies of MIS, MaxClique and MaxCut ignore the padding; equal targets; equal laws for Gibbs (sites and sweeps), block Gibbs, DMALA and DLMC runs at given step sizes; GWG and path auxiliary (fixed and adaptive radius) up to 6 k e exp(-1e9)/m per step; the exact law of the random walk (radius shrunk by d/(d+e)) and of the local step size. REFUTED: same radius, different law for the random walk (C86_random_walk_refuted); the local step size is diluted by the padding (C86_local_step_smaller, C86_local_step_refuted). Hamming ball and the locally balanced sampler are not covered."
  },
  {
   "property": "C87",
   "status": "partial",
   "theorems": [
    "C87_one_chain",
    "C87_one_chain_reversible",
    "C87_constant_rate",
    "C87_independence_refuted",
    "C87_dmala_refuted",
    "C87_dlmc_refuted",
    "C87_dlmc_one_chain"
   ],
   "note": "Proved: with one chain per batch the step is the reversible kernel with a state-dependent step size (DMALA and DLMC); with rates whose average does not depend on the state the chains are independent with a constant step size. REFUTED for two chains: the chains influence each other (C87_independence_refuted) and the product of the targets is not preserved, by more than 1/250 (DMALA, n = 3) and 1/2500 (DLMC euler_forward, n = 1/10) of the total weight (C87_dmala_refuted, C87_dlmc_refuted). Several chains: binary samplers only. Whole runs of one chain, binary and categorical: C89_co_one_chain."
  },
  {
   "property": "C88",
   "status": "partial",
   "theorems": [
    "C88_run",
    "C88_whole_run",
    "C88_initial",
    "C88_shipped",
    "C88_not_adaptive",
    "C88_adaptive",
    "C88_path_default",
    "C88_schedule",
    "C88_local_refuted",
    "C88_unknown_balancing",
    "C88_exact_ratios",
    "C88_gwg_categories",
    "C88_fast_path"
   ],
   "note": "Proved for every object except locallybalanced: runs of any length are probability laws on legal batches with the exact counters, every shipped configuration but locallybalanced builds a usable object, and the initial laws are even. REFUTED for the shipped locallybalanced configuration: its step returns two values and the experiments unpack three, so every step raises (C88_local_refuted). Floats and shapes beyond lengths are outside the model; the initial samples of text infilling and of normcut (which are not drawn site by site) are not among the initial laws here."
  },
  {
   "property": "C89",
   "status": "proved",
   "theorems": [
    "C89_step",
    "C89_run",
    "C89_co_one_chain"
   ],
   "note": "One step in any reachable state, and whole runs of the objects without adaptation. The excluded objects are treated elsewhere: the Hamming ball, fixed-length categorical path, categorical GWG and co_opt_prob are refuted in their own properties, adaptive runs as a whole in the property on adaptation. Whole runs of one chain of adaptive DMALA and DLMC under co_opt_prob keep the target, binary and categorical (C89_co_one_chain). Guards of the code set to 0."
  },
  {
   "property": "C90",
   "status": "partial",
   "theorems": [
    "C90_order",
    "C90_files",
    "C90_sizes",
    "C90_sizes_tight",
    "C90_configured",
    "C90_first_solution",
    "C90_configured_refuted",
    "C90_gap_refuted",
    "C90_twitter_refuted",
    "C90_stackable",
    "C90_never_cut",
    "C90_optsicom",
    "C90_random_weights_refuted",
    "C90_reference",
    "C90_mis_ratio",
    "C90_dispatch",
    "C90_prefixes",
    "C90_ba_sizes",
    "C90_ba_density_refuted"
   ],
   "note": "Proved for all folders when the sizes are found by reading; benchmark graphs exactly as in the file; edge arrays of graphs that fit have one length and no graph is cut short. REFUTED for configured sizes, which are not checked against the files (C90_configured_refuted), for the random partitioning graphs, which never read them (C90_gap_refuted), for clique files with fewer solutions than graphs (C90_twitter_refuted), for random weights of the benchmark graphs, which are never applied (C90_random_weights_refuted), and for preferential-attachment names with another attachment number (C90_ba_density_refuted). Pickle contents are given; networkx lists edges in order of insertion in the model."
  },
  {
   "property": "C91",
   "status": "partial",
   "theorems": [
    "C91_infill",
    "C91_forgets",
    "C91_attention",
    "C91_full_mask",
    "C91_masked",
    "C91_heads",
    "C91_scale",
    "C91_normalised",
    "C91_logits_bounded",
    "C91_probability",
    "C91_score",
    "C91_zero_row",
    "C91_mask_token_refuted"
   ],
   "note": "Proved for every network: equality with the plain network, independence of the replaced tokens, attention weights, masks, normalisation, bounds on logits, probabilities and scores. REFUTED: the score of the model is not the masked-language-model score, because the scored position is shown as the all-zero row and not as the mask token (C91_mask_token_refuted; C91_zero_row says when it makes no difference). Real arithmetic; nn.Dense, nn.LayerNorm and the attention of flax are taken from their documentation, the activation is arbitrary, dropout is off as in evaluation; sentences longer than the position table are not modelled."
  },
  {
   "property": "C92",
   "status": "partial",
   "theorems": [
    "C92_run_close",
    "C92_step",
    "C92_run",
    "C92_log_error",
    "C92_support_refuted"
   ],
   "note": "Proved: runs of every usable object with and without the constant of the acceptance rule differ by at most n * B * 2e-24 times the bound of the observable (C92_run_close, samples and state together); with both constants every step in a reachable state, and every run without adaptation, keeps the joint target up to the stated bound. REFUTED: the set of reachable states is not that of the exact rule: a move whose log-acceptance is below ln 1e-24 is never made (C92_support_refuted). The 1e-32 is compared through the invariance of the target only: its effect on the state of the adaptive Langevin samplers is not bounded."
  },
  {
   "property": "C93",
   "status": "partial",
   "theorems": [
    "C93_range",
    "C93_affine",
    "C93_reverse",
    "C93_frozen",
    "C93_negative",
    "C93_cut",
    "C93_mapped",
    "C93_moving_refuted",
    "C93_report",
    "C93_chains",
    "C93_report_frozen",
    "C93_efficiency",
    "C93_efficiency_refuted"
   ],
   "note": "Proved: range, affine and time-reversal invariance, value one for frozen chains, cap at the number of samples for anti-correlated chains, the cut of the sum always happens and is needed (all lags together give denominator 0), range of mean and spread in the report, efficiency at most one and the per-call identity for the default burn-in ratio 1/2. REFUTED: a chain that moves at every step is reported as one sample when its distance to the reference stays constant (C93_moving_refuted); for other ratios the steps are divided by steps * ratio instead of the mixing steps and the efficiency exceeds one (C93_efficiency_refuted). tfp.mcmc.effective_sample_size is modelled from its documentation; a run without mixing steps is not modelled."
  },
  {
   "property": "C94",
   "status": "partial",
   "theorems": [
    "C94_defined",
    "C94_converted",
    "C94_bounded",
    "C94_gradient",
    "C94_density",
    "C94_odds_plain",
    "C94_odds",
    "C94_mean_one_refuted",
    "C94_base_finite"
   ],
   "note": "Proved over the reals: the network is defined for every image size with parameters of the right shapes, equals the torch network after conversion (end to end with C79), is bounded by energy_bound and differentiable in each pixel; the odds of every pixel lie within exp(+-2K) of those of the data mean. REFUTED in rounded arithmetic: a pixel whose data mean is exactly 1 (not clipped in training of the binary image models) makes the energy of every image with that pixel set NaN (C94_mean_one_refuted); C94_base_finite is the condition under which the base is finite. nn.Conv, nn.Dense and swish are written out from the flax documentation; autodiff is not modelled."
  },
  {
   "property": "C95",
   "status": "partial",
   "theorems": [
    "C95_jobs",
    "C95_jobs_count",
    "C95_no_jobs",
    "C95_units",
    "C95_arguments",
    "C95_defaults",
    "C95_folder",
    "C95_results_apart",
    "C95_tuple",
    "C95_unknown_key",
    "C95_wrong_type",
    "C95_classical",
    "C95_graph",
    "C95_infilling",
    "C95_shipped",
    "C95_shipped_jobs",
    "C95_sweeps_run_refuted",
    "C95_sweep_model_refuted",
    "C95_local_graph_refuted",
    "C95_local_folder_refuted",
    "C95_class",
    "C95_class_refuted",
    "C95_accepted",
    "C95_files",
    "C95_sampler",
    "C95_devices"
   ],
   "note": "Proved for all sweep files, command lines and files: jobs, arguments, separate folders, exactly which command lines are accepted (C95_accepted, C95_files), values kept (C95_classical, C95_graph, C95_infilling), the settings of the sampler and the even split over devices (C95_sampler, C95_devices), and for all 1624 jobs of 43 of the 44 shipped sweep files that they start as described (C95_shipped). REFUTED: no job of co/maxcut/optsicom_sampler_sweep starts (C95_sweeps_run_refuted); the Potts sweep over num_categories runs the categorical model (C95_sweep_model_refuted); run_sampling_local.sh with graph_type=er runs the ba graphs (C95_local_graph_refuted); save_dir_name ignores overrides of the temperature (C95_local_folder_refuted); the class of an RBM is chosen before its checkpoint is read (C95_class_refuted). config_flags and ConfigDict are modelled from their documentation; Python repr is a parameter; constructors are given by the keys they read without default; reading graph files and checkpoints succeeds."
  },
  {
   "property": "C96",
   "status": "partial",
   "theorems": [
    "C96_target",
    "C96_weight",
    "C96_ising_lost",
    "C96_fhmm_categories",
    "C96_ratios",
    "C96_shipped",
    "C96_ising_refuted",
    "C96_fhmm_refuted"
   ],
   "note": "Proved for all well-formed sections that the density exists and is the described one (C96_target, C96_weight), and for all jobs of the shipped sweeps of these models that settings reach the model, runs stay legal and every step after the first keeps the described density up to 3e-24 per chain (C96_shipped), except for: Ising couplings that are not whole numbers under samplers evaluating integer samples, where a coupling below one is lost (C96_ising_lost), hidden chains with more than two categories, which follow the persistence effective_stay instead of beta (C96_fhmm_categories), and the Hamming ball and categorical GWG objects, biased on some targets (C73_hamming_ball_refuted, C73_categorical_gwg_refuted). REFUTED for two shipped jobs: the temperature sweep of the Ising model run by random walk samples the uniform distribution (C96_ising_refuted), the four-category hidden chains with beta 0.8 are not sampled (C96_fhmm_refuted). The random numbers of make_init_params and the gradient array are arbitrary."
  },
  {
   "property": "C97",
   "status": "partial",
   "theorems": [
    "C97_value",
    "C97_fails",
    "C97_perfect",
    "C97_copies",
    "C97_copies_refuted",
    "C97_order",
    "C97_more_references_refuted",
    "C97_third",
    "C97_third_refuted",
    "C97_self",
    "C97_self_value",
    "C97_prepare",
    "C97_words",
    "C97_report",
    "C97_entries",
    "C97_case_refuted"
   ],
   "note": "Proved for all texts: values, range, failures, perfect scores, order (C97_value .. C97_order, C97_self, C97_self_value), tokens of the files (C97_prepare, C97_words), the table and its entries (C97_report, C97_entries). REFUTED in four readings: a verbatim copy of a three-word reference scores below 2^-255 (C97_copies_refuted); further references can lower a score (C97_more_references_refuted); the number printed as BLEU-3 ignores trigrams (C97_third_refuted); generated sentences are not lower-cased while the files are, so that copies score 0 (C97_case_refuted). nltk's corpus_bleu (SmoothingFunction method0, default weights) is modelled from its published source; texts are byte strings, so only ASCII white space separates words; float rounding is left out."
  },
  {
   "property": "C98",
   "status": "partial",
   "theorems": [
    "C98_independent",
    "C98_sampling",
    "C98_categ_fhmm_refuted",
    "C98_devices_refuted",
    "C98_graphs",
    "C98_graphs_newer",
    "C98_graphs_refuted",
    "C98_normcut_refuted",
    "C98_ais",
    "C98_ais_newer",
    "C98_ais_refuted",
    "C98_ais_ball_refuted",
    "C98_discipline_graphs",
    "C98_discipline_ais",
    "C98_discipline_sampling_refuted",
    "C98_discipline_path_refuted",
    "C98_seed_refuted",
    "C98_chain_seed",
    "C98_jobs_refuted",
    "C98_groups_refuted"
   ],
   "note": "Proved for the original key derivation (jax_threefry_partitionable off) for all runs of the three experiments (C98_sampling, C98_graphs, C98_ais) and for the newer one under stated conditions (C98_sampling, C98_graphs_newer, C98_ais_newer); one use a key: C98_discipline_graphs, C98_discipline_ais. Independence is meant with respect to a generator giving every key a word of its own (C98_independent: exactly distinct keys). REFUTED: the categorical factorial HMM draws twice with one key (C98_categ_fhmm_refuted); with the newer derivation, where the i-th part of a split equals fold_in(key, i), three or more devices or instances (C98_devices_refuted, C98_graphs_refuted), balanced partition (C98_normcut_refuted) and serial annealing with Gibbs or Hamming-ball samplers (C98_ais_refuted, C98_ais_ball_refuted) repeat keys; the key choosing the saved chains derives the chain (C98_discipline_sampling_refuted, C98_discipline_path_refuted); the seed is ignored and the chain always starts from PRNGKey(10), so jobs and groups of graphs repeat their randomness (C98_seed_refuted, C98_chain_seed, C98_jobs_refuted, C98_groups_refuted). What jax.random derives inside one call is not modelled; text infilling: C68."
  },
  {
   "property": "C99",
   "status": "partial",
   "theorems": [
    "C99_saved",
    "C99_mis",
    "C99_clique",
    "C99_cut",
    "C99_optimum",
    "C99_sample_refuted",
    "C99_shipped",
    "C99_sizes",
    "C99_ready",
    "C99_er_refuted",
    "C99_few_instances",
    "C99_one_by_one",
    "C99_gap_rand_refuted"
   ],
   "note": "Proved for the last group of instances and hence for all when one group holds them (C99_saved, C99_mis, C99_clique, C99_cut, C99_optimum), and that every job of the shipped sweeps over independent sets, cliques and cuts but Optsicom has such settings (C99_shipped, C99_ready). REFUTED: every group overwrites the file, so the shipped sweep over 1000 random graphs reports the last 104 (C99_er_refuted); with more than one but fewer instances than devices `if self.sample_idx:` raises and nothing is saved, which happens in every job of the shipped gap_rand sweep (C99_few_instances, C99_gap_rand_refuted); one instance at a time on several devices ends at the second (C99_one_by_one); the saved best sample need not be feasible with the shipped penalty of 1 (C99_sample_refuted). What the sampler visits is arbitrary."
  },
  {
   "property": "C100",
   "status": "partial",
   "theorems": [
    "C100_saved",
    "C100_unshared",
    "C100_first",
    "C100_no_mean_refuted",
    "C100_chains",
    "C100_mean",
    "C100_exact",
    "C100_below",
    "C100_tail",
    "C100_converges",
    "C100_hamming_refuted",
    "C100_adaptive_refuted",
    "C100_shipped",
    "C100_shipped_block"
   ],
   "note": "Proved for every sampler object: range and number of the values and an exactly unbiased first value (C100_saved, C100_first). Proved for objects with a fixed rule, which includes the block Gibbs jobs of the shipped sweep: independent chains whatever the devices, the mean with explicit error, the bound on the average, the tail and convergence in the number of chains (C100_chains, C100_mean, C100_exact, C100_below, C100_tail, C100_converges, C100_shipped_block). REFUTED for the rest of the shipped sweep, which holds Hamming balls with blocks of ten and adaptive objects (C100_shipped): Hamming balls with blocks of two and more are biased for some energies at every image size and number of chains (C100_hamming_refuted), as is the adaptive random walk (C100_adaptive_refuted). REFUTED for a model without data mean: all values are zero (C100_no_mean_refuted). A batch the devices cannot share saves nothing (C100_unshared). The network and the gradient array are arbitrary functions."
  },
  {
   "property": "C101",
   "status": "partial",
   "theorems": [
    "C101_sentences",
    "C101_each",
    "C101_shape",
    "C101_gibbs",
    "C101_block",
    "C101_dmala",
    "C101_independent_refuted",
    "C101_blank_refuted",
    "C101_entries",
    "C101_keys_refuted",
    "C101_shipped"
   ],
   "note": "Proved for every usable sampler object: number, form and top-k selection of the sentences, and the common law of the resamples (C101_sentences, C101_each). Proved for Gibbs with an explicit rate, for block Gibbs and for non-adaptive DMALA on more than two tokens in the limit: the resamples are jointly close to independent draws from the law of the network (C101_gibbs, C101_block, C101_dmala). REFUTED that resamples are as independent as separate runs: all start from one sample, at every chain length (C101_independent_refuted). REFUTED that the decoded sentences are evaluated: with top-k those after the tenth carry a blank, which concerns all jobs of the shipped sweeps (C101_blank_refuted, C101_shipped). REFUTED that entries have draws of their own: every entry uses key 0 (C101_keys_refuted, C101_entries). A wrong number of positions ends the run (C101_shape). The network, its gradient and the tokenizer are arbitrary functions; limits of adaptive objects, of the categorical path sampler and of categorical GWG are not claimed here (see C73 and C75)."
  },
  {
   "property": "C102",
   "status": "partial",
   "theorems": [
    "C102_read",
    "C102_cfg",
    "C102_shipped",
    "C102_tuple_refuted",
    "C102_name_refuted",
    "C102_dotted"
   ],
   "note": "Proved: plain settings are read back one by one (C102_read), graph settings (C102_cfg), and all settings of all jobs of the shipped sweeps except config.experiment.name (C102_shipped). REFUTED that different settings are read differently: of a list of numbers written as text only the first number is read (C102_tuple_refuted). REFUTED that the sampler is read: config.experiment.name shortens to the same key and wins when listed later (C102_name_refuted; the shipped sweeps list it first)."
  },
  {
   "property": "C103",
   "status": "partial",
   "theorems": [
    "C103_name",
    "C103_tables",
    "C103_order",
    "C103_files",
    "C103_csv",
    "C103_shipped",
    "C103_colour",
    "C103_colour_dlmc",
    "C103_unknown_refuted",
    "C103_figure_refuted",
    "C103_approx_refuted",
    "C103_balancing_refuted"
   ],
   "note": "Proved: names (C103_name), tables and groups (C103_tables), order (C103_order), distinct files for settings without separators (C103_files), csv (C103_csv), one row per run for all shipped sweeps compared by name (C103_shipped), colours (C103_colour, C103_colour_dlmc). REFUTED that no run is left out: samplers of other families vanish (C103_unknown_refuted), a saved figure stops the tool (C103_figure_refuted). REFUTED that runs with different settings are kept apart: approx_with_grad is dropped (C103_approx_refuted). REFUTED that rows carry the name: with key balancing_fn_type a sampler without one loses its last letter (C103_balancing_refuted)."
  },
  {
   "property": "C104",
   "status": "partial",
   "theorems": [
    "C104_tick",
    "C104_tick_tuple",
    "C104_values",
    "C104_bars",
    "C104_labels",
    "C104_missing_refuted",
    "C104_fraction_refuted"
   ],
   "note": "Proved: the tick of a run (C104_tick, C104_tick_tuple), order of the values and ticks (C104_values), bars with one run per tick (C104_bars), labels of balancing functions (C104_labels). REFUTED for missing runs: later results move to the left and the last place shows zero (C104_missing_refuted). REFUTED that different values have different ticks: values are cut to whole numbers, so the shipped sweep over the Ising coupling has one tick and no figure (C104_fraction_refuted)."
  },
  {
   "property": "C105",
   "status": "partial",
   "theorems": [
    "C105_read",
    "C105_comma",
    "C105_table",
    "C105_total",
    "C105_scores",
    "C105_shipped",
    "C105_same",
    "C105_name_refuted",
    "C105_missing_refuted",
    "C105_order_refuted",
    "C105_csv",
    "C105_slash_refuted"
   ],
   "note": "Proved: settings (C105_read), the table (C105_table), when it is written (C105_total), ranges of the scores (C105_scores), the shipped sweeps (C105_shipped), names other than random walk and path auxiliary (C105_same), files (C105_csv). REFUTED that names agree with the other reports: rmw and pafs for rwm and pas, which have no colour there (C105_name_refuted). REFUTED for unfinished runs: one missing file and no table is written (C105_missing_refuted). REFUTED for graphs that list their nodes in another order: the wrong edges are counted (C105_order_refuted). REFUTED for result folders given with a slash at the end: all are written to the same file (C105_slash_refuted)."
  },
  {
   "property": "C106",
   "status": "partial",
   "theorems": [
    "C106_read",
    "C106_bars",
    "C106_load",
    "C106_factor",
    "C106_shipped",
    "C106_single",
    "C106_single_refuted",
    "C106_ratio_refuted",
    "C106_length_refuted",
    "C106_odd_refuted"
   ],
   "note": "Proved: what a run on several devices saved is read back (C106_read), whole runs of even length with half of the chain as burn-in (C106_bars), loading by the tool (C106_load), exactly when the factor is right (C106_factor), that all shipped jobs with an ESS are of this kind (C106_shipped), what is read on a single device (C106_single). REFUTED on a single device: the array is printed with one pair of brackets and the first digit of the mean is cut off (C106_single_refuted). REFUTED for other shares of burn-in (C106_ratio_refuted), for a chain length that was not swept and is not 100000 (C106_length_refuted) and for odd lengths (C106_odd_refuted)."
  },
  {
   "property": "C107",
   "status": "partial",
   "theorems": [
    "C107_table",
    "C107_time",
    "C107_even",
    "C107_shipped",
    "C107_time_refuted",
    "C107_short_refuted"
   ],
   "note": "Proved: mean and deviation of the best values of whole runs (C107_table), exactly when the doubled time is that of all steps (C107_time), the value for steps of equal time (C107_even), the shipped sweeps up to one part in a thousand for such steps (C107_shipped; optsicom jobs do not start, C95). REFUTED for other shares of burn-in and for steps that become faster (C107_time_refuted). REFUTED that every finished run has a row: with a chain shorter than the logging interval the tool stops (C107_short_refuted)."
  },
  {
   "property": "C108",
   "status": "partial",
   "theorems": [
    "C108_read",
    "C108_results",
    "C108_figure",
    "C108_missing",
    "C108_shipped",
    "C108_padding_refuted",
    "C108_band_refuted",
    "C108_first_refuted",
    "C108_last_refuted",
    "C108_unfinished_refuted"
   ],
   "note": "Proved: what is read of unpadded numbers and loaded for a run (C108_read, C108_results), the lines for any clusters whose titles end with the temperature (C108_figure), when there is no figure (C108_missing), and for the two shipped sweeps every run exactly once at its temperature (C108_shipped). REFUTED: numbers padded in front stop the tool (C108_padding_refuted); the band is a tenth of the saved deviation (C108_band_refuted); other sweeps are shown at wrong temperatures (C108_first_refuted, C108_last_refuted); one unfinished run and there is no figure (C108_unfinished_refuted)."
  },
  {
   "property": "C109",
   "status": "partial",
   "theorems": [
    "C109_curves",
    "C109_steps",
    "C109_band",
    "C109_shipped",
    "C109_length_refuted",
    "C109_step_refuted",
    "C109_default_refuted",
    "C109_band_refuted"
   ],
   "note": "Proved: the points of both curves of whole runs (C109_curves), how far a point stands before the step it belongs to (C109_steps), the band for values that are not negative (C109_band), and that all shipped jobs have the right interval and number of points (C109_shipped; optsicom jobs do not start, C95). REFUTED: with 49 logged steps there is no curve (C109_length_refuted); a point stands up to log - 1 steps early (C109_step_refuted); the interval is taken to be 1000 when it is not swept although the shipped settings say 100 (C109_default_refuted); the band leaves out negative values (C109_band_refuted)."
  }
 ]
}