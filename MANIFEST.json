{
 "claims": [
  {
   "property": "C01",
   "status": "proved",
   "theorems": [
    "C01_budget_run",
    "C01_budget_run_costs"
   ],
   "note": ""
  },
  {
   "property": "C02",
   "status": "proved",
   "theorems": [
    "C02_steps_run",
    "C02_numbering_over_any_history"
   ],
   "note": ""
  },
  {
   "property": "C03",
   "status": "proved",
   "theorems": [
    "C03_budget_worker_trajectory",
    "C03_budget_worker_costs",
    "C03_budget_worker_terminates"
   ],
   "note": "The trajectory theorem is for drivers whose finalized_population leaves the state alone; the cost theorem allows state changes."
  },
  {
   "property": "C04",
   "status": "proved",
   "theorems": [
    "C04_time_run_slots",
    "C04_time_run_message_progress",
    "C04_time_run_terminates"
   ],
   "note": ""
  },
  {
   "property": "C05",
   "status": "partial",
   "theorems": [
    "C05_time_run_complete_partial",
    "C05_time_run_complete_refuted"
   ],
   "note": "False when the whole timeout elapses within the first driver step; the partial theorem covers every other run."
  },
  {
   "property": "C06",
   "status": "partial",
   "theorems": [
    "C06_time_worker_partial",
    "C06_time_worker_refuted"
   ],
   "note": "False: the worker reads the driver at delivery time, i.e. after the step during which the slot passed. The partial theorem says exactly which state is stored."
  },
  {
   "property": "C07",
   "status": "proved",
   "theorems": [
    "C07_domination_cmp",
    "C07_dominates_strict_order"
   ],
   "note": ""
  },
  {
   "property": "C08",
   "status": "proved",
   "theorems": [
    "C08_dominance_tests_agree",
    "C08_tolerance"
   ],
   "note": ""
  },
  {
   "property": "C09",
   "status": "proved",
   "theorems": [
    "C09_paretofront_layers"
   ],
   "note": ""
  },
  {
   "property": "C10",
   "status": "proved",
   "theorems": [
    "C10_filter_not_dominated_exact",
    "C10_filter_not_dominated_order_insensitive",
    "C10_filter_not_dominated_members",
    "C10_filter_not_dominated2"
   ],
   "note": ""
  },
  {
   "property": "C11",
   "status": "proved",
   "theorems": [
    "C11_nsgaii_nd_sort",
    "C11_nsls_nd_sort",
    "C11_smsemoa_nd_sort",
    "C11_rank_is_front_number"
   ],
   "note": ""
  },
  {
   "property": "C12",
   "status": "proved",
   "theorems": [
    "C12_theta_sort"
   ],
   "note": ""
  },
  {
   "property": "C13",
   "status": "proved",
   "theorems": [
    "C13_environmental_selection",
    "C13_selection_is_elitist"
   ],
   "note": ""
  },
  {
   "property": "C14",
   "status": "proved",
   "theorems": [
    "C14_nsga_run",
    "C14_nsga_run_with_archive"
   ],
   "note": ""
  },
  {
   "property": "C15",
   "status": "proved",
   "theorems": [
    "C15_crowding",
    "C15_crowding_values"
   ],
   "note": ""
  },
  {
   "property": "C16",
   "status": "proved",
   "theorems": [
    "C16_mutate_genes",
    "C16_mutate_in_box"
   ],
   "note": ""
  },
  {
   "property": "C17",
   "status": "proved",
   "theorems": [
    "C17_crossover"
   ],
   "note": ""
  },
  {
   "property": "C18",
   "status": "proved",
   "theorems": [
    "C18_nsgaiii_variation_fresh",
    "C18_crossover_resets_objectives",
    "C18_mutation_resets_objectives"
   ],
   "note": ""
  },
  {
   "property": "C19",
   "status": "proved",
   "theorems": [
    "C19_move",
    "C19_mutation_genes",
    "C19_mutation_in_box"
   ],
   "note": ""
  },
  {
   "property": "C20",
   "status": "proved",
   "theorems": [
    "C20_cut_and_paste",
    "C20_copy_and_paste",
    "C20_encoding_lossless"
   ],
   "note": ""
  },
  {
   "property": "C21",
   "status": "proved",
   "theorems": [
    "C21_gen_population",
    "C21_own_draws"
   ],
   "note": ""
  },
  {
   "property": "C22",
   "status": "proved",
   "theorems": [
    "C22_exact_in_one_and_two_dimensions"
   ],
   "note": ""
  },
  {
   "property": "C23",
   "status": "partial",
   "theorems": [
    "C23_exact_in_three_dimensions",
    "C23_exact_when_ties_are_in_order_partial",
    "C23_exact_after_sorting_partial",
    "C23_exact_when_first_objectives_differ_partial",
    "C23_exact_in_general_position_partial",
    "C23_four_dimensions_with_ties_refuted",
    "C23_nondominated_front_refuted"
   ],
   "note": "Exact for three objectives and any front. In any number of objectives exact when no point is on the boundary of the reference point and points that agree in the first objective are listed in lexicographic order, duplicates allowed (so after sorting the front, or when the first objectives differ). False otherwise in four or more objectives: the lists break ties differently, nodes are wrongly ignored and the result is too small, also for mutually non-dominated fronts strictly inside the reference point. Missing: which boundary points are harmless."
  },
  {
   "property": "C24",
   "status": "proved",
   "theorems": [
    "C24_remove_reinsert_restores",
    "C24_lists_are_sorted"
   ],
   "note": ""
  },
  {
   "property": "C25",
   "status": "partial",
   "theorems": [
    "C25_never_negative",
    "C25_weakly_dominating_front_is_no_smaller",
    "C25_adding_a_point_never_decreases",
    "C25_only_the_set_of_points_matters",
    "C25_dominated_points_do_not_matter",
    "C25_when_ties_are_in_order_partial",
    "C25_five_objectives_refuted"
   ],
   "note": "Proved for one to three objectives, and in any number when ties in the first objective are listed lexicographically (C25_when_ties_are_in_order_partial). Refuted in five: adding a mutually non-dominated point below the reference point lowers the computed value (C25_five_objectives_refuted)."
  },
  {
   "property": "C26",
   "status": "proved",
   "theorems": [
    "C26_generational_distance_value",
    "C26_inverse_generational_distance_value",
    "C26_generational_distance_zero",
    "C26_inverse_generational_distance_zero",
    "C26_average_hausdorff_distance"
   ],
   "note": ""
  },
  {
   "property": "C27",
   "status": "partial",
   "theorems": [
    "C27_epsilon_of_exchanged_sets_partial",
    "C27_epsilon_refuted"
   ],
   "note": "False: the two sets are exchanged. Proved: the value is the epsilon indicator of the Pareto front with respect to the solution."
  },
  {
   "property": "C28",
   "status": "partial",
   "theorems": [
    "C28_non_domination_ratio",
    "C28_pareto_dominance_indicator_partial",
    "C28_pareto_dominance_indicator_refuted"
   ],
   "note": "The Pareto dominance indicator exceeds 1 when a solution repeats a vector; proved for solutions without repetitions."
  },
  {
   "property": "C29",
   "status": "proved",
   "theorems": [
    "C29_spacing",
    "C29_spacing_of_one_point",
    "C29_extent",
    "C29_extent_monotone",
    "C29_distribution",
    "C29_distribution_range",
    "C29_distribution_infinite"
   ],
   "note": ""
  },
  {
   "property": "C30",
   "status": "proved",
   "theorems": [
    "C30_fitness_separates_nondominated",
    "C30_single_individual_raises"
   ],
   "note": ""
  },
  {
   "property": "C31",
   "status": "proved",
   "theorems": [
    "C31_archive_selection"
   ],
   "note": ""
  },
  {
   "property": "C32",
   "status": "partial",
   "theorems": [
    "C32_omopso_cost_partial",
    "C32_omopso_cost_refuted",
    "C32_smsemoa_cost_partial",
    "C32_smsemoa_cost_refuted",
    "C32_spea2_cost_partial",
    "C32_spea2_cost_refuted"
   ],
   "note": "False for SPEA2, SMS-EMOA and OMOPSO: the charge of a round is decided by its last individual alone, and SMS-EMOA charges the population size for a single evaluation. The partial theorems give the exact charge."
  },
  {
   "property": "C33",
   "status": "proved",
   "theorems": [
    "C33_incremental_fitness",
    "C33_indicator_unique"
   ],
   "note": ""
  },
  {
   "property": "C34",
   "status": "partial",
   "theorems": [
    "C34_charged_individuals_partial",
    "C34_known_individuals_charged_again_refuted"
   ],
   "note": "False: without a fitness archive every individual is charged in every round. The partial theorem gives exactly who is charged."
  },
  {
   "property": "C35",
   "status": "proved",
   "theorems": [
    "C35_removes_a_least_contributor_of_the_worst_front",
    "C35_generation_adds_one_and_removes_one"
   ],
   "note": ""
  },
  {
   "property": "C36",
   "status": "proved",
   "theorems": [
    "C36_hypervolume_never_decreases"
   ],
   "note": "Proved for one to three objectives (where the indicator is exact, C22/C23)."
  },
  {
   "property": "C37",
   "status": "proved",
   "theorems": [
    "C37_candidates_stay_in_the_box",
    "C37_replacement_is_not_dominated",
    "C37_local_search"
   ],
   "note": "local search of one coordinate, the candidates and the whole local search; c * difference is an arbitrary function of the difference"
  },
  {
   "property": "C38",
   "status": "partial",
   "theorems": [
    "C38_selection_partial",
    "C38_no_end_when_everyone_fits",
    "C38_step_ends_iff_somebody_was_replaced",
    "C38_terminates_refuted"
   ],
   "note": "selection has the population size when there are more individuals than places; the while loop never ends when the local search replaced nobody (refuted with a witness)"
  },
  {
   "property": "C39",
   "status": "proved",
   "theorems": [
    "C39_ideal_point_is_least_so_far",
    "C39_normalised_objectives_between_0_and_1",
    "C39_normalised_value"
   ],
   "note": "ideal point over whole runs; normalised objectives in [0,1) and their exact value; objectives are exact numbers"
  },
  {
   "property": "C40",
   "status": "proved",
   "theorems": [
    "C40_reference_points_on_the_simplex"
   ],
   "note": "for all draws strictly between 0 and 1 (the code redraws zeros), real arithmetic"
  },
  {
   "property": "C41",
   "status": "proved",
   "theorems": [
    "C41_clusters_are_nearest_reference_lines",
    "C41_selection"
   ],
   "note": "clusters, fronts and survivors of every step of a run"
  },
  {
   "property": "C42",
   "status": "partial",
   "theorems": [
    "C42_no_dominated_member_refuted",
    "C42_only_the_newcomer_dominates_partial",
    "C42_no_neighbours_partial"
   ],
   "note": "False: the element after a removed one is skipped. Proved: only the newcomer can dominate a member, and the archive is clean when no two neighbours are dominated at once."
  },
  {
   "property": "C43",
   "status": "proved",
   "theorems": [
    "C43_leader_archive_is_bounded",
    "C43_personal_bests_improve",
    "C43_personal_best_step"
   ],
   "note": "whole runs: bound on the leaders, personal bests improve and are never dominated by a visited position"
  },
  {
   "property": "C44",
   "status": "partial",
   "theorems": [
    "C44_archive_is_the_front_refuted",
    "C44_insertion_partial",
    "C44_run_partial",
    "C44_no_dominated_draw_partial"
   ],
   "note": "False: inserting a dominated point deletes the first member that dominates it (the archive can become empty). Proved: the exact effect of an insertion, mutual non-dominance over whole runs, and exactness while no draw is dominated by an earlier one."
  },
  {
   "property": "C45",
   "status": "proved",
   "theorems": [
    "C45_islands_partition"
   ],
   "note": "All populations and positive island counts; exact island sizes. islands_number 0 raises."
  },
  {
   "property": "C46",
   "status": "proved",
   "theorems": [
    "C46_torus_is_valid"
   ],
   "note": "All widths >= 1 and sizes. int(a / b) is modelled as integer division (true below 2^53)."
  },
  {
   "property": "C47",
   "status": "proved",
   "theorems": [
    "C47_migration_conserves",
    "C47_vectors_conserved",
    "C47_migration_exchanges",
    "C47_unbalanced_raises"
   ],
   "note": "Any symmetric in-range topology, any iteration order of its sets, self-loops included. Also proved: exactly who goes where, and that an unbalanced topology makes the migration raise. Islands hold at least migrants_number times their number of neighbours."
  },
  {
   "property": "C48",
   "status": "proved",
   "theorems": [
    "C48_weighted_choice"
   ],
   "note": "Exact: item k is chosen iff the draw is in its interval of cumulative weights; zero-weight items never; the assertion fires iff the draw is >= the total (random.uniform may return the total)."
  },
  {
   "property": "C49",
   "status": "proved",
   "theorems": [
    "C49_cost_is_the_sum",
    "C49_any_schedule",
    "C49_cost_never_decreases"
   ],
   "note": "For any driver whose cost is not changed by exchanging individuals and any completion order. epoch_length 0 raises (last() of an empty sequence)."
  },
  {
   "property": "C50",
   "status": "proved",
   "theorems": [
    "C50_tree_well_formed",
    "C50_nodes_persist"
   ],
   "note": "All nested drivers (arbitrary, may raise), configurations, draws and run lengths. Jobs of one metaepoch run one after the other, as the code waits for each."
  },
  {
   "property": "C51",
   "status": "proved",
   "theorems": [
    "C51_sprouting_limits",
    "C51_release_exactly"
   ],
   "note": "Besides the limits, exactly which delegates become sprouts, in order, and at which nodes."
  },
  {
   "property": "C52",
   "status": "proved",
   "theorems": [
    "C52_cost_is_weighted_sum",
    "C52_step_cost",
    "C52_dead_nodes_are_not_run"
   ],
   "note": "Per step and for whole runs; costs as exact rationals. The cost of a node is its driver's cost counter after the metaepoch."
  },
  {
   "property": "C53",
   "status": "proved",
   "theorems": [
    "C53_some_node_alive",
    "C53_step_returns_or_raises",
    "C53_ripe_means_stagnated",
    "C53_redundant_stay_dead",
    "C53_ripe_is_dead",
    "C53_revival",
    "C53_ratios"
   ],
   "note": "Also that the recursive release always ends, that ripe means stagnated and that redundant nodes keep their results."
  },
  {
   "property": "C54",
   "status": "proved",
   "theorems": [
    "C54_trim_redundant",
    "C54_survivors_apart",
    "C54_killed_exactly",
    "C54_first_survives",
    "C54_centres_are_means"
   ],
   "note": "trim_redundant on any node list, and the whole trimming of a step, in both directions. Distances are exact: squared distance against the square of the minimal distance."
  },
  {
   "property": "C55",
   "status": "proved",
   "theorems": [
    "C55_trim_towards_zero",
    "C55_trim_idempotent",
    "C55_trim_enough_bits",
    "C55_trim_monotone",
    "C55_trim_stays_in_box"
   ],
   "note": "Floats as (sign, binary digits, exponent) exactly as floatextras.as_tuple delivers them; values are exact rationals. Subnormals are covered by 'normal' (leading digit one, or the least exponent)."
  },
  {
   "property": "C56",
   "status": "proved",
   "theorems": [
    "C56_archive_is_a_map",
    "C56_delete_missing_raises"
   ],
   "note": "All histories of stores and deletions by list or tuple keys; the specification reads the history backwards. Values are of any type."
  },
  {
   "property": "C57",
   "status": "proved",
   "theorems": [
    "C57_concatenation",
    "C57_populations"
   ],
   "note": "Plus where each population comes from."
  },
  {
   "property": "C58",
   "status": "proved",
   "theorems": [
    "C58_metaepoch_every_schedule",
    "C58_cost_is_what_drivers_spent"
   ],
   "note": "Every history of requests, every delivery order (per-pair FIFO, as thespian guarantees), every nested driver that does not raise. Metaepoch lengths positive on every level: otherwise max() of an empty list raises. At most three levels, as the supervisor keeps three lists."
  },
  {
   "property": "C59",
   "status": "proved",
   "theorems": [
    "C59_population_every_schedule",
    "C59_status_every_schedule"
   ],
   "note": "The address inside each status is the asker's own, not the node's (node_tasks.py:55-59)."
  },
  {
   "property": "C60",
   "status": "partial",
   "theorems": [
    "C60_redundant_nodes_untouched_partial",
    "C60_redundant_survive_refuted"
   ],
   "note": "False: the groupby iterators are consumed by the log line, so nothing is ever killed; witness with two sprouts at the same point. Proved: the request is always answered and changes no node."
  },
  {
   "property": "C61",
   "status": "partial",
   "theorems": [
    "C61_sprouting_limits_partial",
    "C61_release_exactly",
    "C61_sprout_limit_refuted"
   ],
   "note": "First half false: the number of living sprouts is read once per round and not increased by the sprouts released in it; witness max_sprouts_no=1, sproutiveness=2. Proved: the bound max_sprouts_no-1+sproutiveness, at most sproutiveness per ripe node and none elsewhere, and exactly which delegates become sprouts."
  },
  {
   "property": "C62",
   "status": "proved",
   "theorems": [
    "C62_release_round_order"
   ],
   "note": "The trace of deliveries to nodes is compared with the tree at the beginning of the round."
  },
  {
   "property": "C63",
   "status": "proved",
   "theorems": [
    "C63_revival",
    "C63_some_node_alive"
   ],
   "note": "In reachable states dead nodes are ripe, so all nodes are revived."
  },
  {
   "property": "C64",
   "status": "proved",
   "theorems": [
    "C64_last_layer_wins",
    "C64_prepares_iff_supported"
   ],
   "note": "The layers of factory.py as a function; every option has the value of the last layer that supplies it, recursively for subdrivers; preparation succeeds exactly on the supported configurations."
  },
  {
   "property": "C65",
   "status": "proved",
   "theorems": [
    "C65_each_job_once",
    "C65_all_problems_by_default",
    "C65_budgets_sorted"
   ],
   "note": "The job queue, up to any shuffle, holds each (problem, algorithm, run) exactly once; budgets are sorted."
  },
  {
   "property": "C66",
   "status": "proved",
   "theorems": [
    "C66_id_recognised",
    "C66_first_run_recognised",
    "C66_ids_distinct",
    "C66_found_again",
    "C66_longer_ids_ignored"
   ],
   "note": "Round trip, injectivity, the directory listing as a permutation of the recognised names in order; ids above 9999999 are shown not to be found. Year 1000 to 9999."
  },
  {
   "property": "C67",
   "status": "proved",
   "theorems": [
    "C67_store_then_load",
    "C67_crash_leaves_the_rest",
    "C67_history",
    "C67_stores_never_fail",
    "C67_reaches_are_all"
   ],
   "note": "File system as a map with byte-wise writes; every history of stores into one results directory, each finished or cut off after any step. Hypotheses on pickle: what was pickled is unpickled, a proper prefix is not. Fresh or already laid-out results directory (directories where runs are, no directory named like a result)."
  },
  {
   "property": "C68",
   "status": "partial",
   "theorems": [
    "C68_grouped_refuted",
    "C68_grouped_partial",
    "C68_after_runs",
    "C68_torn_result_raises"
   ],
   "note": "False for arbitrary directory contents: 007.pickle makes the extractor drop the rest of the run silently. Proved for directories whose numbered files have canonical names and complete pickles, with arbitrary other contents, and end to end after any history of finished stores. A torn result makes the extraction raise."
  },
  {
   "property": "C69",
   "status": "proved",
   "theorems": [
    "C69_cache_transparent",
    "C69_right_and_once",
    "C69_queries_keep_results"
   ],
   "note": "Any sequence of queries; parameters compared by equality; metric functions arbitrary (may raise, then nothing is cached). Queries do not change what the extractor returns."
  },
  {
   "property": "C70",
   "status": "partial",
   "theorems": [
    "C70_acceptable",
    "C70_largest",
    "C70_no_results_refuted"
   ],
   "note": "Proved for every non-empty result list whose first metric is the cost; the largest-budget reading needs the list sorted by budget. Refuted for an empty result list, which raises IndexError instead of giving None. Floats are modelled as rationals."
  },
  {
   "property": "C71",
   "status": "partial",
   "theorems": [
    "C71_interval",
    "C71_analysis",
    "C71_single_run_refuted"
   ],
   "note": "Proved for at least two runs (any draws, any number of resamples >= 1). Refuted for a single run: the samples are empty and both ends are -inf."
  },
  {
   "property": "C72",
   "status": "proved",
   "theorems": [
    "C72_never_fails",
    "C72_fences",
    "C72_counts"
   ],
   "note": "numpy.percentile is modelled as linear interpolation on the sorted data; floats as rationals; the square root of the variance is squared out, justified over R in StatBand."
  },
  {
   "property": "C73",
   "status": "proved",
   "theorems": [
    "C73_weak_winners",
    "C73_ranking",
    "C73_points_determined"
   ],
   "note": "Weak winners and the whole award loop of rank; points per algorithm characterised without reference to the loop."
  },
  {
   "property": "C74",
   "status": "partial",
   "theorems": [
    "C74_stops_refuted",
    "C74_no_failure_partial",
    "C74_empty_refuted"
   ],
   "note": "False: the queue stops at the first failing worker (None[-1] in process_result), without summary; proved for every failure pattern. Without failures everything runs once and in order. The behaviour of rx do_action/run is an assumption of the model."
  },
  {
   "property": "C75",
   "status": "proved",
   "theorems": [
    "C75_fitness_respects_dominance"
   ],
   "note": ""
  },
  {
   "property": "C76",
   "status": "partial",
   "theorems": [
    "C76_truncation_removes_one_of_a_closest_pair",
    "C76_archive_is_thinned",
    "C76_lexicographic_tie_breaking_refuted"
   ],
   "note": "One of a closest pair is removed (proved); lexicographic tie breaking is false: comparison stops when no more individuals are tied than levels compared."
  },
  {
   "property": "C77",
   "status": "proved",
   "theorems": [
    "C77_spea2_run",
    "C77_step_selects_from_archive_and_population"
   ],
   "note": ""
  },
  {
   "property": "C78",
   "status": "proved",
   "theorems": [
    "C78_survivors_not_dominated_by_removed"
   ],
   "note": ""
  },
  {
   "property": "C79",
   "status": "partial",
   "theorems": [
    "C79_tournament_partial",
    "C79_tournament_favours_the_fitter_refuted"
   ],
   "note": "False: heads (probability 0.9) returns the less fit individual."
  },
  {
   "property": "C80",
   "status": "proved",
   "theorems": [
    "C80_ibea_run"
   ],
   "note": ""
  },
  {
   "property": "C81",
   "status": "proved",
   "theorems": [
    "C81_smsemoa_run"
   ],
   "note": ""
  },
  {
   "property": "C82",
   "status": "partial",
   "theorems": [
    "C82_last_front_partial",
    "C82_keeps_extremes_refuted"
   ],
   "note": "exact account of how the last front is cut; the claim is refuted because running minima and maxima are collected, not only the final ones"
  },
  {
   "property": "C83",
   "status": "proved",
   "theorems": [
    "C83_nsls_run"
   ],
   "note": "whole runs; non-termination of a step is characterised in C38"
  },
  {
   "property": "C84",
   "status": "proved",
   "theorems": [
    "C84_nsgaiii_run",
    "C84_no_end_below_two_individuals"
   ],
   "note": "whole runs; non-termination below two individuals is a finding"
  },
  {
   "property": "C85",
   "status": "partial",
   "theorems": [
    "C85_archive_covers_partial",
    "C85_run_covers_partial",
    "C85_archive_covers_refuted"
   ],
   "note": "True with eta = 0; with the code's eta = 0.0075 the archive can drift to a point dominated by an earlier one (refuted with three objectives)."
  },
  {
   "property": "C86",
   "status": "partial",
   "theorems": [
    "C86_prune_partial",
    "C86_crowding_values",
    "C86_followed_leader",
    "C86_keeps_extremes_refuted"
   ],
   "note": "False: the member removed always has the least last objective, whatever its crowding; exact account in the partial theorem."
  },
  {
   "property": "C87",
   "status": "partial",
   "theorems": [
    "C87_omopso_run",
    "C87_step_after_assigning_population_refuted"
   ],
   "note": "whole runs; a step after assigning driver.population raises (theorem C87_step_after_assigning_population_refuted), so the last sentence of the property is false"
  },
  {
   "property": "C88",
   "status": "partial",
   "theorems": [
    "C88_state_stays_bounded_refuted",
    "C88_copies_at_most_one_per_step_partial"
   ],
   "note": "False: every improvement deep-copies the particle including its previous best; the chain has up to one level per step, and a run reaching that is given for every length."
  },
  {
   "property": "C89",
   "status": "partial",
   "theorems": [
    "C89_torus_neighbours_partial",
    "C89_torus_misses_a_link_refuted",
    "C89_torus_connected_refuted"
   ],
   "note": "False when width < size < 2*width: islands 0 and width are not linked, and for size = width + 1 the last island has no neighbour at all. Proved: exact adjacency of every other pair, connectivity for all other sizes."
  },
  {
   "property": "C90",
   "status": "proved",
   "theorems": [
    "C90_step_is_epochs_then_migration",
    "C90_imga_run"
   ],
   "note": "Composition of the IMGA and NSGA-II models; reported cost is 0 before the first step. Trim functions must keep vectors in the box; IMGA passes none."
  },
  {
   "property": "C91",
   "status": "partial",
   "theorems": [
    "C91_trimmed_points_within_bounds_refuted",
    "C91_trimmed_points_within_bounds_partial"
   ],
   "note": "Refuted (bounds 1.5 and 2 with one bit: 1.75 becomes 1). Holds when each bound is zero, on the far side of zero or itself fits the bit count."
  },
  {
   "property": "C92",
   "status": "proved",
   "theorems": [
    "C92_grace_period"
   ],
   "note": "Two steps from the state in which the node is new."
  },
  {
   "property": "C93",
   "status": "proved",
   "theorems": [
    "C93_new_nodes_explore"
   ],
   "note": "Every new node of every step."
  },
  {
   "property": "C94",
   "status": "proved",
   "theorems": [
    "C94_never_raises",
    "C94_nsgaii_keeps_contract",
    "C94_hgs_over_nsgaii"
   ],
   "note": "General driver contract, its instance NSGA-II (without fitness archive), and HGS over NSGA-II. With the default metaepoch_len=5 the constructor raises TypeError (it indexes the integer), so lists are assumed."
  },
  {
   "property": "C95",
   "status": "proved",
   "theorems": [
    "C95_stagnating_nodes_ripen"
   ],
   "note": ""
  },
  {
   "property": "C96",
   "status": "partial",
   "theorems": [
    "C96_named_algorithms_run_refuted",
    "C96_listed_names_run_partial"
   ],
   "note": "Refuted: a metaalgorithm combination that is not in run_config.algorithms is silently dropped, and no --algo runs nothing. Partial: names in the list are run."
  },
  {
   "property": "C97",
   "status": "proved",
   "theorems": [
    "C97_listed_algorithms_construct"
   ],
   "note": "Checked for the whole configuration table (kernel computation over the finite table, quantified over problems' dimensions and random draws)."
  },
  {
   "property": "C104",
   "status": "proved",
   "theorems": [
    "C104_run_directories_distinct"
   ],
   "note": "Any clock, any draws, up to 1000000 repetitions."
  },
  {
   "property": "C105",
   "status": "proved",
   "theorems": [
    "C105_id_order_is_time_order"
   ],
   "note": "Order equivalence for all fixed-width dates and numbers 1 to 9999999."
  },
  {
   "property": "C108",
   "status": "partial",
   "theorems": [
    "C108_pairing_refuted",
    "C108_pairing_partial"
   ],
   "note": "False: run numbers come from the unsorted directory listing on one side and from the sorted one on the other. Proved if the listing is sorted and holds only runs."
  },
  {
   "property": "C109",
   "status": "partial",
   "theorems": [
    "C109_metric_follows_result_refuted",
    "C109_torn_cache_stays"
   ],
   "note": "False on both counts: stale value after a second store (witness), and a torn cache file raises for every later query (proved for every cut)."
  },
  {
   "property": "C106",
   "status": "proved",
   "theorems": [
    "C106_flag",
    "C106_ten_runs",
    "C106_few_far"
   ],
   "note": "Standard deviation over R, so the three real axioms are used."
  },
  {
   "property": "C107",
   "status": "partial",
   "theorems": [
    "C107_report_refuted",
    "C107_report_partial"
   ],
   "note": "False on three counts, with a witness; the part that holds is proved."
  },
  {
   "property": "C101",
   "status": "partial",
   "theorems": [
    "C101_fitnesses",
    "C101_lists_partial",
    "C101_imga_refuted"
   ],
   "note": "Proved for all drivers returning lists; false for IMGA, whose itertools.chain is exhausted before it is stored."
  },
  {
   "property": "C102",
   "status": "partial",
   "theorems": [
    "C102_same_process_refuted",
    "C102_only_ratios_partial",
    "C102_no_revival_partial"
   ],
   "note": "False: HGS halves the list in run_config in place (witness: the second run ends with another population). Proved: this is the only influence among classic HGS runs, the ratios are halved at most once per earlier step, and there is none without a revival."
  },
  {
   "property": "C103",
   "status": "partial",
   "theorems": [
    "C103_budget_not_spread_refuted",
    "C103_top_level_progress"
   ],
   "note": "False for every nesting: IMGA spreads the budget in its constructor, before it is known, and HGS not at all."
  },
  {
   "property": "C110",
   "status": "partial",
   "theorems": [
    "C110_fronts_optimal_partial",
    "C110_zdt3_partial",
    "C110_zdt3_refuted",
    "C110_uf11_refuted",
    "C110_uf6_refuted",
    "C110_uf9_refuted",
    "C110_uf8_uf10_refuted",
    "C110_uf8_uf10_partial",
    "C110_ewa_refuted"
   ],
   "note": "True of ZDT1, ZDT2, ZDT4, ZDT6, UF1-UF5, UF7 and ackley. False of ZDT3 (a published grid point just past a minimum is dominated), UF6 (sample runs past the segments), UF8 and UF10 (cube root instead of square root), UF9 (negative objective), EWA1 and EWA2 (origin unattainable), UF11 (a line of the data file is dominated by a wide margin). For ZDT3 also attainability and mutual non-dominance. The fronts of kursawe and UF12 are data files and are not judged. Exact real arithmetic."
  },
  {
   "property": "C111",
   "status": "partial",
   "theorems": [
    "C111_fronts_cover_partial",
    "C111_uf8_uf10_refuted"
   ],
   "note": "Proved with resolution 1/149 for ZDT1, ZDT2, ZDT4, UF1-UF4, UF6, UF7, 1/80 for ZDT3, 1/11 for UF9, 1/8 for ZDT6 and exactly for UF5, ackley, EWA1 and EWA2. False of UF8 and UF10: even within 0.29 the published points do not cover an attainable one. Missing: kursawe, UF11, UF12, whose fronts are data files."
  },
  {
   "property": "C112",
   "status": "proved",
   "theorems": [
    "C112_objectives_defined",
    "C112_rotated_defined"
   ],
   "note": "All problems, with UF11 and UF12 whatever their published front. Exact real arithmetic."
  },
  {
   "property": "C113",
   "status": "proved",
   "theorems": [
    "C113_mutation",
    "C113_larger_draw",
    "C113_extreme_draws",
    "C113_larger_eta",
    "C113_mirror",
    "C113_polynomial_law"
   ],
   "note": "Real arithmetic; the draw 1 is included although random() never returns it. NSGA-III's copy of the formula is the same."
  },
  {
   "property": "C114",
   "status": "proved",
   "theorems": [
    "C114_crossover",
    "C114_larger_draw",
    "C114_polynomial_law",
    "C114_mirror"
   ],
   "note": "Real arithmetic; in floating point 0.0 ** -x or overflow of pow are not modelled."
  },
  {
   "property": "C115",
   "status": "proved",
   "theorems": [
    "C115_non_uniform_mutation",
    "C115_cools_down"
   ],
   "note": "The operator itself; OMOPSO.step never applies it because the map object is not consumed (see the findings)."
  },
  {
   "property": "C116",
   "status": "proved",
   "theorems": [
    "C116_mating_tournament"
   ],
   "note": ""
  },
  {
   "property": "C117",
   "status": "proved",
   "theorems": [
    "C117_jgbl_step",
    "C117_jgbl_run",
    "C117_jgbl_run_with_archive"
   ],
   "note": ""
  },
  {
   "property": "C118",
   "status": "proved",
   "theorems": [
    "C118_table_and_ranking"
   ],
   "note": ""
  },
  {
   "property": "C119",
   "status": "proved",
   "theorems": [
    "C119_hgs_trimming",
    "C119_nsgaii",
    "C119_jgbl",
    "C119_spea2",
    "C119_ibea",
    "C119_smsemoa",
    "C119_nsls",
    "C119_nsgaiii",
    "C119_omopso"
   ],
   "note": "The statements are about runs that return; that runs return is shown by C14, C77, C80, C81, C83, C84, C87 and C117. Trimming functions are assumed to round every gene on its own (NSLS puts single genes back after trimming)."
  },
  {
   "property": "C120",
   "status": "proved",
   "theorems": [
    "C120_indicator_is_current"
   ],
   "note": "One problem directory, no second process writing meanwhile; the listing order of the directory is assumed stable while no file is added."
  },
  {
   "property": "C121",
   "status": "partial",
   "theorems": [
    "C121_interruption_partial",
    "C121_interrupted_write_refuted"
   ],
   "note": "Interruptions while removing are harmless (proved); an interruption of save_file is not: pickle's EOFError and UnpicklingError are not IOErrors, so the load at metrics_processor.py:229 raises in every later evaluation until the file is removed by hand."
  },
  {
   "property": "C122",
   "status": "partial",
   "theorems": [
    "C122_removed_results_refuted"
   ],
   "note": "Refuted: the cache file is compared by its solutions only, not by their keys."
  },
  {
   "property": "C123",
   "status": "partial",
   "theorems": [
    "C123_nsgaii",
    "C123_jgbl",
    "C123_ibea",
    "C123_omopso",
    "C123_spea2",
    "C123_smsemoa",
    "C123_nsgaiii",
    "C123_nsls_partial",
    "C123_nsls_refuted"
   ],
   "note": "Refuted for NSLS: both individuals optimal makes next_generation loop for ever (C38) inside a metaepoch; runs of NSLS that end are within the bounds (C123_nsls_partial)."
  },
  {
   "property": "C124",
   "status": "partial",
   "theorems": [
    "C124_ibea",
    "C124_smsemoa",
    "C124_nsgaii_unbeaten",
    "C124_jgbl_unbeaten",
    "C124_nsgaii_members_refuted",
    "C124_omopso_refuted",
    "C124_spea2_members",
    "C124_spea2_refuted"
   ],
   "note": "Holds for IBEA and SMS-EMOA. NSGA-II and JGBL: unbeaten, but the front is that of parents and offspring and a delegate need not have survived. SPEA2: members, but a spacious archive holds dominated vectors and all are nominated. OMOPSO nominates the whole swarm."
  },
  {
   "property": "C125",
   "status": "partial",
   "theorems": [
    "C125_exact_when_nonnegative",
    "C125_exact_on_benchmarks",
    "C125_within_error",
    "C125_clear_wins_are_seen",
    "C125_refuted",
    "C125_kursawe_maximised_refuted"
   ],
   "note": "Holds for problems with non-negative objectives (seventeen of the benchmarks). Refuted for kursawe and ZDT3: math.fabs turns negative objectives over, also with error 0, so that dominating vectors are reported as dominated; on kursawe the first objective is maximised."
  },
  {
   "property": "C126",
   "status": "proved",
   "theorems": [
    "C126_nsgaii",
    "C126_jgbl",
    "C126_spea2",
    "C126_ibea",
    "C126_smsemoa",
    "C126_omopso",
    "C126_nsgaiii",
    "C126_nsls"
   ],
   "note": "Numbers are integers times a fixed unit; trim_genes is the model of trim_vector on them (C119)."
  },
  {
   "property": "C127",
   "status": "partial",
   "theorems": [
    "C127_jgbl",
    "C127_spea2",
    "C127_smsemoa",
    "C127_omopso",
    "C127_nsgaiii",
    "C127_ibea",
    "C127_nsls_partial",
    "C127_migrants_arrive",
    "C127_nsls_refuted"
   ],
   "note": "Refuted for NSLS, whose step can hang (C38); for runs of NSLS that end everything but the cost is proved (C127_nsls_partial). NSGA-III and NSLS need two vectors per island, as do SPEA2 and SMS-EMOA. C90 is the same for NSGA-II."
  },
  {
   "property": "C128",
   "status": "partial",
   "theorems": [
    "C128_nsgaiii_refuted",
    "C128_ibea_refuted",
    "C128_ibea_survivors",
    "C128_ibea_without_migration"
   ],
   "note": "Refuted: NSGA-III's ideal point and IBEA's ranges do not include immigrants. The part about domination holds for IBEA whatever the ranges (C128_ibea_survivors)."
  },
  {
   "property": "C129",
   "status": "partial",
   "theorems": [
    "C129_violins",
    "C129_left_out_refuted"
   ],
   "note": "What is drawn is proved; refuted in that SPEA2 and SMSEMOA (alone or under a metaalgorithm), which a run without options stores results of, have no place in the legend and are silently left out. Whether matplotlib can draw a set of violins is an argument of the model (LinAlgError)."
  },
  {
   "property": "C130",
   "status": "partial",
   "theorems": [
    "C130_curves",
    "C130_visible_partial",
    "C130_visible_refuted",
    "C130_unknown_algorithm",
    "C130_default_algorithms_refuted",
    "C130_cost_curves"
   ],
   "note": "Holds for stores without the algorithms outside the legend. Refuted: one value of SPEA2 or SMSEMOA raises KeyError (C130_unknown_algorithm, C130_default_algorithms_refuted), and the visible range ends where the first series ends (C130_visible_refuted; all points visible if all series end together, C130_visible_partial). pictures_from_stats is not reachable from the command line."
  },
  {
   "property": "C131",
   "status": "partial",
   "theorems": [
    "C131_summary",
    "C131_values",
    "C131_uneven",
    "C131_unknown_problem",
    "C131_total_refuted",
    "C131_hypervolume_refuted"
   ],
   "note": "Holds for even_metrics and the listed problems. Refuted: ValueError for a problem without a score in a metric met before, and for kursawe and ackley (C131_total_refuted); the hypervolume picture starts at 0.98 and hides an algorithm with half the best value (C131_hypervolume_refuted). Algorithms outside the legend count in the largest score but are not drawn."
  },
  {
   "property": "C132",
   "status": "partial",
   "theorems": [
    "C132_best_fronts",
    "C132_other_runs_unused",
    "C132_pieces",
    "C132_no_gap",
    "C132_gap_drawn_refuted",
    "C132_left_out_refuted"
   ],
   "note": "The drawn population is the first run of the accepted result (C132_other_runs_unused). Refuted: SMSEMOA is left out; a gap right after the first point of a piece is bridged. An unbroken front raises IndexError (C132_no_gap)."
  },
  {
   "property": "C133",
   "status": "proved",
   "theorems": [
    "C133_highlighted"
   ],
   "note": "Not reachable from the command line. Fitness values are integers (times a fixed unit) as in C10."
  },
  {
   "property": "C134",
   "status": "proved",
   "theorems": [
    "C134_two_levels_at_most"
   ],
   "note": "IMGA over HGS and the like cannot be prepared: no customisation function exists for the longer path."
  },
  {
   "property": "C135",
   "status": "proved",
   "theorems": [
    "C135_operators_fit_the_problem"
   ],
   "note": "Over the repository's own tables; the example shows two levels."
  },
  {
   "property": "C136",
   "status": "proved",
   "theorems": [
    "C136_rounded_mutation"
   ],
   "note": "Any monotone rounding with the properties in RndSpec.v; double precision (round to nearest even, no overflow in + - * /) has them (RndIeee.v, with Flocq). Of pow only enclosures are assumed."
  },
  {
   "property": "C137",
   "status": "proved",
   "theorems": [
    "C137_rounded_crossover"
   ],
   "note": "As C136."
  },
  {
   "property": "C138",
   "status": "proved",
   "theorems": [
    "C138_rounded_non_uniform"
   ],
   "note": "As C136."
  },
  {
   "property": "C139",
   "status": "proved",
   "theorems": [
    "C139_uniform_stays_in_the_box"
   ],
   "note": "Round to nearest even, 53 bits, exponents down to -1074, no overflow: (b - a) must be finite."
  },
  {
   "property": "C140",
   "status": "partial",
   "theorems": [
    "C140_without_nan",
    "C140_with_nan",
    "C140_filtered",
    "C140_antisymmetry_refuted",
    "C140_agreement_refuted",
    "C140_omopso_order_refuted"
   ],
   "note": "Flocq's binary_float 53 1024. False with nan for domination_cmp (each of two vectors is said to be dominated by the other) and for OMOPSO's test, which ignores nan coordinates and is then not transitive."
  },
  {
   "property": "C141",
   "status": "proved",
   "theorems": [
    "C141_slots_in_doubles",
    "C141_messages_in_doubles",
    "C141_terminates_in_doubles",
    "C141_no_time_lost"
   ],
   "note": "Rounding to nearest even, 53 bits (RndIeee.v, Flocq); no overflow since sums stay below 2^52. CPython's float // is modelled with its fmod and its correction steps."
  },
  {
   "property": "C142",
   "status": "partial",
   "theorems": [
    "C142_crash_loses_nothing",
    "C142_normal_end",
    "C142_rerun_completes",
    "C142_existing_pickles_kept_refuted"
   ],
   "note": "Crash of the process; loss of unsynchronised data by the system is not modelled. False of pickles that already exist: a JSON file of the same name overwrites them (refuted with witness)."
  },
  {
   "property": "C143",
   "status": "proved",
   "theorems": [
    "C143_deletes_only",
    "C143_normal_end",
    "C143_cache_goes_with_result"
   ],
   "note": "int() on ASCII text. The limit 4500 is as in the code."
  },
  {
   "property": "C144",
   "status": "proved",
   "theorems": [
    "C144_summary",
    "C144_stray_file_stops_every_report"
   ],
   "note": "Each store finished; crashes during a store are in C67. The problem modules are an oracle (which names can be imported)."
  },
  {
   "property": "C145",
   "status": "partial",
   "theorems": [
    "C145_merged_partial",
    "C145_any_message_refuted"
   ],
   "note": "Queue messages arrive in an interleaving of the providers' writes. Needs that no provider emits the string 'end' (refuted otherwise); if a provider fails the merged observable never completes, which is part of the theorem."
  },
  {
   "property": "C146",
   "status": "partial",
   "theorems": [
    "C146_renice_partial",
    "C146_same_priority_refuted"
   ],
   "note": "False as stated (refuted): all simulations run in one process and os.nice adds up. The partial theorem gives the niceness of each."
  },
  {
   "property": "C147",
   "status": "partial",
   "theorems": [
    "C147_progress_partial",
    "C147_share_done_refuted",
    "C147_remaining_time_partial",
    "C147_remaining_time_refuted",
    "C147_running_times"
   ],
   "note": "Exact times instead of microseconds and doubles. The share and the remaining time are wrong as reported (refuted; partial theorems say by how much and when the printed time is right); the table of running times is right."
  },
  {
   "property": "C148",
   "status": "partial",
   "theorems": [
    "C148_any_schedule",
    "C148_same_as_in_turn",
    "C148_no_waiting",
    "C148_reader_partial",
    "C148_report_meanwhile_refuted"
   ],
   "note": "pathlib's mkdir is modelled call by call. The last sentence is false (refuted): a report that meets a half-written file raises; the partial theorem says what a reader can get."
  },
  {
   "property": "C149",
   "status": "partial",
   "theorems": [
    "C149_together_partial",
    "C149_complete_file",
    "C149_value_refuted"
   ],
   "note": "The first sentence half is proved for every schedule. The second is false without a complete file at the start (refuted): a process may open the file another has just emptied. The partial theorem says what it can then get; C149_complete_file proves it when the file is there."
  },
  {
   "property": "C150",
   "status": "partial",
   "theorems": [
    "C150_clear_partial",
    "C150_raises",
    "C150_results_dir_refuted"
   ],
   "note": "'wherever the results directory lies' is false (refuted): the pattern is matched against the whole path. C150_raises says precisely when it raises; the partial theorem covers all other trees. POSIX file names; bracket expressions of fnmatch are not modelled."
  },
  {
   "property": "C151",
   "status": "partial",
   "theorems": [
    "C151_one_command",
    "C151_options",
    "C151_budget",
    "C151_time_partial",
    "C151_order_refuted",
    "C151_optional_refuted",
    "C151_directory_refuted"
   ],
   "note": "docopt 0.6.2 (pinned in requirements.txt) is modelled from its published algorithm: parse_argv with clusters, '=' and cut-off long names, and the matching of the usage patterns; the parsing of the docstring itself is done by hand. False are: the order of --timeout and --step (refuted), leaving one out (refuted), --dir for summary, rank, rank_details, table (refuted)."
  },
  {
   "property": "C152",
   "status": "partial",
   "theorems": [
    "C152_hypervolume_partial",
    "C152_dominance_indicator_partial",
    "C152_distances_partial",
    "C152_winner_refuted"
   ],
   "note": "True for hypervolume with one to three objectives (strictly, below the reference point 50) and for the dominance indicator when the winner holds no vector twice; for the distances only weaker facts hold (supersets, results on the front). Refuted for each of the six metrics by a pair of results where the outperformed one wins; for hypervolume this needs five objectives (UF11, UF12), where adding a non-dominated point lowers the computed value. One run is compared; the rankings use means over runs."
  },
  {
   "property": "C153",
   "status": "proved",
   "theorems": [
    "C153_details",
    "C153_table",
    "C153_victories_determined",
    "C153_only_budget_40",
    "C153_other_directories"
   ],
   "note": "detailed_rank and table_rank as functions of the contents of the directories (what each_result yields). LaTeX text of the rows is represented by its data; logging and timing are left out. Directories are assumed to hold different names, non-empty run lists and no negative metric values."
  },
  {
   "property": "C154",
   "status": "proved",
   "theorems": [
    "C154_report",
    "C154_every_result_once",
    "C154_listed_exactly",
    "C154_aborted"
   ],
   "note": "The printed text is a sequence of items; column widths, colours and number formats are left out. Exact rational arithmetic for the figures, except that the comparison with three standard deviations is about the real square root. The pool's map keeps the order (multiprocessing is trusted)."
  },
  {
   "property": "C155",
   "status": "partial",
   "theorems": [
    "C155_shut_down_once",
    "C155_result",
    "C155_contained",
    "C155_interruption",
    "C155_every_driver_of_the_queue",
    "C155_actor_system_partial",
    "C155_actor_system_left_running_refuted",
    "C155_actor_left_refuted"
   ],
   "note": "The last sentence is false (refuted twice): one failing simulation ends the queue before the actor system is shut down, and a constructor that raises after creating its actor leaves it running. C155_actor_system_partial says exactly when the system is shut down. Log lines are left out; the summary is assumed not to raise."
  },
  {
   "property": "C156",
   "status": "partial",
   "theorems": [
    "C156_exact_partial",
    "C156_rounded_constants_partial",
    "C156_uf6_thirty_gaps_partial",
    "C156_uf6_refuted",
    "C156_uf8_to_uf10_other_variables_partial",
    "C156_uf8_to_uf10_refuted"
   ],
   "note": "Exact for UF1-UF5, UF7, ZDT4, Kursawe and Ackley; ZDT1-3 and ZDT6 within the error of their rounded constants. False of UF6 (thirty gaps instead of two) and of UF8-UF10 (each objective gets the variables of the other two): refuted, and what they compute instead is proved. Missing: UF11 and UF12 (the published rotated DTLZ functions are not restated), EWA1 and EWA2 (not published elsewhere). Real arithmetic; UF5 has 10 variables where CEC 2009 uses 30. The published formulas were restated from memory (no network), so ProbPubSpec is part of what a reader has to check."
  },
  {
   "property": "C157",
   "status": "proved",
   "theorems": [
    "C157_fitness",
    "C157_selection"
   ],
   "note": "Real arithmetic. Unions of fewer than two individuals are left out (the k-th neighbour does not exist there). The published formula was restated from memory, so SpeaFitSpec is part of what a reader has to check."
  },
  {
   "property": "C158",
   "status": "proved",
   "theorems": [
    "C158_uniform",
    "C158_chances_are_unique",
    "C158_no_objective_is_favoured"
   ],
   "note": "Exact arithmetic; random.random() is taken as uniform on (0, 1) (zero is drawn again by the code). Chances are iterated Riemann integrals (Coquelicot), proved unique. That the threshold sets determine the distribution is a remark, not part of the theorem."
  },
  {
   "property": "C159",
   "status": "proved",
   "theorems": [
    "C159_uniform"
   ],
   "note": "Exact arithmetic (rounding: C139); random.random() is taken as uniform on (0, 1). Chances as in C158."
  },
  {
   "property": "C160",
   "status": "partial",
   "theorems": [
    "C160_nsgaii",
    "C160_nsgaii_prefers_the_better",
    "C160_spea2",
    "C160_ibea_partial",
    "C160_ibea_prefers_the_fitter_refuted"
   ],
   "note": "NSGA-II and SPEA2 proved with exact chances. False of IBEA: with probability 0.9 the less fit one wins (C79), so the less fit of any two survivors is strictly the likelier parent (proved for every population). Draws are uniform and independent; distances in exact arithmetic."
  },
  {
   "property": "C161",
   "status": "proved",
   "theorems": [
    "C161_mutation",
    "C161_neither_direction_is_favoured",
    "C161_unchanged"
   ],
   "note": "Exact arithmetic (with rounding a touched gene may also keep its value); random.random() is taken as uniform on (0, 1). Chances are the iterated integrals of C158."
  },
  {
   "property": "C162",
   "status": "proved",
   "theorems": [
    "C162_parents_are_treated_alike",
    "C162_inheritance"
   ],
   "note": "Exact arithmetic; random.random() is taken as uniform on (0, 1). Genes of the parents within EPSILON of each other are copied from the chosen parent (C114)."
  },
  {
   "property": "C163",
   "status": "proved",
   "theorems": [
    "C163_draws",
    "C163_unbiased",
    "C163_variance"
   ],
   "note": "Exact arithmetic. The code uses k = int(0.66 N) for N values, so its intervals are those of about two thirds of the data (see DESIGN.md)."
  },
  {
   "property": "C164",
   "status": "partial",
   "theorems": [
    "C164_emigrant",
    "C164_better_fronts",
    "C164_better_individual_refuted"
   ],
   "note": "The fronts and the chance of each are proved for every population; that a dominating individual is at least as likely to emigrate is refuted by a population of four. Draws are exact: random.uniform(0, total) is total times a rational u in [0, 1)."
  },
  {
   "property": "C165",
   "status": "partial",
   "theorems": [
    "C165_leader_partial",
    "C165_sparse_places_refuted"
   ],
   "note": "The chances are proved for every archive; that leaders in sparse places are preferred is refuted for every pair of leaders whose distances differ, because the tournament takes the smallest crowding distance."
  },
  {
   "property": "C166",
   "status": "proved",
   "theorems": [
    "C166_speed_is_bounded",
    "C166_bound_is_sharp",
    "C166_resting_particle",
    "C166_reached"
   ],
   "note": "Exact real arithmetic, one coordinate (coordinates do not interact); trimming functions and mutation (which never takes place, C167) are left out."
  },
  {
   "property": "C167",
   "status": "partial",
   "theorems": [
    "C167_shared_coordinate_refuted"
   ],
   "note": "Refuted for every run: the mutation operators are wrapped in map() objects that are never consumed (OMOPSO.py:165, 174). The trimming function must keep the shared value."
  },
  {
   "property": "C168",
   "status": "proved",
   "theorems": [
    "C168_cut_and_paste",
    "C168_cut_and_paste_conserves",
    "C168_copy_and_paste"
   ],
   "note": "Exact rational arithmetic. Continues C20, which gives lengths and bounds only."
  }
 ]
}