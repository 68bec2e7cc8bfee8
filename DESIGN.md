# Formal model of Soamid/evogil in Rocq (Coq 8.16.1)

Source: `/repo` (Python), read as text and never executed. All Coq files are in `rocq/theories` (logical name `Verif`).

## 1. Layout

For each area `X` of the code:

* `XModel.v` - executable Gallina model, function by function, each definition citing file and lines. No proofs.
* `XSpec.v` (or `Spec.v` for shared notions) - the small independent specification the theorems are stated against.
* `XProofs.v` and further files - lemmas.
* `XProps.v` - the property theorems, followed by `Print Assumptions`, and `Example`s showing that non-trivial instances meet the hypotheses.

Exceptions are values (`option`/result types), loops are structural recursion or explicit fuel with a distinct out-of-fuel value, randomness, clocks, thread, message and set-iteration order are oracle arguments universally quantified in the theorems. There are no axioms, functors or module types of our own; `Variable`s occur in sections only and become explicit quantifiers.

## 2. Number model

Every finite IEEE double is an integer multiple of 2^-1074. Objective values, coordinates and costs that are only compared, negated, selected or clamped are modelled **exactly** by `Z` (unit 2^-1074). Where the code adds, subtracts or multiplies such values the model uses exact integer arithmetic: rounding, NaN and infinities are not modelled (except where minus infinity is a value the code produces deliberately). Where it divides we use `Q`; where it takes square roots or exponentials we use `R`. So every theorem whose model computes with `+ - * /` holds for exact arithmetic; floating-point rounding can break equalities and comparisons at the boundary.

## 3. The properties

For each: how it is modelled and proved, the outcome, and its theorems (file in parentheses). `_refuted` theorems show that the code violates the property; `_partial` theorems prove part of it.

* **C01 A budget run stops at the first step that reaches the budget** (proved). Driver as a Section-variable state machine (state, step, cost). BudgetRun as a fuelled loop; proved equal to the trajectory prefix by induction; out of fuel is an error value excluded by the statement.
  Theorems: `C01_budget_run`, `C01_budget_run_costs` (RunProps.v).
* **C02 A steps run performs exactly the requested number of steps, numbered consecutively** (proved). StepsRun as recursion on n over the counting wrapper; induction on n and on the list of earlier runs.
  Theorems: `C02_steps_run`, `C02_numbering_over_any_history` (RunProps.v).
* **C03 Budget worker stores, for each budget, the first state of one continuous run that reaches it** (proved). BudgetWorker as a fold of budget runs and stores; refinement to 'first index of the trajectory with cost >= b'. The trajectory theorem is for drivers whose finalized_population leaves the state alone; the cost theorem allows state changes.
  Theorems: `C03_budget_worker_trajectory`, `C03_budget_worker_costs`, `C03_budget_worker_terminates` (RunProps.v).
* **C04 A timed run emits each slot at most once, in order, never past the timeout** (proved). TimeRun loop as recursion over the list of step durations (oracle); invariant on (elapsed, step_no, previous).
  Theorems: `C04_time_run_slots`, `C04_time_run_message_progress`, `C04_time_run_terminates` (RunProps.v).
* **C05 A timed run covers every slot up to the timeout** (partial). Same model; completeness proved when at least two steps were performed, refuted in general. False when the whole timeout elapses within the first driver step; the partial theorem covers every other run.
  Theorems: `C05_time_run_complete_partial`, `C05_time_run_complete_refuted` (RunProps.v).
* **C06 A timed result never contains work done after its time slot** (partial). TimeWorker layered on the TimeRun model; refuted with a witness trace; what it does store is characterised. False: the worker reads the driver at delivery time, i.e. after the step during which the slot passed. The partial theorem says exactly which state is stored.
  Theorems: `C06_time_worker_partial`, `C06_time_worker_refuted` (RunProps.v).
* **C07 Dominance is a strict partial order with the documented three-way result** (proved). Objective values are Z (see number model). Direct model of the loop; specification in Spec.v; induction on vectors.
  Theorems: `C07_domination_cmp`, `C07_dominates_strict_order` (DomProps.v).
* **C08 All dominance tests in the code base agree** (proved). Three loops modelled separately, each proved equal to the specification predicate.
  Theorems: `C08_dominance_tests_agree`, `C08_tolerance` (DomProps.v).
* **C09 Pareto layers peel the population completely** (proved). while-loop as fuel recursion with fuel = length, proved never to run out; peeling specification separate.
  Theorems: `C09_paretofront_layers` (DomProps.v).
* **C10 filter_not_dominated returns exactly the non-dominated members** (proved). fold with removal, by index; invariant 'kept = non-dominated of the prefix'.
  Theorems: `C10_filter_not_dominated_exact`, `C10_filter_not_dominated_order_insensitive`, `C10_filter_not_dominated_members`, `C10_filter_not_dominated2` (DomProps.v).
* **C11 Non-dominated sorting assigns the peeling rank whatever the set iteration order** (proved). Counting algorithm with explicit domination counters and an arbitrary per-call permutation as iteration order oracle; invariant on counters.
  Theorems: `C11_nsgaii_nd_sort`, `C11_nsls_nd_sort`, `C11_smsemoa_nd_sort`, `C11_rank_is_front_number` (NDSortProps.v).
* **C12 Theta sorting ranks each individual by its position inside its own cluster** (proved). As C11 with theta dominance inside a cluster.
  Theorems: `C12_theta_sort` (NDSortProps.v).
* **C13 NSGA-II environmental selection is elitist** (proved). Stable sort by (rank, -crowding) then take; order theory of sorted lists.
  Theorems: `C13_environmental_selection`, `C13_selection_is_elitist` (NsgaProps.v).
* **C14 NSGA-II step keeps its sizes, box constraints and evaluation accounting** (proved). Whole step as a state machine with an oracle for draws; invariant by induction over the operations.
  Theorems: `C14_nsga_run`, `C14_nsga_run_with_archive` (NsgaProps.v).
* **C15 NSGA-II crowding protects the best individual of each objective** (proved). Loop over objectives with option-valued (infinite) distances.
  Theorems: `C15_crowding`, `C15_crowding_values` (NsgaProps.v).
* **C16 Polynomial mutation stays in the box and touches only selected genes** (proved). Per-gene recursion with oracle draws and oracle perturbation.
  Theorems: `C16_mutate_genes`, `C16_mutate_in_box` (VarProps.v).
* **C17 Simulated binary crossover stays in the box and only recombines where parents differ** (proved). As C16.
  Theorems: `C17_crossover` (VarProps.v).
* **C18 NSGA-III variation keeps the box and never leaves stale objectives** (proved). As C16 plus objective cache field.
  Theorems: `C18_nsgaiii_variation_fresh`, `C18_crossover_resets_objectives`, `C18_mutation_resets_objectives` (VarProps.v).
* **C19 OMOPSO particles never leave the search box** (proved). Per-coordinate model over Z.
  Theorems: `C19_move`, `C19_mutation_genes`, `C19_mutation_in_box` (VarProps.v).
* **C20 Gene jumping preserves length and box** (proved). List surgery model; lengths by induction; box by encode/decode ratio (Q).
  Theorems: `C20_cut_and_paste`, `C20_copy_and_paste`, `C20_encoding_lossless` (VarProps.v).
* **C21 Generated populations have the requested size and lie in the box** (proved). Recursion on count with draws u in [0,1] as Q.
  Theorems: `C21_gen_population`, `C21_own_draws` (VarProps.v).
* **C22 Hypervolume is exact in one and two dimensions** (proved). hvRecursive at dimensions 0 and 1 over the linked lists; measure specified as count of unit cells / independent grid definition.
  Theorems: `C22_exact_in_one_and_two_dimensions` (HvProps.v).
* **C23 Hypervolume is exact in three dimensions and above** (partial). Model of hvRecursive for all dimensions over the linked lists; exactness by an invariant on the area and volume fields of the nodes. The sorts are stable, so list j is ordered by coordinates j, j-1, ..., 0 and the position in the front; a node may be ignored if another one precedes it in all the lists so far. Exact for three objectives and any front. In any number of objectives exact when no point is on the boundary of the reference point and points that agree in the first objective are listed in lexicographic order, duplicates allowed (so after sorting the front, or when the first objectives differ). False otherwise in four or more objectives: the lists break ties differently, nodes are wrongly ignored and the result is too small, also for mutually non-dominated fronts strictly inside the reference point. Missing: which boundary points are harmless.
  Theorems: `C23_exact_in_three_dimensions`, `C23_exact_when_ties_are_in_order_partial`, `C23_exact_after_sorting_partial`, `C23_exact_when_first_objectives_differ_partial`, `C23_exact_in_general_position_partial`, `C23_four_dimensions_with_ties_refuted`, `C23_nondominated_front_refuted` (HvProps.v).
* **C24 Reinserting nodes in reverse order restores the linked lists** (proved). Heap model: next/prev as total maps node->dim->node; update lemmas.
  Theorems: `C24_remove_reinsert_restores`, `C24_lists_are_sorted` (HvProps.v).
* **C25 Hypervolume is monotone and insensitive to order, duplicates and dominated points** (partial). Through the measure, using C22 and C23. Proved for one to three objectives, and in any number when ties in the first objective are listed lexicographically (C25_when_ties_are_in_order_partial). Refuted in five: adding a mutually non-dominated point below the reference point lowers the computed value (C25_five_objectives_refuted).
  Theorems: `C25_never_negative`, `C25_weakly_dominating_front_is_no_smaller`, `C25_adding_a_point_never_decreases`, `C25_only_the_set_of_points_matters`, `C25_dominated_points_do_not_matter`, `C25_when_ties_are_in_order_partial`, `C25_five_objectives_refuted` (HvProps.v).
* **C26 Generational distances vanish exactly on containment** (proved). Reals (sqrt): stdlib Reals axioms, listed.
  Theorems: `C26_generational_distance_value`, `C26_inverse_generational_distance_value`, `C26_generational_distance_zero`, `C26_inverse_generational_distance_zero`, `C26_average_hausdorff_distance` (MetProps.v).
* **C27 Additive epsilon indicator** (partial). Nested running extrema as folds over option Z; min-max characterisation; the standard definition refuted. False: the two sets are exchanged. Proved: the value is the epsilon indicator of the Pareto front with respect to the solution.
  Theorems: `C27_epsilon_of_exchanged_sets_partial`, `C27_epsilon_refuted` (MetProps.v).
* **C28 Non-domination ratio and Pareto dominance indicator lie in [0,1]** (partial). Q ratios; refutation with duplicates. The Pareto dominance indicator exceeds 1 when a solution repeats a vector; proved for solutions without repetitions.
  Theorems: `C28_non_domination_ratio`, `C28_pareto_dominance_indicator_partial`, `C28_pareto_dominance_indicator_refuted` (MetProps.v).
* **C29 Spread metrics behave** (proved). Reals.
  Theorems: `C29_spacing`, `C29_spacing_of_one_point`, `C29_extent`, `C29_extent_monotone`, `C29_distribution`, `C29_distribution_range`, `C29_distribution_infinite` (MetProps.v).
* **C30 SPEA2 fitness separates non-dominated individuals** (proved). Counts over lists; density as a rational bound 0 < d <= 1/2 (oracle distance).
  Theorems: `C30_fitness_separates_nondominated`, `C30_single_individual_raises` (SpeaProps.v).
* **C31 SPEA2 archive has exactly the configured size and favours non-dominated individuals** (proved). Selection loops with fuel; multiset reasoning.
  Theorems: `C31_archive_selection` (SpeaProps.v).
* **C32 Reported cost equals the number of objective evaluations** (partial). Loop model with archive oracle; refuted; exact charge characterised. False for SPEA2, SMS-EMOA and OMOPSO: the charge of a round is decided by its last individual alone, and SMS-EMOA charges the population size for a single evaluation. The partial theorems give the exact charge.
  Theorems: `C32_omopso_cost_partial`, `C32_omopso_cost_refuted` (OmopsoProps.v).
  Theorems: `C32_smsemoa_cost_partial`, `C32_smsemoa_cost_refuted` (SmsProps.v).
  Theorems: `C32_spea2_cost_partial`, `C32_spea2_cost_refuted` (SpeaProps.v).
* **C33 IBEA incremental fitness equals recomputed fitness** (proved). Sum over finite lists; removal invariant.
  Theorems: `C33_incremental_fitness`, `C33_indicator_unique` (IbeaProps.v).
* **C34 IBEA charges one cost unit per evaluated individual** (partial). Loop model; refuted. False: without a fitness archive every individual is charged in every round. The partial theorem gives exactly who is charged.
  Theorems: `C34_charged_individuals_partial`, `C34_known_individuals_charged_again_refuted` (IbeaProps.v).
* **C35 SMS-EMOA keeps the population size constant and removes a least contributor of the worst front** (proved). On top of C11 and hypervolume contribution.
  Theorems: `C35_removes_a_least_contributor_of_the_worst_front`, `C35_generation_adds_one_and_removes_one` (SmsProps.v).
* **C36 SMS-EMOA never loses dominated hypervolume** (proved). On top of C22/C25/C35. Proved for one to three objectives (where the indicator is exact, C22/C23).
  Theorems: `C36_hypervolume_never_decreases` (SmsProps.v).
* **C37 NSLS local search never replaces an individual by one it dominates and stays in the box** (proved). Loop model with oracle draws. local search of one coordinate, the candidates and the whole local search; c * difference is an arbitrary function of the difference
  Theorems: `C37_candidates_stay_in_the_box`, `C37_replacement_is_not_dominated`, `C37_local_search` (NslsProps.v).
* **C38 NSLS selection terminates with population_size individuals** (partial). Loop with fuel; refuted (hang) when the total does not exceed the size. selection has the population size when there are more individuals than places; the while loop never ends when the local search replaced nobody (refuted with a witness)
  Theorems: `C38_selection_partial`, `C38_no_end_when_everyone_fits`, `C38_step_ends_iff_somebody_was_replaced`, `C38_terminates_refuted` (NslsProps.v).
* **C39 NSGA-III ideal point and normalisation** (proved). Fold invariant over evaluation history. ideal point over whole runs; normalised objectives in [0,1) and their exact value; objectives are exact numbers
  Theorems: `C39_ideal_point_is_least_so_far`, `C39_normalised_objectives_between_0_and_1`, `C39_normalised_value` (Nsga3Props.v).
* **C40 NSGA-III reference points lie on the unit simplex** (proved). Q arithmetic with draws. for all draws strictly between 0 and 1 (the code redraws zeros), real arithmetic
  Theorems: `C40_reference_points_on_the_simplex` (Nsga3Props.v).
* **C41 NSGA-III selection keeps the population size and the best of every cluster** (proved). Loop over fronts. clusters, fronts and survivors of every step of a run
  Theorems: `C41_clusters_are_nearest_reference_lines`, `C41_selection` (Nsga3Props.v).
* **C42 OMOPSO archive contains no dominated member** (partial). Archive.add with removal while iterating, index based; refuted; partial. False: the element after a removed one is skipped. Proved: only the newcomer can dominate a member, and the archive is clean when no two neighbours are dominated at once.
  Theorems: `C42_no_dominated_member_refuted`, `C42_only_the_newcomer_dominates_partial`, `C42_no_neighbours_partial` (OmopsoProps.v).
* **C43 OMOPSO leader archive is bounded and personal bests only improve** (proved). Same model. whole runs: bound on the leaders, personal bests improve and are never dominated by a visited position
  Theorems: `C43_leader_archive_is_bounded`, `C43_personal_bests_improve`, `C43_personal_best_step` (OmopsoProps.v).
* **C44 BOGO archive is the set of non-dominated points seen so far** (partial). refresh_archive model; refuted; partial. False: inserting a dominated point deletes the first member that dominates it (the archive can become empty). Proved: the exact effect of an insertion, mutual non-dominance over whole runs, and exactness while no draw is dominated by an earlier one.
  Theorems: `C44_archive_is_the_front_refuted`, `C44_insertion_partial`, `C44_run_partial`, `C44_no_dominated_draw_partial` (BogoProps.v).
* **C45 IMGA islands partition the population evenly** (proved). Slicing with stride; permutation proof. All populations and positive island counts; exact island sizes. islands_number 0 raises.
  Theorems: `C45_islands_partition` (ImgaProps.v).
* **C46 The torus topology is a valid symmetric neighbourhood** (proved). Index arithmetic over nat. All widths >= 1 and sizes. int(a / b) is modelled as integer division (true below 2^53).
  Theorems: `C46_torus_is_valid` (ImgaProps.v).
* **C47 Migration conserves individuals and island sizes** (proved). emigrate/immigrate/assimilate over lists with sampling oracle; Permutation. Any symmetric in-range topology, any iteration order of its sets, self-loops included. Also proved: exactly who goes where, and that an unbalanced topology makes the migration raise. Islands hold at least migrants_number times their number of neighbours.
  Theorems: `C47_migration_conserves`, `C47_vectors_conserved`, `C47_migration_exchanges`, `C47_unbalanced_raises` (ImgaProps.v).
* **C48 weighted_choice selects by cumulative weight and never fails for positive weights** (proved). Fold over weights, Z. Exact: item k is chosen iff the draw is in its interval of cumulative weights; zero-weight items never; the assertion fires iff the draw is >= the total (random.uniform may return the total).
  Theorems: `C48_weighted_choice` (ImgaProps.v).
* **C49 IMGA cost is the sum of the islands' current costs** (proved). Sum over islands; permutation. For any driver whose cost is not changed by exchanging individuals and any completion order. epoch_length 0 raises (last() of an empty sequence).
  Theorems: `C49_cost_is_the_sum`, `C49_any_schedule`, `C49_cost_never_decreases` (ImgaProps.v).
* **C50 The HGS tree stays well formed** (proved). Tree state machine; invariant by induction over steps. All nested drivers (arbitrary, may raise), configurations, draws and run lengths. Jobs of one metaepoch run one after the other, as the code waits for each.
  Theorems: `C50_tree_well_formed`, `C50_nodes_persist` (HgsProps.v).
* **C51 HGS sprouting limits are respected** (proved). Same. Besides the limits, exactly which delegates become sprouts, in order, and at which nodes.
  Theorems: `C51_sprouting_limits`, `C51_release_exactly` (HgsProps.v).
* **C52 HGS cost is the modifier-weighted sum of the nodes' evaluations** (proved). Same. Per step and for whole runs; costs as exact rationals. The cost of a node is its driver's cost counter after the metaepoch.
  Theorems: `C52_cost_is_weighted_sum`, `C52_step_cost`, `C52_dead_nodes_are_not_run` (HgsProps.v).
* **C53 HGS never stalls** (proved). Same. Also that the recursive release always ends, that ripe means stagnated and that redundant nodes keep their results.
  Theorems: `C53_some_node_alive`, `C53_step_returns_or_raises`, `C53_ripe_means_stagnated`, `C53_redundant_stay_dead`, `C53_ripe_is_dead`, `C53_revival`, `C53_ratios` (HgsProps.v).
* **C54 HGS redundancy trimming keeps survivors apart** (proved). Loop model. trim_redundant on any node list, and the whole trimming of a step, in both directions. Distances are exact: squared distance against the square of the minimal distance.
  Theorems: `C54_trim_redundant`, `C54_survivors_apart`, `C54_killed_exactly`, `C54_first_survives`, `C54_centres_are_means` (HgsProps.v).
* **C55 Mantissa trimming truncates towards zero and is idempotent** (proved). Z model: value m*2^e, truncating division; box corollary. Floats as (sign, binary digits, exponent) exactly as floatextras.as_tuple delivers them; values are exact rationals. Subnormals are covered by 'normal' (leading digit one, or the least exponent).
  Theorems: `C55_trim_towards_zero`, `C55_trim_idempotent`, `C55_trim_enough_bits`, `C55_trim_monotone`, `C55_trim_stays_in_box` (TrimProps.v).
* **C56 The fitness archive behaves as a map keyed by vector value** (proved). Association list vs. finite map. All histories of stores and deletions by list or tuple keys; the specification reads the history backwards. Values are of any type.
  Theorems: `C56_archive_is_a_map`, `C56_delete_missing_raises` (ArchiveProps.v).
* **C57 HGS finalized population is the concatenation of its nodes' populations** (proved). Same state machine. Plus where each population comes from.
  Theorems: `C57_concatenation`, `C57_populations` (HgsProps.v).
* **C58 A distributed metaepoch answers once, after all nodes, with a schedule-independent cost** (proved). Message handler as a state machine; induction over reply lists (all permutations). Every history of requests, every delivery order (per-pair FIFO, as thespian guarantees), every nested driver that does not raise. Metaepoch lengths positive on every level: otherwise max() of an empty list raises. At most three levels, as the supervisor keeps three lists.
  Theorems: `C58_metaepoch_every_schedule`, `C58_cost_is_what_drivers_spent` (DhgsProps.v).
* **C59 Distributed population and status queries are complete** (proved). Same. The address inside each status is the asker's own, not the node's (node_tasks.py:55-59).
  Theorems: `C59_population_every_schedule`, `C59_status_every_schedule` (DhgsProps.v).
* **C60 Distributed HGS trims redundant nodes as classic HGS does** (partial). groupby iterator exhaustion modelled; refuted; intended rule proved for the shared function. False: the groupby iterators are consumed by the log line, so nothing is ever killed; witness with two sprouts at the same point. Proved: the request is always answered and changes no node.
  Theorems: `C60_redundant_nodes_untouched_partial`, `C60_redundant_survive_refuted` (DhgsProps.v).
* **C61 Distributed HGS respects the sprout limit** (partial). Node task state machine; refuted; exact bound proved. First half false: the number of living sprouts is read once per round and not increased by the sprouts released in it; witness max_sprouts_no=1, sproutiveness=2. Proved: the bound max_sprouts_no-1+sproutiveness, at most sproutiveness per ripe node and none elsewhere, and exactly which delegates become sprouts.
  Theorems: `C61_sprouting_limits_partial`, `C61_release_exactly`, `C61_sprout_limit_refuted` (DhgsProps.v).
* **C62 A distributed release round visits every node once, from the leaves to the root, and terminates** (proved). Supervisor/node interaction as a state machine. The trace of deliveries to nodes is compared with the tree at the beginning of the round.
  Theorems: `C62_release_round_order` (DhgsProps.v).
* **C63 Distributed HGS revival** (proved). Same. In reachable states dead nodes are ripe, so all nodes are revived.
  Theorems: `C63_revival`, `C63_some_node_alive` (DhgsProps.v).
* **C64 Configuration layers override in the documented order** (proved). Dictionaries as association lists; last-writer-wins. The layers of factory.py as a function; every option has the value of the last layer that supplies it, recursively for subdrivers; preparation succeeds exactly on the supported configurations.
  Theorems: `C64_last_layer_wins`, `C64_prepares_iff_supported` (ConfProps.v).
* **C65 Every requested simulation is scheduled exactly once** (proved). list_prod model. The job queue, up to any shuffle, holds each (problem, algorithm, run) exactly once; budgets are sorted.
  Theorems: `C65_each_job_once`, `C65_all_problems_by_default`, `C65_budgets_sorted` (ConfProps.v).
* **C66 Stored runs are found again by the extractor** (proved). String formatting/parsing model over digits. Round trip, injectivity, the directory listing as a permutation of the recognised names in order; ids above 9999999 are shown not to be found. Year 1000 to 9999.
  Theorems: `C66_id_recognised`, `C66_first_run_recognised`, `C66_ids_distinct`, `C66_found_again`, `C66_longer_ids_ignored` (IdProps.v).
* **C67 Results written are the results read, and no other result is disturbed** (proved). File system as a map from path to content, crash = partial write oracle. File system as a map with byte-wise writes; every history of stores into one results directory, each finished or cut off after any step. Hypotheses on pickle: what was pickled is unpickled, a proper prefix is not. Fresh or already laid-out results directory (directories where runs are, no directory named like a result).
  Theorems: `C67_store_then_load`, `C67_crash_leaves_the_rest`, `C67_history`, `C67_stores_never_fail`, `C67_reaches_are_all` (FsProps.v).
* **C68 Results are grouped by budget in increasing order** (partial). Sort + group model. False for arbitrary directory contents: 007.pickle makes the extractor drop the rest of the run silently. Proved for directories whose numbered files have canonical names and complete pickles, with arbitrary other contents, and end to end after any history of finished stores. A torn result makes the extraction raise.
  Theorems: `C68_grouped_refuted`, `C68_grouped_partial`, `C68_after_runs`, `C68_torn_result_raises` (FsProps.v).
* **C69 The metric cache is transparent** (proved). Cache state machine. Any sequence of queries; parameters compared by equality; metric functions arbitrary (may raise, then nothing is cached). Queries do not change what the extractor returns.
  Theorems: `C69_cache_transparent`, `C69_right_and_once`, `C69_queries_keep_results` (FsProps.v).
* **C70 find_acceptable_result_for_budget picks the largest acceptable budget** (partial). Generator as the list of what it has yet to yield; telescoping tolerance by induction over the reversed list. Proved for every non-empty result list whose first metric is the cost; the largest-budget reading needs the list sorted by budget. Refuted for an empty result list, which raises IndexError instead of giving None. Floats are modelled as rationals.
  Theorems: `C70_acceptable`, `C70_largest`, `C70_no_results_refuted` (StatProps.v).
* **C71 Bootstrap interval is ordered and drawn from the data's range** (partial). Draws as an oracle with randint's range as only hypothesis; sorted means; position characterised by counting. Proved for at least two runs (any draws, any number of resamples >= 1). Refuted for a single run: the samples are empty and both ends are -inf.
  Theorems: `C71_interval`, `C71_analysis`, `C71_single_run_refuted` (StatProps.v).
* **C72 Outlier analysis is consistent** (proved). numpy.percentile by linear interpolation on Q; pigeonhole argument for the inlier. numpy.percentile is modelled as linear interpolation on the sorted data; floats as rationals; the square root of the variance is squared out, justified over R in StatBand.
  Theorems: `C72_never_fails`, `C72_fences`, `C72_counts` (StatProps.v).
* **C73 Weak winners are exactly the near-ties** (proved). Whole ranking loop over (problem, algorithm) tables; points characterised by relations (winner, near tie). Weak winners and the whole award loop of rank; points per algorithm characterised without reference to the loop.
  Theorems: `C73_weak_winners`, `C73_ranking`, `C73_points_determined` (StatProps.v).
* **C74 One failing simulation does not stop the others** (partial). rx pipeline as a loop that ends at the first exception; refuted for every failure pattern. False: the queue stops at the first failing worker (None[-1] in process_result), without summary; proved for every failure pattern. Without failures everything runs once and in order. The behaviour of rx do_action/run is an assumption of the model.
  Theorems: `C74_stops_refuted`, `C74_no_failure_partial`, `C74_empty_refuted` (WorkProps.v).
* **C75 SPEA2 fitness respects dominance** (proved). On the SPEA2 model: raw fitness counts; dominance implies smaller fitness.
  Theorems: `C75_fitness_respects_dominance` (SpeaProps.v).
* **C76 SPEA2 truncation removes a most crowded individual** (partial). Truncation loop with the neighbour comparison as coded; refutation of the documented tie breaking. One of a closest pair is removed (proved); lexicographic tie breaking is false: comparison stops when no more individuals are tied than levels compared.
  Theorems: `C76_truncation_removes_one_of_a_closest_pair`, `C76_archive_is_thinned`, `C76_lexicographic_tie_breaking_refuted` (SpeaProps.v).
* **C77 SPEA2 run invariants** (proved). Whole SPEA2 runs as a state machine; invariant by induction over operations.
  Theorems: `C77_spea2_run`, `C77_step_selects_from_archive_and_population` (SpeaProps.v).
* **C78 IBEA never removes an individual while keeping one it dominates** (proved). Indicator sums over R; removal order.
  Theorems: `C78_survivors_not_dominated_by_removed` (IbeaProps.v).
* **C79 IBEA mating tournament favours the fitter individual** (partial). Tournament as coded with both coin results; refuted. False: heads (probability 0.9) returns the less fit individual.
  Theorems: `C79_tournament_partial`, `C79_tournament_favours_the_fitter_refuted` (IbeaProps.v).
* **C80 IBEA run invariants** (proved). Whole IBEA runs.
  Theorems: `C80_ibea_run` (IbeaProps.v).
* **C81 SMS-EMOA run invariants** (proved). Whole SMS-EMOA runs.
  Theorems: `C81_smsemoa_run` (SmsProps.v).
* **C82 NSLS keeps the extreme individuals of the cut front and spreads the rest** (partial). Account of the cut of the last front; refuted by a witness. exact account of how the last front is cut; the claim is refuted because running minima and maxima are collected, not only the final ones
  Theorems: `C82_last_front_partial`, `C82_keeps_extremes_refuted` (NslsProps.v).
* **C83 NSLS run invariants** (proved). Whole NSLS runs. whole runs; non-termination of a step is characterised in C38
  Theorems: `C83_nsls_run` (NslsProps.v).
* **C84 NSGA-III run invariants** (proved). Whole NSGA-III runs. whole runs; non-termination below two individuals is a finding
  Theorems: `C84_nsgaiii_run`, `C84_no_end_below_two_individuals` (Nsga3Props.v).
* **C85 OMOPSO's archive covers every position offered to it** (partial). Archive insertion with eta; covered-by relation, refuted for eta > 0. True with eta = 0; with the code's eta = 0.0075 the archive can drift to a point dominated by an earlier one (refuted with three objectives).
  Theorems: `C85_archive_covers_partial`, `C85_run_covers_partial`, `C85_archive_covers_refuted` (OmopsoProps.v).
* **C86 OMOPSO keeps the extreme leaders when it prunes** (partial). Crowding-based pruning as coded. False: the member removed always has the least last objective, whatever its crowding; exact account in the partial theorem.
  Theorems: `C86_prune_partial`, `C86_crowding_values`, `C86_followed_leader`, `C86_keeps_extremes_refuted` (OmopsoProps.v).
* **C87 OMOPSO run invariants** (partial). Whole OMOPSO runs. whole runs; a step after assigning driver.population raises (theorem C87_step_after_assigning_population_refuted), so the last sentence of the property is false
  Theorems: `C87_omopso_run`, `C87_step_after_assigning_population_refuted` (OmopsoProps.v).
* **C88 The memory of an OMOPSO swarm does not grow with the run** (partial). Deep-copied chain modelled as a nested structure; length grows with the run. False: every improvement deep-copies the particle including its previous best; the chain has up to one level per step, and a run reaching that is given for every length.
  Theorems: `C88_state_stays_bounded_refuted`, `C88_copies_at_most_one_per_step_partial` (OmopsoProps.v).
* **C89 The torus links every pair of adjacent islands and no other** (partial). Torus construction over nat; exact adjacency and connectivity. False when width < size < 2*width: islands 0 and width are not linked, and for size = width + 1 the last island has no neighbour at all. Proved: exact adjacency of every other pair, connectivity for all other sizes.
  Theorems: `C89_torus_neighbours_partial`, `C89_torus_misses_a_link_refuted`, `C89_torus_connected_refuted` (ImgaProps.v).
* **C90 A whole IMGA run over NSGA-II keeps its populations** (proved). Composition of the IMGA and NSGA-II models, whole runs. Composition of the IMGA and NSGA-II models; reported cost is 0 before the first step. Trim functions must keep vectors in the box; IMGA passes none.
  Theorems: `C90_step_is_epochs_then_migration`, `C90_imga_run` (ImgaProps.v).
* **C91 Points the nodes of HGS evaluate stay within the problem's bounds** (partial). Trimming over Z mantissas; refuted, and proved for bounds that fit. Refuted (bounds 1.5 and 2 with one bit: 1.75 becomes 1). Holds when each bound is zero, on the far side of zero or itself fits the bit count.
  Theorems: `C91_trimmed_points_within_bounds_refuted`, `C91_trimmed_points_within_bounds_partial` (TrimProps.v).
* **C92 HGS gives every node a grace period** (proved). Two consecutive steps of the HGS model. Two steps from the state in which the node is new.
  Theorems: `C92_grace_period` (HgsProps.v).
* **C93 HGS sprouts only where it has not been** (proved). Release round of the HGS model. Every new node of every step.
  Theorems: `C93_new_nodes_explore` (HgsProps.v).
* **C94 HGS never raises with a well-behaved nested driver** (proved). Driver contract (creates, steps, finalizes within the box) proved for NSGA-II and used for HGS. General driver contract, its instance NSGA-II (without fitness archive), and HGS over NSGA-II. With the default metaepoch_len=5 the constructor raises TypeError (it indexes the integer), so lists are assumed.
  Theorems: `C94_never_raises`, `C94_nsgaii_keeps_contract`, `C94_hgs_over_nsgaii` (HgsProps.v).
* **C95 Distributed HGS: a node stops exactly when its progress falls below the threshold of its level** (proved). Node actor of distributed HGS.
  Theorems: `C95_stagnating_nodes_ripen` (DhgsProps.v).
* **C96 Every algorithm named on the command line is run** (partial). Command line selection. Refuted: a metaalgorithm combination that is not in run_config.algorithms is silently dropped, and no --algo runs nothing. Partial: names in the list are run.
  Theorems: `C96_named_algorithms_run_refuted`, `C96_listed_names_run_partial` (ConfProps.v).
* **C97 Every listed algorithm can be prepared and constructed on every listed problem** (proved). Configuration table against constructor signatures. Checked for the whole configuration table (kernel computation over the finite table, quantified over problems' dimensions and random draws).
  Theorems: `C97_listed_algorithms_construct` (ConfProps.v).
* **C101 Stored populations match stored fitnesses** (partial). Iterables as list or one-shot iterator; refuted for IMGA. Proved for all drivers returning lists; false for IMGA, whose itertools.chain is exhausted before it is stored.
  Theorems: `C101_fitnesses`, `C101_lists_partial`, `C101_imga_refuted` (WorkProps.v).
* **C102 Simulations in one process do not influence each other** (partial). Session of runs threading the shared list; refuted, with the exact remaining influence. False: HGS halves the list in run_config in place (witness: the second run ends with another population). Proved: this is the only influence among classic HGS runs, the ratios are halved at most once per earlier step, and there is none without a revival.
  Theorems: `C102_same_process_refuted`, `C102_only_ratios_partial`, `C102_no_revival_partial` (WorkProps.v).
* **C103 Nested drivers know the budget** (partial). Tree of drivers with the attribute max_budget. False for every nesting: IMGA spreads the budget in its constructor, before it is known, and HGS not at all.
  Theorems: `C103_budget_not_spread_refuted`, `C103_top_level_progress` (WorkProps.v).
* **C104 The runs of one invocation write to different directories** (proved). Names as strings; injectivity. Any clock, any draws, up to 1000000 repetitions.
  Theorems: `C104_run_directories_distinct` (IdProps.v).
* **C105 Listing runs by name lists them in the order they were started** (proved). Order of strings against order of dates. Order equivalence for all fixed-width dates and numbers 1 to 9999999.
  Theorems: `C105_id_order_is_time_order` (IdProps.v).
* **C106 Results are called suspicious exactly when too many values are far from the mean** (proved). Standard deviation over R; counting and Samuelson's inequality. Standard deviation over R, so the three real axioms are used.
  Theorems: `C106_flag`, `C106_ten_runs`, `C106_few_far` (StatProps.v).
* **C107 The report on a suspicious result labels the values it says it labels** (partial). Printed labels as booleans; refuted by a witness. False on three counts, with a witness; the part that holds is proved.
  Theorems: `C107_report_refuted`, `C107_report_partial` (StatProps.v).
* **C108 The dominance indicator compares runs with the same number** (partial). Directory listings in arbitrary order. False: run numbers come from the unsorted directory listing on one side and from the sorted one on the other. Proved if the listing is sorted and holds only runs.
  Theorems: `C108_pairing_refuted`, `C108_pairing_partial` (PdiProps.v).
* **C109 Cached metrics follow the results** (partial). File system with byte-wise writes; stale and torn cache. False on both counts: stale value after a second store (witness), and a torn cache file raises for every later query (proved for every cut).
  Theorems: `C109_metric_follows_result_refuted`, `C109_torn_cache_stays` (FsProps.v).
* **C110 Published Pareto fronts are attainable and optimal** (partial). Problems as records of bounds, objectives (reals, None for an exception) and published front; two-objective ones are shown to be a curve plus a non-negative term that vanishes at explicit vectors; trigonometric identities for the refutations. UF11: an explicit vector that the rotation takes next to the middle, dot products computed in integers. True of ZDT1, ZDT2, ZDT4, ZDT6, UF1-UF5, UF7 and ackley. False of ZDT3 (a published grid point just past a minimum is dominated), UF6 (sample runs past the segments), UF8 and UF10 (cube root instead of square root), UF9 (negative objective), EWA1 and EWA2 (origin unattainable), UF11 (a line of the data file is dominated by a wide margin). For ZDT3 also attainability and mutual non-dominance. The fronts of kursawe and UF12 are data files and are not judged. Exact real arithmetic.
  Theorems: `C110_fronts_optimal_partial`, `C110_zdt3_partial`, `C110_zdt3_refuted`, `C110_uf11_refuted`, `C110_uf6_refuted`, `C110_uf9_refuted`, `C110_uf8_uf10_refuted`, `C110_uf8_uf10_partial`, `C110_ewa_refuted` (ProbProps.v).
* **C111 Published Pareto fronts cover everything attainable** (partial). Grid argument along the curve; for UF5 a lower bound on the penalty between the nodes; ZDT3 by continuity of the curve and the descents of the trimmed sample; UF6 by segment ends, UF9 by its two-dimensional grid; ZDT6 by a bound of the derivative (mean value theorem, two polynomial inequalities checked on a hundred intervals). Proved with resolution 1/149 for ZDT1, ZDT2, ZDT4, UF1-UF4, UF6, UF7, 1/80 for ZDT3, 1/11 for UF9, 1/8 for ZDT6 and exactly for UF5, ackley, EWA1 and EWA2. False of UF8 and UF10: even within 0.29 the published points do not cover an attainable one. Missing: kursawe, UF11, UF12, whose fronts are data files.
  Theorems: `C111_fronts_cover_partial`, `C111_uf8_uf10_refuted` (ProbProps.v).
* **C112 Objectives are defined on the whole search space** (proved). By evaluation under the bounds; for UF11 and UF12 by lengths of the matrix rows. All problems, with UF11 and UF12 whatever their published front. Exact real arithmetic.
  Theorems: `C112_objectives_defined`, `C112_rotated_defined` (ProbProps.v).
* **C113 Polynomial mutation needs no clamping, follows its draw and has no bias** (proved). The formula of mutate over the reals with failing division and power; monotonicity of powers; the weighted power mean inequality (from ln x <= x - 1) for the role of eta. Real arithmetic; the draw 1 is included although random() never returns it. NSGA-III's copy of the formula is the same.
  Theorems: `C113_mutation`, `C113_larger_draw`, `C113_extreme_draws`, `C113_larger_eta`, `C113_mirror`, `C113_polynomial_law` (OpProps.v).
* **C114 Simulated binary crossover surrounds the midpoint of the parents and needs no clamping** (proved). The formula over the reals; bounds 0 <= beta_q <= beta by monotonicity of powers; the second child is the mirror image of the first. Real arithmetic; in floating point 0.0 ** -x or overflow of pow are not modelled.
  Theorems: `C114_crossover`, `C114_larger_draw`, `C114_polynomial_law`, `C114_mirror` (OpProps.v).
* **C115 OMOPSO's non-uniform mutation stays in the box and cools down** (proved). The formula over the reals; powers of a base in [0,1] decrease with the exponent. The operator itself; OMOPSO.step never applies it because the map object is not consumed (see the findings).
  Theorems: `C115_non_uniform_mutation`, `C115_cools_down` (OpProps.v).
* **C116 NSGA-II's mating pool is filled by binary tournaments** (proved). Per slot of the pool: the two draws pick survivors, and the comparison of the (rank, 1/(distance+eps)) keys is turned into ranks and distances.
  Theorems: `C116_mating_tournament` (NsgaProps.v).
* **C117 JGBL: gene jumping happens exactly when the front does not fit, and a run keeps its promises** (proved). jstep over NsgaModel's step; the first front is the Pareto front of the union (C11), the kept members have rank one by the selection order; runs by induction over the calls with the invariant of C14.
  Theorems: `C117_jgbl_step`, `C117_jgbl_run`, `C117_jgbl_run_with_archive` (JgblProps.v).
* **C118 The result table names the two best algorithms and stars exactly the ambiguous places** (proved). Counters as association lists; most_common as a stable sort; case analysis on how many algorithms have points, with the number of equal values against the number of other algorithms sharing them.
  Theorems: `C118_table_and_ranking` (CellProps.v).
* **C119 A driver with a trimming function evaluates and returns trimmed vectors only** (proved). invariants over the steps of the eight driver models (every vector of the population, of the archives and of the evaluation trace is a fixed point of the trimming); trim_bits models HGS/tools.py:26-33 on exact numbers and its fixed points are the numbers of at most k significant bits The statements are about runs that return; that runs return is shown by C14, C77, C80, C81, C83, C84, C87 and C117. Trimming functions are assumed to round every gene on its own (NSLS puts single genes back after trimming).
  Theorems: `C119_hgs_trimming`, `C119_nsgaii`, `C119_jgbl`, `C119_spea2`, `C119_ibea`, `C119_smsemoa`, `C119_nsls`, `C119_nsgaiii`, `C119_omopso` (TrimRunProps.v).
* **C120 The Pareto dominance indicator is always that of the results on disk** (proved). PoolModel: results, cache file and stored values on disk; invariant over all histories: the files were made from an earlier state of the results from which nothing was removed, and equal solution lists then mean equal results. One problem directory, no second process writing meanwhile; the listing order of the directory is assumed stable while no file is added.
  Theorems: `C120_indicator_is_current` (PoolProps.v).
* **C121 An interrupted evaluation can be repeated** (partial). The same invariant without cache file; for a half-written file by evaluation. Interruptions while removing are harmless (proved); an interruption of save_file is not: pickle's EOFError and UnpicklingError are not IOErrors, so the load at metrics_processor.py:229 raises in every later evaluation until the file is removed by hand.
  Theorems: `C121_interruption_partial`, `C121_interrupted_write_refuted` (PoolProps.v).
* **C122 Removing results is noticed** (partial). Witness. Refuted: the cache file is compared by its solutions only, not by their keys.
  Theorems: `C122_removed_results_refuted` (PoolProps.v).
* **C123 HGS over any of its configured drivers never raises and stays within the bounds** (partial). HgsDriversModel instantiates the HGS model with each driver model and its message adapter; a driver contract (creates, steps, finalizes and nominates within the box from populations within the box) per driver, used by the HGS invariant. Refuted for NSLS: both individuals optimal makes next_generation loop for ever (C38) inside a metaepoch; runs of NSLS that end are within the bounds (C123_nsls_partial).
  Theorems: `C123_nsgaii`, `C123_jgbl`, `C123_ibea`, `C123_omopso`, `C123_spea2`, `C123_smsemoa`, `C123_nsgaiii`, `C123_nsls_partial`, `C123_nsls_refuted` (HgsDriversProps.v).
* **C124 The delegates a deme nominates are the best it knows** (partial). The same instantiation; an invariant that every live node's population and delegates come from one finalization of its driver; witnesses by evaluation of runs. Holds for IBEA and SMS-EMOA. NSGA-II and JGBL: unbeaten, but the front is that of parents and offspring and a delegate need not have survived. SPEA2: members, but a spacious archive holds dominated vectors and all are nominated. OMOPSO nominates the whole swarm.
  Theorems: `C124_ibea`, `C124_smsemoa`, `C124_nsgaii_unbeaten`, `C124_jgbl_unbeaten`, `C124_nsgaii_members_refuted`, `C124_omopso_refuted`, `C124_spea2_members`, `C124_spea2_refuted` (HgsDriversProps.v).
* **C125 HGS's demes see the problem's objectives within the configured error** (partial). The blurred objectives over the reals with the normal draw as an argument of each call; non-negativity of the benchmark objectives from the curves of C110; explicit vectors for kursawe and ZDT3. Holds for problems with non-negative objectives (seventeen of the benchmarks). Refuted for kursawe and ZDT3: math.fabs turns negative objectives over, also with error 0, so that dominating vectors are reported as dominated; on kursawe the first objective is maximised.
  Theorems: `C125_exact_when_nonnegative`, `C125_exact_on_benchmarks`, `C125_within_error`, `C125_clear_wins_are_seen`, `C125_refuted`, `C125_kursawe_maximised_refuted` (BlurProps.v).
* **C126 A deme of HGS works with the precision of its level** (proved). Invariant over all reachable HGS states: a node's driver was made for the node's level, and its state holds trimmed vectors only (lemmas of C119 per driver). Numbers are integers times a fixed unit; trim_genes is the model of trim_vector on them (C119).
  Theorems: `C126_nsgaii`, `C126_jgbl`, `C126_spea2`, `C126_ibea`, `C126_smsemoa`, `C126_omopso`, `C126_nsgaiii`, `C126_nsls` (HgsPrecisionProps.v).
* **C127 An island model over any of the drivers is safe** (partial). ImgaDriversModel: each driver model as an island's driver (constructor, step, cost, list of individuals and its replacement, newcomers, finalization). A contract per driver with an invariant that any replacement of individuals by as many admissible ones preserves; NSGA-III, OMOPSO and IBEA need invariants that do not relate the individuals to what the driver has evaluated itself. Refuted for NSLS, whose step can hang (C38); for runs of NSLS that end everything but the cost is proved (C127_nsls_partial). NSGA-III and NSLS need two vectors per island, as do SPEA2 and SMS-EMOA. C90 is the same for NSGA-II.
  Theorems: `C127_jgbl`, `C127_spea2`, `C127_smsemoa`, `C127_omopso`, `C127_nsgaiii`, `C127_ibea`, `C127_nsls_partial`, `C127_migrants_arrive`, `C127_nsls_refuted` (ImgaDriversProps.v).
* **C128 Immigrants are judged on the scale of the island's individuals** (partial). Runs in which variation changes nothing and one island starts better than the other; IBEA's island keeps the vectors its ranges were taken from. The positive part for arbitrary ranges, from the removal order. Refuted: NSGA-III's ideal point and IBEA's ranges do not include immigrants. The part about domination holds for IBEA whatever the ranges (C128_ibea_survivors).
  Theorems: `C128_nsgaiii_refuted`, `C128_ibea_refuted`, `C128_ibea_survivors`, `C128_ibea_without_migration` (ImgaDriversProps.v).
* **C129 Violin plots show the runs of the accepted results** (partial). PlotModel: dictionaries in insertion order; what is drawn in a figure as data. A fold lemma for the table of values; the order of the legend by a filter lemma. What is drawn is proved; refuted in that SPEA2 and SMSEMOA (alone or under a metaalgorithm), which a run without options stores results of, have no place in the legend and are silently left out. Whether matplotlib can draw a set of violins is an argument of the model (LinAlgError).
  Theorems: `C129_violins`, `C129_left_out_refuted` (PlotProps.v).
* **C130 Curves of quality over time show every stored value** (partial). The table of series as a fold over all events (problem, algorithm, metric, point), grouped; each group is the curve of the specification. Holds for stores without the algorithms outside the legend. Refuted: one value of SPEA2 or SMSEMOA raises KeyError (C130_unknown_algorithm, C130_default_algorithms_refuted), and the visible range ends where the first series ends (C130_visible_refuted; all points visible if all series end together, C130_visible_partial). pictures_from_stats is not reachable from the command line.
  Theorems: `C130_curves`, `C130_visible_partial`, `C130_visible_refuted`, `C130_unknown_algorithm`, `C130_default_algorithms_refuted`, `C130_cost_curves` (PlotProps.v).
* **C131 The summary compares algorithms per problem** (partial). Invariant of the table over the problems: scores of finished problems are normalised exactly once. Reals for the logarithms. Holds for even_metrics and the listed problems. Refuted: ValueError for a problem without a score in a metric met before, and for kursawe and ackley (C131_total_refuted); the hypervolume picture starts at 0.98 and hides an algorithm with half the best value (C131_hypervolume_refuted). Algorithms outside the legend count in the largest score but are not drawn.
  Theorems: `C131_summary`, `C131_values`, `C131_uneven`, `C131_unknown_problem`, `C131_total_refuted`, `C131_hypervolume_refuted` (PlotProps.v).
* **C132 Pictures of the fronts** (partial). Chosen populations by induction over the algorithms; loop invariant of split_front (good groups, last abscissa). The drawn population is the first run of the accepted result (C132_other_runs_unused). Refuted: SMSEMOA is left out; a gap right after the first point of a piece is bridged. An unbroken front raises IndexError (C132_no_gap).
  Theorems: `C132_best_fronts`, `C132_other_runs_unused`, `C132_pieces`, `C132_no_gap`, `C132_gap_drawn_refuted`, `C132_left_out_refuted` (PlotProps.v).
* **C133 Highlighted points are the non-dominated ones** (proved). C132 and C10. Not reachable from the command line. Fitness values are integers (times a fixed unit) as in C10.
  Theorems: `C133_highlighted` (PlotProps.v).
* **C134 Drivers nest at most two levels deep** (proved). The tables of run_config as a world (RunConfModel); prepare succeeds iff the path is supported (C64); the supported paths by evaluation of the tables on two levels and by absence of a customisation on three. IMGA over HGS and the like cannot be prepared: no customisation function exists for the longer path.
  Theorems: `C134_two_levels_at_most` (ConfProps.v).
* **C135 Every driver gets operators fitted to the problem** (proved). Evaluation of prepare for each listed algorithm with the problem's module left symbolic. Over the repository's own tables; the example shows two levels.
  Theorems: `C135_operators_fit_the_problem` (ConfProps.v).
* **C136 Polynomial mutation stays in the box in floating point** (proved). RndModel.v: the operator with a rounding function after every operation. Monotonicity of rounding and exactness at the constants; bounds by case analysis. RndIeee.v instantiates it with Flocq's FLT format. Any monotone rounding with the properties in RndSpec.v; double precision (round to nearest even, no overflow in + - * /) has them (RndIeee.v, with Flocq). Of pow only enclosures are assumed.
  Theorems: `C136_rounded_mutation` (RndProps.v).
* **C137 Simulated binary crossover stays in the box in floating point** (proved). As C136; the base of each power is shown non-negative and each divisor non-zero after rounding; clamping does the rest. As C136.
  Theorems: `C137_rounded_crossover` (RndProps.v).
* **C138 Non-uniform mutation stays in the box in floating point** (proved). As C136. As C136.
  Theorems: `C138_rounded_non_uniform` (RndProps.v).
* **C139 Initial populations stay in the box in double precision** (proved). Flocq: rounding error of the product and the sum against half an ulp of the interval's length. Round to nearest even, 53 bits, exponents down to -1074, no overflow: (b - a) must be finite.
  Theorems: `C139_uniform_stays_in_the_box` (RndProps.v).
* **C140 Dominance with infinities and nan** (partial). FdomModel.v over Flocq's binary_float with Bleb and Bltb; specification on the extended real line; induction on the vectors; filter by the invariants 'undominated' and 'covering'. Flocq's binary_float 53 1024. False with nan for domination_cmp (each of two vectors is said to be dominated by the other) and for OMOPSO's test, which ignores nan coordinates and is then not transitive.
  Theorems: `C140_without_nan`, `C140_with_nan`, `C140_filtered`, `C140_antisymmetry_refuted`, `C140_agreement_refuted`, `C140_omopso_order_refuted` (FdomProps.v).
* **C141 Timed runs lose and invent nothing to double precision** (proved). FTimeModel.v: the loop of TimeRun with rounding after every operation and CPython's algorithm for float //. The conversion and the floor division are shown exact on sums below 2^52; the loop then refines the exact one of C04 in units of 2^-1074; Sterbenz-like argument (multiples of 2^-22 below 2^31) for the exactness of the sum. Rounding to nearest even, 53 bits (RndIeee.v, Flocq); no overflow since sums stay below 2^52. CPython's float // is modelled with its fmod and its correction steps.
  Theorems: `C141_slots_in_doubles`, `C141_messages_in_doubles`, `C141_terminates_in_doubles`, `C141_no_time_lost` (FTimeProps.v).
* **C142 Converting results from JSON to pickle survives crashes** (partial). DirModel.v: os.walk over the file system of FsModel with removal; listing order as an oracle; a run is its list of steps, a crash a prefix of it. A walk is shown equal to visiting a flat list of the files; then induction on that list, with invariants for documents, their pickles and everything else. Crash of the process; loss of unsynchronised data by the system is not modelled. False of pickles that already exist: a JSON file of the same name overwrites them (refuted with witness).
  Theorems: `C142_crash_loses_nothing`, `C142_normal_end`, `C142_rerun_completes`, `C142_existing_pickles_kept_refuted` (DirProps.v).
* **C143 Clearing large budgets deletes exactly the numbered files above the limit** (proved). As C142 with clear_budget; int() with blanks, sign and underscores, shown to agree with the numbers Serializer writes. int() on ASCII text. The limit 4500 is as in the code.
  Theorems: `C143_deletes_only`, `C143_normal_end`, `C143_cache_goes_with_result` (DirProps.v).
* **C144 The summary of stored results sees every stored result once** (proved). SumModel.v: the loops of each_result over the file system of FsModel with the listing order as an oracle; the directories of a history of stores are characterised by the stored locations, then membership, uniqueness and counts. Each store finished; crashes during a store are in C67. The problem modules are an oracle (which names can be imported).
  Theorems: `C144_summary`, `C144_stray_file_stops_every_report` (SumProps.v).
* **C145 An observable merged from several processes passes on every message and completes with the last** (partial). RxModel.v: the reader of the queue as a recursion over the arriving messages; arrival as an inductively defined interleaving; induction on it. Queue messages arrive in an interleaving of the providers' writes. Needs that no provider emits the string 'end' (refuted otherwise); if a provider fails the merged observable never completes, which is part of the theorem.
  Theorems: `C145_merged_partial`, `C145_any_message_refuted` (RxProps.v).
* **C146 Renicing gives every simulation the priority asked for** (partial). RepModel.v: niceness along the queue; induction on its length. False as stated (refuted): all simulations run in one process and os.nice adds up. The partial theorem gives the niceness of each.
  Theorems: `C146_renice_partial`, `C146_same_priority_refuted` (RepProps.v).
* **C147 Progress, remaining time and running times of the queue are reported right** (partial). RepModel.v: share and remaining time as rationals, printed fields as integer divisions; the table by an invariant of the fold and the stable sort. Exact times instead of microseconds and doubles. The share and the remaining time are wrong as reported (refuted; partial theorems say by how much and when the printed time is right); the table of running times is right.
  Theorems: `C147_progress_partial`, `C147_share_done_refuted`, `C147_remaining_time_partial`, `C147_remaining_time_refuted`, `C147_running_times` (RepProps.v).
* **C148 Processes can store results at the same time** (partial). ConcModel.v: Serializer.store as a program of system calls, processes under an arbitrary schedule. Rely-guarantee: a predicate by recursion on the program, stable under what the other processes may do; directories only appear, own files are touched by nobody else. The states are then equated with those of FsModel's histories (C67). Termination by a height of programs. pathlib's mkdir is modelled call by call. The last sentence is false (refuted): a report that meets a half-written file raises; the partial theorem says what a reader can get.
  Theorems: `C148_any_schedule`, `C148_same_as_in_turn`, `C148_no_waiting`, `C148_reader_partial`, `C148_report_meanwhile_refuted` (ConcProps.v).
* **C149 Processes can ask for the same metric at the same time** (partial). MconcModel.v: get_metric as a program of system calls on the cache file, processes under an arbitrary schedule. Invariant: every writer's position is reached by the file or by gaps of zeros that a later writer still fills; the latest writer to open is ahead of nobody; readers hold a prefix of a worn file. The first sentence half is proved for every schedule. The second is false without a complete file at the start (refuted): a process may open the file another has just emptied. The partial theorem says what it can then get; C149_complete_file proves it when the file is there.
  Theorems: `C149_together_partial`, `C149_complete_file`, `C149_value_refuted` (MconcProps.v).
* **C150 Only outdated indicators are thrown away** (partial). ClearModel.v: directory trees, os.remove, fnmatch patterns, os.walk. Matching is reduced to 'occurs' and 'ends with'; a name without slashes occurs in a path iff it occurs in one of its components; removing a file leaves every other path as it is; the walk lists every file once (names are unique). 'wherever the results directory lies' is false (refuted): the pattern is matched against the whole path. C150_raises says precisely when it raises; the partial theorem covers all other trees. POSIX file names; bracket expressions of fnmatch are not modelled.
  Theorems: `C150_clear_partial`, `C150_raises`, `C150_results_dir_refuted` (ClearProps.v).
* **C151 The command line does what it says** (partial). CliModel.v: docopt's parse_argv and pattern matching, the usage patterns of the docstring, main_worker, resolve_configuration. What is collected comes from leaves of the matching usage line (induction on patterns), so one command is true; matching sees plain words and options separately (two projections of the line), so their interleaving is immaterial. docopt 0.6.2 (pinned in requirements.txt) is modelled from its published algorithm: parse_argv with clusters, '=' and cut-off long names, and the matching of the usage patterns; the parsing of the docstring itself is done by hand. False are: the order of --timeout and --step (refuted), leaving one out (refuted), --dir for summary, rank, rank_details, table (refuted).
  Theorems: `C151_one_command`, `C151_options`, `C151_budget`, `C151_time_partial`, `C151_order_refuted`, `C151_optional_refuted`, `C151_directory_refuted` (CliProps.v).
* **C152 The rankings prefer the better result** (partial). PrefModel.v: the six ranked metrics with the arguments the processor passes, and the first-best choice. Hypervolume through the measure (C25) on the non-dominated members; strictness by a grid cell only the outperforming result covers. Dominance indicator by counting. Counterexamples by computation. True for hypervolume with one to three objectives (strictly, below the reference point 50) and for the dominance indicator when the winner holds no vector twice; for the distances only weaker facts hold (supersets, results on the front). Refuted for each of the six metrics by a pair of results where the outperformed one wins; for hypervolume this needs five objectives (UF11, UF12), where adding a non-dominated point lowers the computed value. One run is compared; the rankings use means over runs.
  Theorems: `C152_hypervolume_partial`, `C152_dominance_indicator_partial`, `C152_distances_partial`, `C152_winner_refuted` (PrefProps.v).
* **C153 The detailed ranking and the table report exactly what the three result directories hold** (proved). RdetModel.v: detailed_rank and table_rank over the contents of the directories. The nested loops are a left fold of single insertions; the value filed under a key is the list of the entries with that key, and because names differ it is the list of scores of one problem. Counters count: two duplicate-free lists of problems are compared. Rows: strictly sorted lists with the same elements are equal. detailed_rank and table_rank as functions of the contents of the directories (what each_result yields). LaTeX text of the rows is represented by its data; logging and timing are left out. Directories are assumed to hold different names, non-empty run lists and no negative metric values.
  Theorems: `C153_details`, `C153_table`, `C153_victories_determined`, `C153_only_budget_40`, `C153_other_directories` (RdetProps.v).
* **C154 The statistics report says something about every stored result, and lists the untrusted ones** (proved). StrepModel.v: the nested loops of statistics as recursions that return what is printed, what is collected for the closing list and how it ends. The text is described separately as a concatenation of paragraphs; suspicious is tied to 'more than one in twenty far' by uniqueness of the count, untrusted to the two means by exact arithmetic; induction over results, algorithms, problems, with the flag for the separating dashes generalised. The printed text is a sequence of items; column widths, colours and number formats are left out. Exact rational arithmetic for the figures, except that the comparison with three standard deviations is about the real square root. The pool's map keeps the order (multiprocessing is trusted).
  Theorems: `C154_report`, `C154_every_result_once`, `C154_listed_exactly`, `C154_aborted` (StrepProps.v).
* **C155 A driver is always shut down and a failing simulation is contained** (partial). Traces of effects with an exception type for each call of SimulationWorker.run; context managers and try/except/finally written out; case analysis over the points of failure, induction over the queue. The last sentence is false (refuted twice): one failing simulation ends the queue before the actor system is shut down, and a constructor that raises after creating its actor leaves it running. C155_actor_system_partial says exactly when the system is shut down. Log lines are left out; the summary is assumed not to raise.
  Theorems: `C155_shut_down_once`, `C155_result`, `C155_contained`, `C155_interruption`, `C155_every_driver_of_the_queue`, `C155_actor_system_partial`, `C155_actor_system_left_running_refuted`, `C155_actor_left_refuted` (WrunProps.v).
* **C156 Benchmark problems are the published test functions** (partial). The published formulas are written down separately (ProbPubSpec), for any number of variables and with one-based indices; each objective is evaluated symbolically (sums over the index sets, no bound on the values) and compared. Witnesses for the problems that compute something else. Exact for UF1-UF5, UF7, ZDT4, Kursawe and Ackley; ZDT1-3 and ZDT6 within the error of their rounded constants. False of UF6 (thirty gaps instead of two) and of UF8-UF10 (each objective gets the variables of the other two): refuted, and what they compute instead is proved. Missing: UF11 and UF12 (the published rotated DTLZ functions are not restated), EWA1 and EWA2 (not published elsewhere). Real arithmetic; UF5 has 10 variables where CEC 2009 uses 30. The published formulas were restated from memory (no network), so ProbPubSpec is part of what a reader has to check.
  Theorems: `C156_exact_partial`, `C156_rounded_constants_partial`, `C156_uf6_thirty_gaps_partial`, `C156_uf6_refuted`, `C156_uf8_to_uf10_other_variables_partial`, `C156_uf8_to_uf10_refuted` (ProbPubProps.v).
* **C157 SPEA2 ranks by the published fitness** (proved). SpeaFitSpec restates strength, raw fitness, distance to the k-th nearest neighbour and their combination by enumerations of positions; the model's counts and sums are shown to be the lengths and sums over those enumerations (uniqueness up to permutation), k by the definition of the integer square root. Real arithmetic. Unions of fewer than two individuals are left out (the k-th neighbour does not exist there). The published formula was restated from memory, so SpeaFitSpec is part of what a reader has to check.
  Theorems: `C157_fitness`, `C157_selection` (SpeaFitProps.v).
* **C158 NSGA-III's reference points are uniformly distributed** (proved). Chances are iterated integrals of indicator functions over the draws (SimplexSpec). Induction over the coordinates still to be drawn, for any remaining length; one step is the integral of a power, by the fundamental theorem on the part where the integrand is not zero. Exact arithmetic; random.random() is taken as uniform on (0, 1) (zero is drawn again by the code). Chances are iterated Riemann integrals (Coquelicot), proved unique. That the threshold sets determine the distribution is a remark, not part of the theorem.
  Theorems: `C158_uniform`, `C158_chances_are_unique`, `C158_no_objective_is_favoured` (SimplexProps.v).
* **C159 Initial populations are independent and uniform in the box** (proved). As C158; the indicator of the whole population is a product of one factor for each draw, the mean of which is the product of the means. Exact arithmetic (rounding: C139); random.random() is taken as uniform on (0, 1). Chances as in C158.
  Theorems: `C159_uniform` (UnifProps.v).
* **C160 A better survivor is likelier to become a parent** (partial). Chances are counts over all the equally likely draws, weighted for the coin (ParentSpec). The outcomes are counted by cases: both draws the individual itself, or one of them and the other worse, better or incomparable. NSGA-II and SPEA2 proved with exact chances. False of IBEA: with probability 0.9 the less fit one wins (C79), so the less fit of any two survivors is strictly the likelier parent (proved for every population). Draws are uniform and independent; distances in exact arithmetic.
  Theorems: `C160_nsgaii`, `C160_nsgaii_prefers_the_better`, `C160_spea2`, `C160_ibea_partial`, `C160_ibea_prefers_the_fitter_refuted` (ParentProps.v).
* **C161 Mutation touches genes independently and favours no direction** (proved). Chances as in C158. The mutated vector is a list of functions of two draws each (C113); the indicator of a pattern is a product of factors of two draws, each of which is constant on four rectangles. Exact arithmetic (with rounding a touched gene may also keep its value); random.random() is taken as uniform on (0, 1). Chances are the iterated integrals of C158.
  Theorems: `C161_mutation`, `C161_neither_direction_is_favoured`, `C161_unchanged` (MoveProps.v).
* **C162 Crossover treats both parents alike** (proved). Chances as in C158. Exchanging the parents is undone by flipping the draw that decides which child gets which value, which maps (0, 1) onto itself except for one point and preserves integrals (substitution on the two halves). Inheritance: products of factors of three draws each; a child's gene is strictly on one side of the middle by the law of C114. Exact arithmetic; random.random() is taken as uniform on (0, 1). Genes of the parents within EPSILON of each other are copied from the chosen parent (C114).
  Theorems: `C162_parents_are_treated_alike`, `C162_inheritance` (InheritProps.v).
* **C163 Resampled averages scatter around the mean of the data** (proved). Expectations are sums over all the sequences of positions (ResampleSpec). First and second moments of the deviation by induction on the size of the resample, with vanishing cross terms. Exact arithmetic. The code uses k = int(0.66 N) for N values, so its intervals are those of about two thirds of the data (see DESIGN.md).
  Theorems: `C163_draws`, `C163_unbiased`, `C163_variance` (ResampleProps.v).
* **C164 Emigrants come from better fronts more often** (partial). The fronts by C09; weighted_choice takes the first front whose cumulated weight exceeds the draw, and the cumulated weights are harmonic numbers by induction. The refutation is a computation with the draws left symbolic. The fronts and the chance of each are proved for every population; that a dominating individual is at least as likely to emigrate is refuted by a population of four. Draws are exact: random.uniform(0, total) is total times a rational u in [0, 1).
  Theorems: `C164_emigrant`, `C164_better_fronts`, `C164_better_individual_refuted` (EmigProps.v).
* **C165 Particles of OMOPSO are guided to sparse places of the front** (partial). Tournaments are the ordered pairs of different positions, counted as in C160; the crowding distances are ordered with infinity (None) on top. The chances are proved for every archive; that leaders in sparse places are preferred is refuted for every pair of leaders whose distances differ, because the tournament takes the smallest crowding distance.
  Theorems: `C165_leader_partial`, `C165_sparse_places_refuted` (GuideProps.v).
* **C166 OMOPSO's particles fly towards their attractors at bounded speed** (proved). SpeedModel: one coordinate over the reals with the draws as arguments; the bound 8 (ub - lb) is an invariant because the inertia is at most 1/2 and the two pulls are below 2 each; sharpness by a flight to and fro with a geometric series. Exact real arithmetic, one coordinate (coordinates do not interact); trimming functions and mutation (which never takes place, C167) are left out.
  Theorems: `C166_speed_is_bounded`, `C166_bound_is_sharp`, `C166_resting_particle`, `C166_reached` (SpeedProps.v).
* **C167 Mutation lets OMOPSO leave a coordinate that all particles share** (partial). Invariant of the OMOPSO model (OmopsoModel): value c and speed 0 in the coordinate for particles, value c for personal bests, leaders and archive; induction over the steps. Refuted for every run: the mutation operators are wrapped in map() objects that are never consumed (OMOPSO.py:165, 174). The trimming function must keep the shared value.
  Theorems: `C167_shared_coordinate_refuted` (CollapseProps.v).
* **C168 Jumping genes arrive where they should** (proved). The model of C20; JumpSpec says which elements are taken, left over and overwritten. Deleting sorted positions from the last one down by induction over the positions; overwriting by induction over the transposon. Exact rational arithmetic. Continues C20, which gives lengths and bounds only.
  Theorems: `C168_cut_and_paste`, `C168_cut_and_paste_conserves`, `C168_copy_and_paste` (JumpProps.v).

## 4. Trusted base

* The Coq 8.16.1 kernel (including its bytecode machine, used by `vm_compute` in examples, witnesses and finite tables).
* The reading of the Python code: the model is tied to the code only by the citations.
* The reading of the literature: the formulas in ProbPubSpec.v (ZDT, UF, Kursawe, Ackley) and SpeaFitSpec.v (SPEA2 fitness) were written from memory of the publications, without access to them; compare them with the papers before relying on C156 and C157.
* The libraries the code calls, by their documented behaviour: Python's `list.sort`/`sorted` are stable and return a permutation; `min`/`max` return the first best; dictionaries keep insertion order; `set` iteration order is arbitrary (an oracle); `random.*` return values in their documented ranges (hypotheses such as `fair`); `numpy.percentile` interpolates linearly, `numpy.mean` and `numpy.linalg.norm` are exact; pickling round-trips a complete file and rejects a proper prefix (hypotheses of the theorems that need it); `Path.iterdir` lists in arbitrary order; rx: `flat_map`, `last`, `buffer_with_count`, `do_action` and `run` as described in RunModel, ImgaRunModel and WorkModel (an exception in `do_action` ends the sequence and is raised by `run`); thespian: mail between two actors arrives in order, each actor handles one message at a time, otherwise any delivery order.
* Flocq (Coq library, no axioms of its own) supplies the double precision format in RndIeee.v, RndProps.v, Fdom*.v and FTime*.v.
* Coquelicot (Coq library, no axioms of its own) supplies the Riemann integral in Simplex*.v and Unif*.v; that iterated integrals over uniform draws express probabilities is the reading of SimplexSpec.v.
* Axioms: none of our own, none from outside the standard library. Theorems about square roots, powers and exponentials use the standard library's real numbers.

Theorems by the axioms `Print Assumptions` lists:

* closed under the global context: all 352 others
* `ClassicalDedekindReals.sig_forall_dec`, `FunctionalExtensionality.functional_extensionality_dep`: `C125_clear_wins_are_seen`, `C125_exact_when_nonnegative`, `C125_within_error`, `C136_rounded_mutation`, `C137_rounded_crossover`, `C138_rounded_non_uniform`, `C159_uniform`, `C160_ibea_partial`, `C160_ibea_prefers_the_fitter_refuted`, `C160_spea2`, `C161_neither_direction_is_favoured`, `C166_bound_is_sharp`, `C166_reached`, `C166_resting_particle`, `C166_speed_is_bounded`, `C33_indicator_unique`, `C39_normalised_value`, `C79_tournament_favours_the_fitter_refuted`, `C79_tournament_partial`
* `ClassicalDedekindReals.sig_forall_dec`, `ClassicalDedekindReals.sig_not_dec`, `FunctionalExtensionality.functional_extensionality_dep`: `C106_few_far`, `C106_flag`, `C106_ten_runs`, `C107_report_refuted`, `C110_uf6_refuted`, `C110_uf9_refuted`, `C110_zdt3_partial`, `C112_rotated_defined`, `C119_ibea`, `C119_spea2`, `C123_ibea`, `C123_spea2`, `C124_ibea`, `C124_spea2_members`, `C124_spea2_refuted`, `C126_ibea`, `C126_spea2`, `C127_ibea`, `C127_spea2`, `C128_ibea_refuted`, `C128_ibea_without_migration`, `C152_distances_partial`, `C152_dominance_indicator_partial`, `C152_hypervolume_partial`, `C152_winner_refuted`, `C154_aborted`, `C154_every_result_once`, `C154_listed_exactly`, `C154_report`, `C156_uf6_refuted`, `C156_uf6_thirty_gaps_partial`, `C157_fitness`, `C157_selection`, `C158_chances_are_unique`, `C26_average_hausdorff_distance`, `C26_generational_distance_value`, `C26_generational_distance_zero`, `C26_inverse_generational_distance_value`, `C26_inverse_generational_distance_zero`, `C29_distribution_infinite`, `C29_distribution_range`, `C29_distribution`, `C29_extent_monotone`, `C29_extent`, `C29_spacing_of_one_point`, `C29_spacing`, `C30_fitness_separates_nondominated`, `C31_archive_selection`, `C33_incremental_fitness`, `C34_known_individuals_charged_again_refuted`, `C75_fitness_respects_dominance`, `C76_archive_is_thinned`, `C77_spea2_run`, `C77_step_selects_from_archive_and_population`, `C80_ibea_run`
* `ClassicalDedekindReals.sig_forall_dec`, `ClassicalDedekindReals.sig_not_dec`, `Classical_Prop.classic`, `FunctionalExtensionality.functional_extensionality_dep`: `C110_ewa_refuted`, `C110_fronts_optimal_partial`, `C110_uf11_refuted`, `C110_uf8_uf10_partial`, `C110_uf8_uf10_refuted`, `C110_zdt3_refuted`, `C111_fronts_cover_partial`, `C111_uf8_uf10_refuted`, `C112_objectives_defined`, `C113_extreme_draws`, `C113_larger_draw`, `C113_larger_eta`, `C113_mirror`, `C113_mutation`, `C113_polynomial_law`, `C114_crossover`, `C114_larger_draw`, `C114_mirror`, `C114_polynomial_law`, `C115_cools_down`, `C115_non_uniform_mutation`, `C119_nsgaiii`, `C123_nsgaiii`, `C125_exact_on_benchmarks`, `C125_kursawe_maximised_refuted`, `C125_refuted`, `C126_nsgaiii`, `C127_migrants_arrive`, `C127_nsgaiii`, `C128_ibea_survivors`, `C128_nsgaiii_refuted`, `C131_hypervolume_refuted`, `C131_summary`, `C131_total_refuted`, `C131_uneven`, `C131_unknown_problem`, `C131_values`, `C139_uniform_stays_in_the_box`, `C140_filtered`, `C140_with_nan`, `C140_without_nan`, `C141_messages_in_doubles`, `C141_no_time_lost`, `C141_slots_in_doubles`, `C141_terminates_in_doubles`, `C156_exact_partial`, `C156_rounded_constants_partial`, `C156_uf8_to_uf10_other_variables_partial`, `C156_uf8_to_uf10_refuted`, `C158_no_objective_is_favoured`, `C158_uniform`, `C161_mutation`, `C161_unchanged`, `C162_inheritance`, `C162_parents_are_treated_alike`, `C39_ideal_point_is_least_so_far`, `C39_normalised_objectives_between_0_and_1`, `C40_reference_points_on_the_simplex`, `C41_clusters_are_nearest_reference_lines`, `C41_selection`, `C78_survivors_not_dominated_by_removed`, `C84_no_end_below_two_individuals`, `C84_nsgaiii_run`

## 5. What is modelled and what is not

| code | model | left out |
|---|---|---|
| algorithms/base/driver.py, model.py | RunModel | rx threading of one job (runs are sequential); exceptions inside a step |
| algorithms/base/drivertools.py | VarModel, OpModel | VarModel leaves the closed-form perturbations as oracles; OpModel has them over the reals |
| algorithms/base/hv.py | HvModel | the dead methods getLength/extend/__str__ beyond their finding |
| algorithms/NSGAII, NSGAIII, SPEA2, IBEA, SMSEMOA, NSLS, OMOPSO, BOGO, JGBL | NsgaModel, Nsga3Model, SpeaModel, IbeaModel, SmsModel, NslsModel, OmopsoModel, BogoModel, JgblModel, VarModel | logging; cut_and_paste and copy_and_paste are box-preserving oracles in JgblModel (C20 proves that of their rational model) |
| algorithms/IMGA (over each driver: ImgaDriversModel) | ImgaModel, ImgaRunModel | threads: islands share nothing, so the order of epochs is immaterial |
| algorithms/HGS/classic, message adapters of the drivers | HgsModel, HgsDriversModel, BlurModel, ArchiveModel, TrimModel | debug output; the blurring of fitness values is in BlurModel and not composed with HgsModel, whose objectives are deterministic (error 0) |
| algorithms/HGS/distributed | DhgsModel | process start-up, timeouts and crashes of actors |
| algorithms/HGS/HGS.py | WorkModel (budget), RunConfModel (signature) | |
| evotools/ea_utils.py, random_tools.py | DomModel, VarModel and others | executors of rxtools.py; its merged observable is in RxModel |
| metrics/* | MetModel, HvModel | |
| simulation/factory.py, run_config.py, model.py | ConfModel, RunConfModel, IdModel | logging; argument parsing by docopt |
| simulation/serializer.py, serialization.py, metrics_processor.py | FsModel, PdiModel, PoolModel | file permissions; error metric output. Concurrent stores are in ConcModel, concurrent queries of a metric in MconcModel |
| simulation/worker.py, run_parallel.py | RunModel, WorkModel, RepModel | seeding, log text |
| statistic/stats_bootstrap.py, ranking.py, stats.py (report) | StatModel, CellModel, RdetModel, StrepModel | percentages and number formatting; LaTeX text of the table |
| problems/* | ProbModel, ProbRotModel | fronts of kursawe, UF11, UF12 (data files) |
| plots/pictures.py, violin.py, best_fronts.py, split_front | PlotModel | colours, markers, legends, files; error bars; matplotlib itself |
| statistic/summary.py, serialization.py each_result | SumModel | the printed layout |
| run_parallel.py log_simulation_stats, log_summary, worker.py renice | RepModel | log layout, microseconds |
| evogil.py, factory.py resolve_configuration | CliModel | docopt's reading of the docstring (done by hand); int() of the texts; list and log output |
| dir_walker.py | DirModel | printed lines; symbolic links; loss of written data by the system |
| plots/testing_plotter.py, plot_metrics.py, problems/testrun.py, HGS_optional.py, HGS_tests.py, example/, test/ | not modelled | plotting and command-line glue, dead code, tests |

Rounded arithmetic: mutate, crossover, NonUniformMutation and gen_population are also modelled with rounding after every operation (RndModel, C136-C139), and the dominance tests and filter_not_dominated also on IEEE doubles with infinities and nan (FdomModel, C140), and timed runs with their clock in doubles (FTimeModel, C141). Elsewhere arithmetic is exact as said in section 2.


## 6. Findings

Violations found in the code while proving; where a theorem shows it, its property is named.

**Running and storing**
* A timed run can miss slots, and a timed result contains work done after its slot (C05, C06).
* One failing simulation stops the queue: `process_result` indexes `None` and no summary is written (C74). An empty job list raises too.
* IMGA results store an exhausted `itertools.chain` as population; the statistics command then raises on `len` (C101).
* HGS halves `run_config`'s `min_progress_ratio` list in place, so later HGS runs in the same process start with smaller ratios (C102).
* `max_budget` never reaches nested drivers (C103).
* The extractor drops the rest of a run silently after a file such as `007.pickle`, and a torn result makes the whole extraction raise (C68); the metric cache can be stale or torn (C109); run numbers of dominance pools follow the unsorted listing (C108).
* The cache of non-dominated pools: after an interrupted write every later evaluation raises (C121); it is compared by solutions and not by keys, so that a result that replaces one of another budget gets indicator 0 (C122). The `except KeyError` around the lookup is dead code (the cache is a defaultdict).
* Unlisted metaalgorithm combinations are silently dropped; without `--algo` nothing runs (C96). `custom_init` suppresses AttributeErrors raised inside a hook.

**Statistics**
* An algorithm without results aborts the ranking with IndexError (C70); the bootstrap interval of a single run is (-inf, -inf) (C71); the suspicious-result report prints inverted counts and labels (C107); ten runs or fewer are never suspicious (C106).

**Plots**
* The legend lacks SPEA2 and SMSEMOA: violins and summaries leave them out, `pictures` raises KeyError on the first of their values although a run without options stores them (C129, C130). `best_fronts` lacks SMSEMOA only (C132).
* `pictures` cuts all pictures off at the end of the first series (C130). `pictures_summary` raises for kursawe and ackley and when a problem lacks a metric that an earlier one had; its hypervolume picture starts at 0.98 (C131). "Best" fronts are first runs; gaps right after the first point of a piece are bridged (C132).

**Metrics**
* The additive epsilon has its operands swapped and is -inf for an empty solution (C27); the dominance indicator exceeds 1 with duplicates (C28); hypervolume is wrong from four dimensions on with ties (C23); `MultiList.getLength` is always 0.

**Algorithms**
* Cost accounting: SPEA2, SMS-EMOA and OMOPSO charge according to the last individual only; SMS-EMOA charges the population size for one evaluation; IBEA charges every individual on every call (C32, C34).
* SPEA2 tie breaking is not lexicographic (C76); a single individual raises. IBEA's mating tournament returns the less fit individual with probability 0.9 (C79); `get_indivs_inorder` raises AttributeError.
* NSLS and NSGA-III can loop forever on tiny populations (C38, C84); NSLS loses extremes (C82).
* OMOPSO: archive insertion skips the element after a removed one; drift through eta (C85); pruning ignores crowding (C86); the crowding tournament prefers the more crowded leader; mutation is never applied (lazy `map`); the population setter makes the next step raise (C87); memory grows (C88); the caller's initial vectors are mutated.
* BOGO's archive drops a dominating member and may become empty.
* Torus topology: missing link and isolated island for width < size < 2*width, self-loops (C89). IMGA assimilation raises unless as many come as go; `epoch_length` 0 raises.
* HGS takes the absolute value of every objective (`math.fabs(random.gauss(...))`), also with error 0: on kursawe its demes maximise the first objective, on ZDT3 they rank vectors with negative second objective backwards (C125). Results are ranked by the true objectives later, so nothing raises.
* IMGA over its drivers: over NSLS an epoch can hang (C127); NSGA-III never shows immigrants to its ideal point and IBEA scales them by ranges taken before they came, so that normalised objectives leave 0..1 (C128).
* HGS over its drivers: over NSLS a metaepoch can hang (C123); over OMOPSO it sprouts from the whole swarm, over SPEA2 from dominated members of the archive, over NSGA-II and JGBL from individuals that did not survive (C124); NSGA-III has no front before its first step, so that an epoch of no steps raises (C123).
* HGS: trimming can move points out of the bounds (C91); an integer `metaepoch_len` (the default) raises. Distributed HGS: redundant nodes are never killed, the sprout limit can be exceeded, `metaepoch_len` 0 raises, task dictionaries never shrink (C60, C61).
* `weighted_choice` fails its assertion when the draw equals the total or the list is empty.
* Benchmark problems (C110): the front of UF6 runs past its segments, UF8 and UF10 publish cube roots for square roots, UF9 publishes negative objectives, EWA1 and EWA2 publish an unattainable origin, ZDT3 publishes a few points just past the minimum of a segment (numerically; not proved). UF8-UF10 also use `if (j - 1) % 3` where the remainder should be zero, which leaves their fronts as they are.

* UF11 (C110): the objective takes `math.sin(z)` where the benchmark takes the sine of z times pi/2, and sums g over all variables; line 4740 of the published front is dominated by an attainable vector by at least 0.07 in every objective.
* UF8, UF10 (C111): some attainable vector beats every published point by more than 0.29 in some objective.

* domination_cmp with nan (C140): `domination_cmp([nan],[1]) == domination_cmp([1],[nan]) == -1`. OMOPSO's test ignores a nan coordinate, so it disagrees with the others and is not transitive.
* Nested drivers (C134): only two levels can be prepared; `IMGA+HGS+SPEA2` fails.

* dir_walker.json2pickle (C142): an existing `500.pickle` is overwritten by the conversion of `500.json`, without a warning; one unreadable JSON file ends the whole walk.

* Any file or directory in the results directory that is not named like a problem module makes every report raise (C144); `summary` always reads the default results directory, whatever `--dir` says.
* multiprocess_observable (C145) never completes if a provider fails and loses messages if one equals "end".
* `--renice 5` makes the first simulation nice 5, the second 10, and so on up to 19, since all run in one process (C146).
* The queue's progress is one simulation behind, so the last report is below 100% and the announced remaining time too long; the minutes are not reduced modulo 60: an hour, a minute and a second is printed as 01:61:01 (C147).

* A report made while a simulation is storing a result raises EOFError or UnpicklingError: results are not written to a temporary name and renamed (C148).

* Two reports made at the same time: one can raise EOFError because it opens the cache file of a metric that the other has just truncated (C149).

* `--dir ZDT1_results` (any directory on the path whose name contains the problem's name and an underscore) makes every evaluation of the dominance indicator of that problem raise IsADirectoryError, since the pattern of clear_old_pdi_metrics is matched against the whole path (C150).

* `run time --step 2 --timeout 60` runs with timeout 2 and step 60: docopt assigns positional arguments in order, whichever flag precedes them. `run time --timeout 60` is accepted although int(None) then raises TypeError. `summary`, `rank`, `rank_details` and `table` reject `--dir` (C151).

* With five objectives (UF11, UF12) adding a non-dominated point can lower the computed hypervolume, so the poorer of two results wins (C25, C152). gd, igd, ahd and spacing can prefer an outperformed result by construction; pdi does if the outperformed result repeats a vector.

* `table` shows results of budget 40 only and does not check their cost, so a run that exceeded its budget by any amount counts; `rank_details` and `table` read three fixed directories, none of which is the directory `rank` reads and simulations write to by default, so after a default run both print nothing (C153).

* `stats` ends with TypeError at the first stored result whose population has no length, and then does not print the list of untrusted results collected so far (C154).

* Sorting the front lexicographically before `HyperVolume.compute` would make it exact in every dimension for points strictly inside the reference point (C23_exact_after_sorting_partial): the errors come from ties in the first objectives being broken differently in the lists.
* `run_parallel` shuts the actor system and the executor down only after a queue without failures: after one failing simulation the Thespian processes keep running; an HGS constructor that raises after `createActor` leaves its supervisor alive (C155).
* UF6 (C156): `2 * n` stands where the published function has 2N with N = 2, so the front has thirty gaps instead of two.
* UF8, UF9, UF10 (C156): the index sets are built with `if (j - 1) % 3` etc., i.e. the complement of the published sets; an objective is charged with the distances of the variables that belong to the other two.

* IBEA's tournament makes the less fit of any two survivors the likelier parent, for every population (C160, see C79).

* The bootstrap of yield_analysis draws resamples of int(0.66 N) values instead of N, so by C163 the variance of the resampled averages, which the reported 95% interval reflects, is about one and a half times that of the usual bootstrap: intervals are too wide by about 23%.

* IMGA weights its emigrants per front, so a member of a large first front can be less likely to emigrate than a lone individual it dominates (C164).

* OMOPSO's leader tournament takes the smallest crowding distance, so the leader in the more crowded place is always the likelier guide, and the ends of the front never win against any other leader with a finite distance (C165).

* Since OMOPSO never applies its mutation, a coordinate in which the initial population agrees is never changed (C167).

