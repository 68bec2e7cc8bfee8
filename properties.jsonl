{"id": "C01", "title": "A budget run stops at the first step that reaches the budget", "statement": "Running a driver with BudgetRun(b) delivers one progress message per driver step, in step order. Every message but the last carries a cost below b, the last (if any) carries a cost of at least b, no step is performed once the cost has reached b, and the job then completes. If the cost is already at least b nothing is stepped and nothing is delivered.", "quantifier": "every driver (any step function and any cost trajectory), every starting state, every budget", "why_tests_cant": "drivers are arbitrary state machines and cost increments are data dependent; a test samples finitely many trajectories", "anchors": ["algorithms/base/driver.py: BudgetRun._start, Driver.next_step, StepCountingDriver"]}
{"id": "C02", "title": "A steps run performs exactly the requested number of steps, numbered consecutively", "statement": "StepsRun(n) performs exactly n driver steps and delivers exactly n messages; the k-th message delivered by a driver in its whole life carries step number k (from 0) and the driver's cost right after that step.", "quantifier": "every driver, every n, every history of earlier runs on the same driver", "why_tests_cant": "must hold for all n and any earlier use of the driver", "anchors": ["algorithms/base/driver.py: StepsRun.create_job, StepCountingDriver, Driver.next_step", "algorithms/base/model.py: ProgressMessageAdapter"]}
{"id": "C03", "title": "Budget worker stores, for each budget, the first state of one continuous run that reaches it", "statement": "For a sorted list of budgets the budget worker stores exactly one result per budget, in order, under the budget's own name; the state stored for budget b is the first state of the driver's uninterrupted trajectory whose cost is at least b; stored costs are therefore at least the budget and non-decreasing, and no driver step is repeated or skipped between budgets.", "quantifier": "every driver, every ascending list of budgets (duplicates included)", "why_tests_cant": "ranges over all drivers and all budget lists", "anchors": ["simulation/worker.py: BudgetWorker", "algorithms/base/driver.py: BudgetRun"]}
{"id": "C04", "title": "A timed run emits each slot at most once, in order, never past the timeout", "statement": "TimeRun(step, timeout) delivers messages whose times are exactly step, 2*step, ..., m*step for some m with m*step <= timeout: consecutive, strictly increasing, no slot skipped or duplicated; each carries the progress of a driver step that was not the last one performed when it was emitted; the run stops at the first step at which the elapsed time reaches the timeout.", "quantifier": "every driver, every step > 0 and timeout, every sequence of step durations", "why_tests_cant": "durations come from the wall clock; a test cannot enumerate schedules", "anchors": ["algorithms/base/driver.py: TimeRun._start"]}
{"id": "C05", "title": "A timed run covers every slot up to the timeout", "statement": "When a TimeRun completes, every multiple of step that is at most timeout has been delivered.", "quantifier": "every driver, every step and timeout, every sequence of step durations", "why_tests_cant": "fails only for particular duration sequences (a single step longer than the whole timeout)", "anchors": ["algorithms/base/driver.py: TimeRun._start"]}
{"id": "C06", "title": "A timed result never contains work done after its time slot", "statement": "The population and cost stored by the time worker for slot t are those of a driver state that was reached no later than t.", "quantifier": "every driver, every step and timeout, every sequence of step durations", "why_tests_cant": "depends on wall clock schedule; needs all duration sequences", "anchors": ["simulation/worker.py: TimeWorker.process_results", "algorithms/base/driver.py: TimeRun._start"]}
{"id": "C07", "title": "Dominance is a strict partial order with the documented three-way result", "statement": "On vectors of equal length domination_cmp(a,b) is 1 exactly when a is no worse everywhere and better somewhere, -1 exactly in the mirrored case and 0 otherwise; domination_cmp(b,a) = -domination_cmp(a,b); dominates is irreflexive, asymmetric and transitive.", "quantifier": "all pairs and triples of objective vectors of any length", "why_tests_cant": "infinite domain; algebraic laws", "anchors": ["evotools/ea_utils.py: domination_cmp, dominates"]}
{"id": "C08", "title": "All dominance tests in the code base agree", "statement": "ea_utils.dominates, NSGAII.dominates and OMOPSO Individual.dominates (with eta=0) return the same answer on every pair of objective vectors of equal length. With a tolerance eta, OMOPSO's test holds exactly when no objective exceeds (1 + eta) times the other's and some objective is below it.", "quantifier": "all pairs of equal-length objective vectors", "why_tests_cant": "three independent loops over unbounded vectors", "anchors": ["evotools/ea_utils.py: dominates", "algorithms/NSGAII/NSGAII.py: dominates_weak, dominates", "algorithms/OMOPSO/OMOPSO.py: Individual.dominates"]}
{"id": "C09", "title": "Pareto layers peel the population completely", "statement": "paretofront_layers terminates, every layer is non-empty, the layers together are a permutation of the input (duplicates kept), the first layer is exactly the non-dominated members, members of one layer do not dominate each other, and each member of layer k+1 is dominated by some member of layer k and by none of its own or later layers.", "quantifier": "every finite list of individuals and every objective function with a fixed number of objectives", "why_tests_cant": "unbounded population; termination of a while loop", "anchors": ["evotools/ea_utils.py: paretofront_layers"]}
{"id": "C10", "title": "filter_not_dominated returns exactly the non-dominated members", "statement": "The result contains exactly those members (with multiplicity and in input order) that no member of the input dominates, and it does not depend (as a multiset) on the order of the input.", "quantifier": "every finite list of objective vectors of equal length", "why_tests_cant": "incremental algorithm whose correctness needs transitivity over arbitrary input order", "anchors": ["metrics/metrics_utils.py: filter_not_dominated"]}
{"id": "C11", "title": "Non-dominated sorting assigns the peeling rank whatever the set iteration order", "statement": "The counting sort used by NSGA-II, SMS-EMOA and NSLS terminates, puts every individual in exactly one front, and front k is exactly the set of individuals non-dominated once fronts 1..k-1 are removed; this holds for any iteration order of Python's sets.", "quantifier": "every population with equal-length objective vectors, every set iteration order", "why_tests_cant": "Python set order depends on addresses; populations are unbounded", "anchors": ["algorithms/NSGAII/NSGAII.py: NSGAII._nd_sort", "algorithms/SMSEMOA/SMSEMOA.py: nd_sort", "algorithms/NSLS/NSLS.py: NSLS.nd_sort"]}
{"id": "C12", "title": "Theta sorting ranks each individual by its position inside its own cluster", "statement": "theta_non_dominated_sort terminates, puts each individual in exactly one front, and an individual's front number is one more than the number of distinct smaller theta-fitness values in its cluster.", "quantifier": "every population, cluster assignment and theta fitness values, every set iteration order", "why_tests_cant": "unbounded population and arbitrary ties", "anchors": ["algorithms/NSGAIII/NSGAIII.py: theta_non_dominated_sort, dominates"]}
{"id": "C13", "title": "NSGA-II environmental selection is elitist", "statement": "After environmental selection the population holds min(population_size, n) of the n individuals; no individual with a smaller front number is dropped while one with a larger front number is kept; within a front no individual with larger crowding distance is dropped while one with smaller crowding distance is kept.", "quantifier": "every population, every ranks and crowding values", "why_tests_cant": "universal over populations and ties", "anchors": ["algorithms/NSGAII/NSGAII.py: NSGAII._environmental_selection"]}
{"id": "C14", "title": "NSGA-II step keeps its sizes, box constraints and evaluation accounting", "statement": "After any number of steps and finalizations every individual has the problem's dimension and lies in the problem's box, the population holds population_size plus the number of offspring of the last step, the finalized population holds exactly population_size vectors, and (without a fitness archive) the reported cost equals the number of individuals ever evaluated, each individual being evaluated once.", "quantifier": "every problem, every sequence of random draws, every sequence of step/finalize calls", "why_tests_cant": "random draws and histories are unbounded", "anchors": ["algorithms/NSGAII/NSGAII.py: NSGAII.step, finish, _calculate_objectives, _mating_selection, _crossover, _mutation"]}
{"id": "C15", "title": "NSGA-II crowding protects the best individual of each objective", "statement": "In every front with at least two members, for each objective the member that comes first when sorted by that objective ends with infinite crowding distance; every other member's distance is finite and non-negative, namely the sum over the objectives of the gap between its two neighbours (twice the gap to the neighbour of the worst member) relative to the range of that objective over the front.", "quantifier": "every front, any number of objectives", "why_tests_cant": "universal over fronts and objective counts", "anchors": ["algorithms/NSGAII/NSGAII.py: NSGAII._crowding"]}
{"id": "C16", "title": "Polynomial mutation stays in the box and touches only selected genes", "statement": "mutate(xs, dims, ...) returns a vector of the same length; every gene selected for mutation lies inside its bounds whatever the perturbation; every gene not selected is unchanged; the input is not modified. So a vector inside the box stays inside it.", "quantifier": "every vector, box, random draw sequence and every value of the perturbation formula", "why_tests_cant": "random draws and float results are unbounded", "anchors": ["algorithms/base/drivertools.py: mutate"]}
{"id": "C17", "title": "Simulated binary crossover stays in the box and only recombines where parents differ", "statement": "crossover(xs, ys, dims, ...) returns a vector of the parents' length; each gene is either copied from one of the parents or clamped into its bounds; genes on which the parents agree are kept; children of parents inside the box are inside the box.", "quantifier": "all parents, boxes, random draw sequences and perturbation values", "why_tests_cant": "as C16", "anchors": ["algorithms/base/drivertools.py: crossover"]}
{"id": "C18", "title": "NSGA-III variation keeps the box and never leaves stale objectives", "statement": "simulated_binary_crossover and polynomial_mutation keep length and box, and whenever a child's vector differs from the parent whose objectives it carries its objectives are reset, so an individual's cached objectives always belong to its current vector.", "quantifier": "all parents, boxes, draws", "why_tests_cant": "stale caching only shows on particular draw combinations", "anchors": ["algorithms/NSGAIII/NSGAIII.py: simulated_binary_crossover, polynomial_mutation"]}
{"id": "C19", "title": "OMOPSO particles never leave the search box", "statement": "After move() every coordinate lies within its bounds for any speed, the speed component is negated exactly when the coordinate was clamped, and the mutation operators add their change to each coordinate they touch, clamped to its bounds, and leave the others alone.", "quantifier": "all particles, speeds, boxes", "why_tests_cant": "arbitrary speeds", "anchors": ["algorithms/OMOPSO/OMOPSO.py: OMOPSO.move, Mutation.__call__"]}
{"id": "C20", "title": "Gene jumping preserves length and box", "statement": "cut_and_paste and copy_and_paste return two vectors of the parents' length, and when parents lie in the box both children lie in the box, for any transposon positions and insertion points.", "quantifier": "all parents, boxes, transposon positions and insertion points", "why_tests_cant": "combinatorial choice of positions", "anchors": ["algorithms/JGBL/JGBL.py: cut_and_paste, copy_and_paste, paste, multi_delete, decode_ratio, convert_to_ratio, prepare_transposon"]}
{"id": "C21", "title": "Generated populations have the requested size and lie in the box", "statement": "gen_population(count, dims) yields exactly count vectors, each with one gene per dimension inside its bounds, placed by a random draw of its own.", "quantifier": "all counts, boxes, random draws", "why_tests_cant": "random draws", "anchors": ["evotools/ea_utils.py: gen_population"]}
{"id": "C22", "title": "Hypervolume is exact in one and two dimensions", "statement": "HyperVolume(ref).compute(front) equals the measure of the region dominated by the front and bounded by the reference point, for fronts with one or two objectives, including duplicated, dominated and non-contributing points and the empty front.", "quantifier": "every front (any size, order, duplicates) and every reference point with 1 or 2 coordinates", "why_tests_cant": "geometric identity over unbounded sets of points", "anchors": ["algorithms/base/hv.py: HyperVolume.compute, hvRecursive, preProcess, sortByDimension"]}
{"id": "C23", "title": "Hypervolume is exact in three dimensions and above", "statement": "HyperVolume(ref).compute(front) equals the measure of the dominated region for three or more objectives.", "quantifier": "every front and reference point with at least 3 coordinates", "why_tests_cant": "pointer-based dimension sweep with memoised partial volumes; correctness depends on all orders and ties", "anchors": ["algorithms/base/hv.py: HyperVolume.hvRecursive, MultiList.remove, MultiList.reinsert"]}
{"id": "C24", "title": "Reinserting nodes in reverse order restores the linked lists", "statement": "After remove()-ing any sequence of nodes from a MultiList and reinsert()-ing them in reverse order all next/prev links are as before; between the two, the removed nodes are exactly absent from the affected lists and the other lists are untouched.", "quantifier": "every multi-list, every sequence of removed nodes", "why_tests_cant": "pointer manipulation over arbitrary sequences", "anchors": ["algorithms/base/hv.py: MultiList.remove, MultiList.reinsert, MultiList.extend"]}
{"id": "C25", "title": "Hypervolume is monotone and insensitive to order, duplicates and dominated points", "statement": "Adding a point never decreases the computed hypervolume; permuting the front, duplicating a point or adding a dominated point does not change it; a front whose points weakly dominate those of another has at least its hypervolume; it is never negative.", "quantifier": "all fronts and reference points (1 and 2 objectives; see C23 for more)", "why_tests_cant": "universal over fronts", "anchors": ["algorithms/base/hv.py: HyperVolume.compute", "metrics/metrics.py: hypervolume"]}
{"id": "C26", "title": "Generational distances vanish exactly on containment", "statement": "generational_distance(S,P) and inverse_generational_distance(S,P) are non-negative; the first is zero iff every member of S equals a member of P, the second iff every member of P is matched in S; average_hausdorff_distance is their maximum and zero iff both vanish.", "quantifier": "all non-empty finite sets of equal-length vectors", "why_tests_cant": "real-valued identity over all sets", "anchors": ["metrics/metrics_utils.py: distance, generational_distance, inverse_generational_distance", "metrics/metrics.py: average_hausdorff_distance"]}
{"id": "C27", "title": "Additive epsilon indicator", "statement": "epsilon(solution, pareto) is the smallest e such that every point of the Pareto front is weakly dominated by some solution point shifted by e (the standard unary additive epsilon indicator).", "quantifier": "all non-empty fronts", "why_tests_cant": "three nested running extrema over unbounded lists", "anchors": ["metrics/epsilon.py: Epsilon.epsilon"]}
{"id": "C28", "title": "Non-domination ratio and Pareto dominance indicator lie in [0,1]", "statement": "non_domination_ratio of a non-empty solution lies in (0,1] and is 1 iff no member is dominated; pareto_dominance_indicator lies in [0,1] and is 1 iff the solution contributes the whole common front.", "quantifier": "all solutions and unions of solutions", "why_tests_cant": "fails only for fronts with duplicates", "anchors": ["metrics/metrics_utils.py: non_domination_ratio, pareto_dominance_indicator"]}
{"id": "C29", "title": "Spread metrics behave", "statement": "spacing is zero when all nearest-neighbour distances are equal and non-negative always; extent is non-negative and monotone under adding points; distribution lies in [0,1] for two or more points and is infinite otherwise.", "quantifier": "all solutions", "why_tests_cant": "universal over sets of vectors", "anchors": ["metrics/metrics_utils.py: spacing, extent, distribution"]}
{"id": "C30", "title": "SPEA2 fitness separates non-dominated individuals", "statement": "After fitness calculation an individual has fitness at most 1 iff no member of archive plus population dominates it.", "quantifier": "every archive and population of at least two individuals in total", "why_tests_cant": "density and strength interact over unbounded unions", "anchors": ["algorithms/SPEA2/SPEA2.py: calculate_fitnesses, calculate_raw_fitness, calculate_density, get_domination_index"]}
{"id": "C31", "title": "SPEA2 archive has exactly the configured size and favours non-dominated individuals", "statement": "environmental_selection returns exactly archive_size members of archive plus population (each occurrence at most once); if the non-dominated members fit, all of them are in the archive; if they do not fit, only non-dominated members are in it.", "quantifier": "every archive/population pair with at least archive_size members", "why_tests_cant": "truncation loop with tie-breaking over arbitrary populations", "anchors": ["algorithms/SPEA2/SPEA2.py: environmental_selection, choose_to_truncate, get_min"]}
{"id": "C32", "title": "Reported cost equals the number of objective evaluations", "statement": "For SPEA2, SMS-EMOA and OMOPSO the cost added by an evaluation round equals the number of individuals actually evaluated in that round (archive hits are free).", "quantifier": "all populations, all archive contents", "why_tests_cant": "fails for particular orders of archive hits", "anchors": ["algorithms/SPEA2/SPEA2.py: calculate_objectives", "algorithms/SMSEMOA/SMSEMOA.py: calculate_objectives", "algorithms/OMOPSO/OMOPSO.py: calculate_objectives"]}
{"id": "C33", "title": "IBEA incremental fitness equals recomputed fitness", "statement": "During environmental selection, after any number of removals each remaining individual's fitness equals the indicator fitness computed from scratch on the remaining individuals (with the same scaling), exactly population_size individuals remain and each removed one had minimal fitness at its removal.", "quantifier": "every population and indicator values", "why_tests_cant": "invariant of an unbounded loop", "anchors": ["algorithms/IBEA/IBEA.py: _calculate_fitness, _environmental_selection"]}
{"id": "C34", "title": "IBEA charges one cost unit per evaluated individual", "statement": "An individual whose objectives are already known is not charged again.", "quantifier": "all histories", "why_tests_cant": "needs all histories", "anchors": ["algorithms/IBEA/IBEA.py: _scale_objectives"]}
{"id": "C35", "title": "SMS-EMOA keeps the population size constant and removes a least contributor of the worst front", "statement": "Each generation adds one individual and removes one; the removed one belongs to the last front of the non-dominated sorting and its hypervolume contribution within that front is minimal.", "quantifier": "all populations, reference points, random draws", "why_tests_cant": "universal over populations", "anchors": ["algorithms/SMSEMOA/SMSEMOA.py: step, reduce_population, calculate_hypervolume_contribution, nd_sort"]}
{"id": "C36", "title": "SMS-EMOA never loses dominated hypervolume", "statement": "The hypervolume of the population with respect to the driver's reference point never decreases over the run.", "quantifier": "every run: all initial populations, offspring and lengths (two objectives)", "why_tests_cant": "a global monotonicity property over unbounded histories", "anchors": ["algorithms/SMSEMOA/SMSEMOA.py: step, reduce_population", "algorithms/base/hv.py: HyperVolume.compute"]}
{"id": "C37", "title": "NSLS local search never replaces an individual by one it dominates and stays in the box", "statement": "Each replacement made by local_search puts in an individual that is not dominated by the one it replaces, and (with the default trim function) every candidate lies in the box when the population does.", "quantifier": "all populations and random draws", "why_tests_cant": "random draws unbounded", "anchors": ["algorithms/NSLS/NSLS.py: local_search"]}
{"id": "C38", "title": "NSLS selection terminates with population_size individuals", "statement": "next_generation always terminates and leaves exactly population_size individuals, consisting of complete fronts plus members of the first front that does not fit.", "quantifier": "all populations", "why_tests_cant": "termination of an unbounded while loop", "anchors": ["algorithms/NSLS/NSLS.py: next_generation"]}
{"id": "C39", "title": "NSGA-III ideal point and normalisation", "statement": "The ideal point is, at every moment, the componentwise minimum of the objective vectors of all individuals evaluated so far; normalised objectives are non-negative and at most 1.", "quantifier": "all histories", "why_tests_cant": "unbounded history", "anchors": ["algorithms/NSGAIII/NSGAIII.py: update_ideal_point, normalize"]}
{"id": "C40", "title": "NSGA-III reference points lie on the unit simplex", "statement": "Every generated reference point has objective_no non-negative coordinates that sum to 1.", "quantifier": "all objective counts and random draws", "why_tests_cant": "random draws", "anchors": ["algorithms/NSGAIII/NSGAIII.py: generate_reference_point"]}
{"id": "C41", "title": "NSGA-III selection keeps the population size and the best of every cluster", "statement": "create_final_population leaves exactly population_size individuals made of complete lower fronts plus a sample of the next one, whenever the fronts hold more than population_size individuals; clustering puts each individual in exactly one cluster, that of a nearest reference line.", "quantifier": "all populations, fronts and samples", "why_tests_cant": "universal over populations; termination", "anchors": ["algorithms/NSGAIII/NSGAIII.py: create_final_population, clustering"]}
{"id": "C42", "title": "OMOPSO archive contains no dominated member", "statement": "After any sequence of add() calls no member of the archive is dominated by another.", "quantifier": "all sequences of additions", "why_tests_cant": "sequence dependent: needs removal during iteration", "anchors": ["algorithms/OMOPSO/OMOPSO.py: Archive.add"]}
{"id": "C43", "title": "OMOPSO leader archive is bounded and personal bests only improve", "statement": "The leader archive never holds more than its size; a particle's personal best is replaced only by a position that dominates it, so it is never replaced by a worse or incomparable one.", "quantifier": "all sequences of additions", "why_tests_cant": "unbounded sequences", "anchors": ["algorithms/OMOPSO/OMOPSO.py: LeaderArchive.add, prune, update_personal_best"]}
{"id": "C44", "title": "BOGO archive is the set of non-dominated points seen so far", "statement": "After any sequence of insertions the archive contains exactly the non-dominated points among all points inserted so far.", "quantifier": "all insertion sequences", "why_tests_cant": "sequence dependent", "anchors": ["algorithms/BOGO/BOGO.py: refresh_archive"]}
{"id": "C45", "title": "IMGA islands partition the population evenly", "statement": "create_islands distributes the initial population over exactly islands_number islands: the islands together are a permutation of the population and their sizes differ by at most one.", "quantifier": "all populations and positive island counts", "why_tests_cant": "all sizes", "anchors": ["algorithms/IMGA/IMGA.py: create_islands"]}
{"id": "C46", "title": "The torus topology is a valid symmetric neighbourhood", "statement": "TorusTopology(w).create(n) gives one neighbour set per island; every neighbour is a valid island and neighbourhood is symmetric.", "quantifier": "all widths >= 1 and sizes", "why_tests_cant": "all sizes; index arithmetic with remainders", "anchors": ["algorithms/IMGA/topology.py: TorusTopology.create"]}
{"id": "C47", "title": "Migration conserves individuals and island sizes", "statement": "On any symmetric in-range topology and islands large enough, a migration never fails, the union of all islands' populations is unchanged as a multiset and each island keeps its size.", "quantifier": "all populations, topologies, random choices", "why_tests_cant": "random choices and sizes unbounded", "anchors": ["algorithms/IMGA/IMGA.py: migration, Island.emigrate, immigrate, assimilate", "algorithms/IMGA/message.py: DefaultIMGAMessageAdapter"]}
{"id": "C48", "title": "weighted_choice selects by cumulative weight and never fails for positive weights", "statement": "For positive weights and a draw r in [0,total) the item whose cumulative weight interval contains r is returned; it never returns an item of weight zero; at r = total the assertion fires.", "quantifier": "all weight lists and draws", "why_tests_cant": "real-valued draws", "anchors": ["evotools/random_tools.py: weighted_choice"]}
{"id": "C49", "title": "IMGA cost is the sum of the islands' current costs", "statement": "After each step the reported cost is the sum over islands of the cost in the last message of their epoch, independent of the order in which islands finish; it is at least the previous cost when island costs never decrease.", "quantifier": "all schedules of island completion", "why_tests_cant": "thread schedule", "anchors": ["algorithms/IMGA/IMGA.py: step, update_cost"]}
{"id": "C50", "title": "The HGS tree stays well formed", "statement": "After any number of steps: each node is registered once, at the level one above its parent's; levels never exceed max_level; the level lists partition the node list; the root is the only level-0 node.", "quantifier": "all runs: driver behaviours, random draws, lengths", "why_tests_cant": "unbounded histories", "anchors": ["algorithms/HGS/classic/ClassicHGS.py: step, release_new_sprouts, Node.release_new_sprouts"]}
{"id": "C51", "title": "HGS sprouting limits are respected", "statement": "In one step a node releases at most sproutiveness sprouts and only if it is ripe and below max_level; releasing never brings the number of its alive sprouts above max_sprouts_no.", "quantifier": "all runs", "why_tests_cant": "unbounded histories", "anchors": ["algorithms/HGS/classic/ClassicHGS.py: Node.release_new_sprouts"]}
{"id": "C52", "title": "HGS cost is the modifier-weighted sum of the nodes' evaluations", "statement": "A metaepoch increases the cost by the sum over alive nodes of cost_modifiers[level] times the cost its driver spent in that metaepoch; dead nodes are not run and contribute nothing.", "quantifier": "all populations of nodes, all driver cost trajectories", "why_tests_cant": "unbounded", "anchors": ["algorithms/HGS/classic/ClassicHGS.py: run_metaepoch, _update_cost, Node.run_metaepoch, fill_node_info, update_current_cost"]}
{"id": "C53", "title": "HGS never stalls", "statement": "After every step at least one node is alive; a node is revived only if it was killed for lack of progress, nodes killed as redundant are never revived; each revival halves the progress thresholds.", "quantifier": "all runs", "why_tests_cant": "unbounded histories", "anchors": ["algorithms/HGS/classic/ClassicHGS.py: trim_sprouts, trim_not_progressing, trim_redundant, revive_root"]}
{"id": "C54", "title": "HGS redundancy trimming keeps survivors apart", "statement": "After trim_redundant on a level, no alive node's centre is closer than the level's minimal distance to the centre of an earlier processed node or a ripe node of that level, and every node killed has such a neighbour; the first alive node of a level with no ripe dead nodes is never killed.", "quantifier": "all node lists", "why_tests_cant": "unbounded", "anchors": ["algorithms/HGS/classic/ClassicHGS.py: trim_redundant, redundant"]}
{"id": "C55", "title": "Mantissa trimming truncates towards zero and is idempotent", "statement": "trim_mantissa(x, k) has the sign of x, magnitude at most that of x, loses less than one unit of its k-th mantissa bit, equals x when k covers the whole mantissa, is monotone and applying it twice changes nothing; on a box whose bounds are themselves representable with k bits or straddle zero the result stays in the box.", "quantifier": "all floats and bit counts", "why_tests_cant": "2^64 values and box interaction", "anchors": ["algorithms/HGS/classic/ClassicHGS.py: trim_mantissa, trim_vector", "algorithms/HGS/tools.py: trim_mantissa"]}
{"id": "C56", "title": "The fitness archive behaves as a map keyed by vector value", "statement": "For any sequence of insertions, deletions and lookups ResultArchive returns the last value stored under an equal vector (list or tuple), membership and length agree with that map.", "quantifier": "all operation sequences", "why_tests_cant": "unbounded histories", "anchors": ["algorithms/HGS/tools.py: TransformedDict, ResultArchive"]}
{"id": "C57", "title": "HGS finalized population is the concatenation of its nodes' populations", "statement": "finalized_population returns the populations of all nodes (dead ones included) in creation order; nothing is lost or duplicated.", "quantifier": "all runs", "why_tests_cant": "unbounded", "anchors": ["algorithms/HGS/classic/ClassicHGS.py: finalized_population"]}
{"id": "C58", "title": "A distributed metaepoch answers once, after all nodes, with a schedule-independent cost", "statement": "For any order in which node replies arrive, the supervisor answers a metaepoch request exactly once, when the last reply has arrived, and the new cost is the old one plus the maximum weighted cost over nodes that ran.", "quantifier": "all node sets and all reply orders", "why_tests_cant": "message interleavings", "anchors": ["algorithms/HGS/distributed/hgs_tasks.py: MetaepochHgsTask", "algorithms/HGS/distributed/node_tasks.py: NewMetaepochNodeTask"]}
{"id": "C59", "title": "Distributed population and status queries are complete", "statement": "For any reply order the population answer is a permutation of the concatenation of all nodes' populations and the status answer contains exactly one status per node.", "quantifier": "all reply orders", "why_tests_cant": "message interleavings", "anchors": ["algorithms/HGS/distributed/hgs_tasks.py: PopulationHgsTask, StatusHgsTask"]}
{"id": "C60", "title": "Distributed HGS trims redundant nodes as classic HGS does", "statement": "After a TRIM_REDUNDANT round the alive nodes of each level are those that survive the redundancy rule.", "quantifier": "all node states and reply orders", "why_tests_cant": "message interleavings and iterator exhaustion", "anchors": ["algorithms/HGS/distributed/hgs_tasks.py: TrimRedundantHgsTask"]}
{"id": "C61", "title": "Distributed HGS respects the sprout limit", "statement": "A release round never brings the number of a node's alive sprouts above max_sprouts_no, and releases at most sproutiveness sprouts per ripe node.", "quantifier": "all states", "why_tests_cant": "unbounded", "anchors": ["algorithms/HGS/distributed/node_tasks.py: ReleaseSproutsNodeTask"]}
{"id": "C62", "title": "A distributed release round visits every node once, from the leaves to the root, and terminates", "statement": "For any interleaving of node registrations and replies, the supervisor asks each node existing at its level exactly once, finishes a level before starting the one above, and answers exactly once.", "quantifier": "all interleavings", "why_tests_cant": "message interleavings", "anchors": ["algorithms/HGS/distributed/hgs_tasks.py: ReleaseSproutsHgsTask"]}
{"id": "C63", "title": "Distributed HGS revival", "statement": "If no node is alive after a step all and only ripe nodes are revived and the thresholds halved; otherwise nothing changes; the request is always answered exactly once.", "quantifier": "all states and reply orders", "why_tests_cant": "message interleavings", "anchors": ["algorithms/HGS/distributed/hgs_tasks.py: ReviveHgsTask", "algorithms/HGS/distributed/node_tasks.py: ReviveNodeTask"]}
{"id": "C64", "title": "Configuration layers override in the documented order", "statement": "In the configuration handed to a driver each option takes its value from the last layer that defines it among: built-in, algorithm base, (algorithm, subdrivers) base, custom entries, initialiser hooks; the population is generated only when no layer supplied one; options no layer defines are absent.", "quantifier": "all option sets and layer contents", "why_tests_cant": "all dictionaries", "anchors": ["simulation/factory.py: prepare_with_driver"]}
{"id": "C65", "title": "Every requested simulation is scheduled exactly once", "statement": "The job list is the product of problems, algorithms and repetitions: each (problem, algorithm, run) occurs exactly once, and shuffling keeps that.", "quantifier": "all problem/algorithm lists and repetition counts", "why_tests_cant": "all sizes", "anchors": ["simulation/factory.py: create_simulation and callers", "simulation/run_parallel.py: run_parallel"]}
{"id": "C66", "title": "Stored runs are found again by the extractor", "statement": "A simulation id produced for a run (any date, any run number from 1 to 9999999) is recognised by the results extractor and decodes to the same date and run number, so its result directory is found again; different (date, run) pairs have different ids.", "quantifier": "all dates and run numbers", "why_tests_cant": "all ids", "anchors": ["simulation/model.py: get_simulation_id", "simulation/serialization.py: ResultsExtractor._each_run"]}
{"id": "C67", "title": "Results written are the results read, and no other result is disturbed", "statement": "Serializer.load(name) after store(result, name) returns that result; storing under a different name, run, algorithm or problem does not affect it; a crash before or during a store leaves every other stored result intact.", "quantifier": "all sequences of stores and loads and all crash points", "why_tests_cant": "histories and crash points", "anchors": ["simulation/serializer.py: Serializer, save_file, load_file"]}
{"id": "C68", "title": "Results are grouped by budget in increasing order", "statement": "The extractor returns one entry per distinct budget, sorted numerically (not lexicographically), each with the results of every run that has that budget, in run order.", "quantifier": "all directory contents", "why_tests_cant": "all directory listings", "anchors": ["simulation/serialization.py: NumberMeasuredResultExtractor"]}
{"id": "C69", "title": "The metric cache is transparent", "statement": "For any sequence of metric queries on unchanged results the value returned equals the value the metric function computes, computed at most once per (result, metric); querying with different parameters than cached raises instead of returning a wrong value.", "quantifier": "all query sequences", "why_tests_cant": "histories", "anchors": ["simulation/metrics_processor.py: get_metric"]}
{"id": "C70", "title": "find_acceptable_result_for_budget picks the largest acceptable budget", "statement": "Given results in increasing budget order it returns the one with the largest budget whose mean cost is at most the largest requested budget plus 500, or None if there is none.", "quantifier": "all result lists", "why_tests_cant": "telescoping tolerance over unbounded lists", "anchors": ["statistic/stats_bootstrap.py: find_acceptable_result_for_budget, validate_cost"]}
{"id": "C71", "title": "Bootstrap interval is ordered and drawn from the data's range", "statement": "For n >= 1 resamples and 0 <= alpha <= 1/2 (alpha > 0 so that the upper index exists) the interval's from does not exceed its to and both lie between the smallest and largest data value; the reported value is the mean of all data.", "quantifier": "all data, resample draws, n and alpha", "why_tests_cant": "random resampling", "anchors": ["statistic/stats_bootstrap.py: bootstrap, sample_wr, average"]}
{"id": "C72", "title": "Outlier analysis is consistent", "statement": "Fences are nested, the number of mild outliers is non-negative, extreme and mild outliers and inliers partition the data, and at least one inlier exists.", "quantifier": "all non-empty data sets", "why_tests_cant": "numeric quartile interpolation over all data", "anchors": ["statistic/stats_bootstrap.py: yield_analysis"]}
{"id": "C73", "title": "Weak winners are exactly the near-ties", "statement": "get_weak_winners returns, in order, the other algorithms whose score ratio to the winner's is at least 1 - tolerance; a winner alone gets two points, otherwise the winner and each weak winner get one.", "quantifier": "all scorings", "why_tests_cant": "all scorings", "anchors": ["statistic/ranking.py: get_weak_winners, table_rank, rank"]}
{"id": "C74", "title": "One failing simulation does not stop the others", "statement": "When a worker fails (its run returns nothing) the remaining simulations are still run and the failure is listed in the summary.", "quantifier": "all failure patterns", "why_tests_cant": "all failure patterns", "anchors": ["simulation/run_parallel.py: run_parallel, log_summary", "simulation/worker.py: SimulationWorker.run"]}
{"id": "C75", "title": "SPEA2 fitness respects dominance", "statement": "After fitness calculation an individual that dominates another has the strictly smaller (better) fitness.", "quantifier": "every archive and population of at least two individuals in total", "why_tests_cant": "quantifies over all populations", "anchors": ["algorithms/SPEA2/SPEA2.py: calculate_fitnesses, calculate_raw_fitness, calculate_density"]}
{"id": "C76", "title": "SPEA2 truncation removes a most crowded individual", "statement": "Truncation removes one member of a closest pair of the environment; ties are broken lexicographically by the next nearest distances.", "quantifier": "every environment with at least two members", "why_tests_cant": "quantifies over all sets of points and ties", "anchors": ["algorithms/SPEA2/SPEA2.py: choose_to_truncate, get_min"]}
{"id": "C77", "title": "SPEA2 run invariants", "statement": "Over any run the population keeps its size and stays in the box, the finalised population has exactly the configured size after the first step, every archived objective vector is that of its genotype, and without a fitness archive the cost is the number of evaluations.", "quantifier": "all runs, random draws and lengths (at least two individuals)", "why_tests_cant": "whole-run property", "anchors": ["algorithms/SPEA2/SPEA2.py: step, finalized_population"]}
{"id": "C78", "title": "IBEA never removes an individual while keeping one it dominates", "statement": "After environmental selection no removed individual dominates a survivor.", "quantifier": "all populations, objective values and population sizes", "why_tests_cant": "quantifies over all populations and real-valued indicator values", "anchors": ["algorithms/IBEA/IBEA.py: _calculate_fitness, _environmental_selection"]}
{"id": "C79", "title": "IBEA mating tournament favours the fitter individual", "statement": "With the favourable outcome of the coin (probability 0.9) the tournament returns the fitter of the two individuals, i.e. the one environmental selection would remove later.", "quantifier": "all fitness values and pairs", "why_tests_cant": "all real fitness values", "anchors": ["algorithms/IBEA/IBEA.py: _mating_selection"]}
{"id": "C80", "title": "IBEA run invariants", "statement": "Over any sequence of steps and finalisations no call fails, individuals stay in the box, finalized_population returns exactly population_size individuals, and the cost is the number of charged individuals.", "quantifier": "all runs, random draws and lengths", "why_tests_cant": "whole-run property", "anchors": ["algorithms/IBEA/IBEA.py: step, finish, _scale_objectives"]}
{"id": "C81", "title": "SMS-EMOA run invariants", "statement": "Over any run (up to three objectives, at least two individuals) no step fails, the population keeps its size and stays in the box, and without a fitness archive the cost is the initial population plus population size times the number of generated individuals.", "quantifier": "all runs, random draws, epoch lengths and lengths", "why_tests_cant": "whole-run property", "anchors": ["algorithms/SMSEMOA/SMSEMOA.py: __init__, step, generate, calculate_objectives"]}
{"id": "C82", "title": "NSLS keeps the extreme individuals of the cut front and spreads the rest", "statement": "When NSLS can take only part of a front, with room for at least two individuals per objective, the individuals of that front with the smallest and the greatest value of each objective survive, and the remaining places are filled farthest-first: each next individual is one whose distance to the nearest already kept one is largest.", "quantifier": "every set of evaluated individuals, population size, number of objectives and random draw", "why_tests_cant": "which individuals survive depends on the order in which the front is listed and on random.sample; a unit test fixes both", "anchors": ["algorithms/NSLS/NSLS.py: NSLS.next_generation"]}
{"id": "C83", "title": "NSLS run invariants", "statement": "A run of NSLS from a population of at least two vectors in the search box never raises an exception; whenever its steps end, finalized_population() has as many vectors as the initial population, all inside the box, and the reported cost equals the number of objective evaluations made (without a fitness archive: one per initial individual plus two per individual, coordinate and step).", "quantifier": "every problem, initial population in the box, number of steps, random draws and fitness archive contents", "why_tests_cant": "quantifies over all run lengths and draws", "anchors": ["algorithms/NSLS/NSLS.py: NSLS.step, NSLS.local_search, NSLS.calculate_objectives, NSLS.finalized_population"]}
{"id": "C84", "title": "NSGA-III run invariants", "statement": "A run of NSGA-III from at least two vectors in the search box never raises and every step ends; finalized_population() has as many vectors as the initial population, all in the box; the cost is the number of evaluations made; there is one reference point per individual. With fewer than two individuals a step never ends.", "quantifier": "every problem, initial population, number of steps, random draws and fitness archive contents", "why_tests_cant": "quantifies over all run lengths and draws", "anchors": ["algorithms/NSGAIII/NSGAIII.py: NSGAIII.__init__, NSGAIII.step, NSGAIII.finalized_population"]}
{"id": "C85", "title": "OMOPSO's archive covers every position offered to it", "statement": "After any sequence of additions to OMOPSO's archive every offered particle is equal to or dominated by an archived one, so the reported solution set is never worse than anything the run found.", "quantifier": "every sequence of additions, number of objectives and tolerance eta", "why_tests_cant": "depends on the whole history of additions and on the tolerance", "anchors": ["algorithms/OMOPSO/OMOPSO.py: Archive.add, OMOPSO.update_archive, Particle.dominates"]}
{"id": "C86", "title": "OMOPSO keeps the extreme leaders when it prunes", "statement": "When the leader archive is too large the member removed is a most crowded one; the members with an extreme value of an objective are kept.", "quantifier": "every leader archive and objective values", "why_tests_cant": "quantifies over all archives and ties", "anchors": ["algorithms/OMOPSO/OMOPSO.py: LeaderArchive.prune, LeaderArchive.crowding"]}
{"id": "C87", "title": "OMOPSO run invariants", "statement": "A run of OMOPSO from a non-empty population in the search box never raises; the swarm keeps its size; every particle, leader and archived vector lies in the box and was trimmed; finalized_population() is not empty and contains only positions some particle visited; leaders are at most as many as particles; without a fitness archive the cost is one per particle at the start and per particle and step. Assigning the population and stepping again works as well.", "quantifier": "every problem, initial population, number of steps, random draws and fitness archive contents", "why_tests_cant": "quantifies over all run lengths and draws", "anchors": ["algorithms/OMOPSO/OMOPSO.py: OMOPSO.__init__, OMOPSO.step, OMOPSO.finalized_population, OMOPSO.population"]}
{"id": "C88", "title": "The memory of an OMOPSO swarm does not grow with the run", "statement": "The amount of state a particle holds is bounded independently of the number of steps taken.", "quantifier": "all run lengths, problems and draws", "why_tests_cant": "a property of arbitrarily long histories", "anchors": ["algorithms/OMOPSO/OMOPSO.py: OMOPSO.update_personal_best"]}
{"id": "C89", "title": "The torus links every pair of adjacent islands and no other", "statement": "TorusTopology(w).create(n) laid out row by row makes two different islands neighbours exactly when they are next to each other on the ring of their row or on the ring of their column, so every island can be reached from every other.", "quantifier": "all widths and sizes", "why_tests_cant": "all sizes; index arithmetic with remainders", "anchors": ["algorithms/IMGA/topology.py: TorusTopology.create"]}
{"id": "C90", "title": "A whole IMGA run over NSGA-II keeps its populations", "statement": "For islands large enough and any random choices and completion order, an IMGA run over NSGA-II on a torus never fails: every island keeps its population size, every individual is evaluated and inside the bounds, the final population has the size of the initial one, and the reported cost is the number of evaluations on all islands.", "quantifier": "all problems, populations, islands, schedules, random choices and numbers of steps", "why_tests_cant": "unbounded runs, random choices, schedules", "anchors": ["algorithms/IMGA/IMGA.py: IMGA", "algorithms/NSGAII/NSGAII.py: NSGAII"]}
{"id": "C91", "title": "Points the nodes of HGS evaluate stay within the problem's bounds", "statement": "A vector within the problem's bounds is still within them after the trimming that a node of HGS applies before evaluating it (mantissa cut to the bits of the node's level).", "quantifier": "all boxes, vectors and bit counts", "why_tests_cant": "Whether trimming leaves the box depends on the bounds' bit patterns; sampled boxes with bounds such as 0 and 1 never show it.", "anchors": ["algorithms/HGS/classic/ClassicHGS.py: trim_vector, trim_mantissa", "algorithms/HGS/tools.py: trim_vector, trim_mantissa"]}
{"id": "C92", "title": "HGS gives every node a grace period", "statement": "A node created in one step cannot be killed for lack of progress in the next two steps: progress is first compared in its third metaepoch.", "quantifier": "all reachable trees, all nodes created in them, all drivers, all draws", "why_tests_cant": "The comparison depends on three optional measurements whose presence depends on the node's whole history.", "anchors": ["algorithms/HGS/classic/ClassicHGS.py:Node.run_metaepoch", "algorithms/HGS/classic/ClassicHGS.py:ClassicHGS.trim_not_progressing"]}
{"id": "C93", "title": "HGS sprouts only where it has not been", "statement": "Every node a step adds is a sprout of an older ripe node, its population consists of one of that node's delegates and mutants of it, and the delegate is not closer than the level's minimal distance to the centre of any node of that level that has run.", "quantifier": "all reachable trees, all drivers, all draws", "why_tests_cant": "Quantifies over whole trees and every delegate; a test sees one tree.", "anchors": ["algorithms/HGS/classic/ClassicHGS.py:Node.release_new_sprouts", "algorithms/HGS/classic/ClassicHGS.py:population_from_delegate"]}
{"id": "C94", "title": "HGS never raises with a well-behaved nested driver", "statement": "With list parameters that have three entries, max_level at most 2 and a root population no larger than the initial one, no step of HGS raises and every population and delegate stays within the bounds, for every nested driver whose constructor, step and finalized population do not raise and stay within the bounds; NSGA-II is such a driver.", "quantifier": "all configurations of that kind, all driver behaviours within the contract, all draws, run lengths", "why_tests_cant": "Exceptions would appear only for particular trees (missing centres, missing levels, deep recursion).", "anchors": ["algorithms/HGS/classic/ClassicHGS.py:ClassicHGS.step", "algorithms/HGS/classic/ClassicHGS.py:Node", "algorithms/NSGAII/NSGAII.py:NSGAII"]}
{"id": "C95", "title": "Distributed HGS: a node stops exactly when its progress falls below the threshold of its level", "statement": "After the request to trim nodes that make no progress, exactly the living nodes whose relative hypervolume progress in the last metaepoch is below the threshold of their level have ripened; all other nodes are unchanged; the cost is unchanged and the request is answered exactly once, whatever the order of messages.", "quantifier": "all trees, all hypervolume histories, all message orders", "why_tests_cant": "message interleavings and histories of hypervolumes", "anchors": ["algorithms/HGS/distributed/hgs_tasks.py: TrimNotProgressingHgsTask", "algorithms/HGS/distributed/node_tasks.py: TrimNotProgressingNodeTask"]}
{"id": "C96", "title": "Every algorithm named on the command line is run", "statement": "Each name given with --algo that denotes a known driver, or a metaalgorithm combined with known drivers, is run; with no --algo all algorithms are run.", "quantifier": "all --algo arguments", "why_tests_cant": "The list of admissible names is a cross product; a test samples a few names.", "anchors": ["simulation/factory.py: parse_algorithms", "simulation/run_config.py: algorithms"]}
{"id": "C97", "title": "Every listed algorithm can be prepared and constructed on every listed problem", "statement": "For every algorithm and every problem in the configuration, preparing the driver succeeds and the keyword arguments collected for each class are accepted by its constructor and include all its required arguments.", "quantifier": "all pairs of listed algorithm and problem, all random draws", "why_tests_cant": "There are hundreds of combinations and each needs a full run to fail.", "anchors": ["simulation/run_config.py", "simulation/factory.py: prepare"]}
{"id": "C104", "title": "The runs of one invocation write to different directories", "statement": "However the clock runs and whatever numbers are drawn, no two jobs of one invocation (up to 1000000 repetitions) share a result directory.", "quantifier": "all invocations, clock readings and random draws", "why_tests_cant": "A collision needs two ids made in the same microsecond or an unlucky draw.", "anchors": ["simulation/model.py: get_simulation_id", "simulation/factory.py: create_simulation", "simulation/serializer.py: Serializer"]}
{"id": "C105", "title": "Listing runs by name lists them in the order they were started", "statement": "The string order of two run ids is the order of their dates and, for equal dates, of their run numbers.", "quantifier": "all dates and run numbers up to 9999999", "why_tests_cant": "Holds only because every field has a fixed width; examples do not show it.", "anchors": ["simulation/model.py: get_simulation_id", "simulation/serialization.py: ResultsExtractor._each_run"]}
{"id": "C108", "title": "The dominance indicator compares runs with the same number", "statement": "The pool a result's Pareto dominance indicator is computed from holds, for every algorithm, exactly the result stored under the same budget by the run with the same number, where runs are numbered as the extractor numbers them; in particular it holds the result itself.", "quantifier": "all directory contents and all orders in which directories are listed", "why_tests_cant": "The order in which an operating system lists a directory is arbitrary; on a test machine it usually looks sorted.", "anchors": ["simulation/metrics_processor.py: preload_results_for_problem, pareto_dominance_indicator", "simulation/serialization.py: ResultsExtractor._each_run"]}
{"id": "C109", "title": "Cached metrics follow the results", "statement": "After a result is stored again under the same name its metrics are those of the new result; a crash while a metric is being cached does not make that metric unusable.", "quantifier": "all histories of stores and metric queries, all crash points", "why_tests_cant": "Needs a re-run over existing results or a crash inside a write.", "anchors": ["simulation/metrics_processor.py: get_metric", "simulation/serializer.py: Serializer.store"]}
{"id": "C106", "title": "Results are called suspicious exactly when too many values are far from the mean", "statement": "yield_analysis reports a data set as suspicious exactly when more than one value in twenty lies farther than three standard deviations from the mean. Ten values or fewer are therefore never suspicious, and fewer than one value in nine can be that far out.", "quantifier": "all non-empty data sets and resample draws", "why_tests_cant": "an inequality over all data sets", "anchors": ["statistic/stats_bootstrap.py: yield_analysis"]}
{"id": "C107", "title": "The report on a suspicious result labels the values it says it labels", "statement": "In the report of the statistics command the number printed as out of the three-sigma interval is the number of values outside it, exactly those values are labelled so, and the labels mild and extreme outlier agree with the analysis.", "quantifier": "all data sets", "why_tests_cant": "boundary values and inverted conditions show only on particular data", "anchors": ["statistic/stats.py: statistics"]}
{"id": "C101", "title": "Stored populations match stored fitnesses", "statement": "A stored result holds the driver's final population and, in the same order, the fitness values of its individuals; the population can be read (and its length taken) as often as wanted.", "quantifier": "all drivers, populations and fitness functions", "why_tests_cant": "depends on which kind of iterable each driver returns and on the order of consumption", "anchors": ["simulation/worker.py: BudgetWorker.run_driver, TimeWorker.run_driver", "algorithms/IMGA/IMGA.py: finalized_population", "statistic/stats.py: statistics"]}
{"id": "C102", "title": "Simulations in one process do not influence each other", "statement": "A simulation executed after others in the same process gives the same results as in a process of its own (for the same random draws).", "quantifier": "all sequences of simulations and random draws", "why_tests_cant": "aliasing of configuration objects shows only after particular earlier runs", "anchors": ["algorithms/HGS/classic/ClassicHGS.py: revive_root", "simulation/run_config.py: algo_base", "simulation/factory.py: load_algorithm_config"]}
{"id": "C103", "title": "Nested drivers know the budget", "statement": "When a budget run starts, the drivers inside a composite driver know the largest budget, as the outer one does.", "quantifier": "all nestings and budgets", "why_tests_cant": "initialisation order; no test observes the attribute", "anchors": ["algorithms/IMGA/IMGA.py: spread_budget_info", "simulation/worker.py: BudgetWorker.run_driver", "algorithms/OMOPSO/OMOPSO.py: step"]}
{"id": "C110", "title": "Published Pareto fronts are attainable and optimal", "statement": "For every benchmark problem, each point of the Pareto front the problem publishes (the reference set of the distance, epsilon and spread metrics) is the objective vector of some vector within the problem's bounds, and no vector within the bounds has an objective vector that dominates it.", "quantifier": "all vectors within the bounds of the problem (a continuum), all published points", "why_tests_cant": "Optimality quantifies over a continuum of vectors; sampling finds neither a missing dominator nor a proof that there is none.", "anchors": ["problems/ZDT1/problem.py", "problems/ZDT2/problem.py", "problems/ZDT3/problem.py", "problems/ZDT4/problem.py", "problems/ZDT6/problem.py", "problems/UF1/problem.py", "problems/UF2/problem.py", "problems/UF3/problem.py", "problems/UF4/problem.py", "problems/UF5/problem.py", "problems/UF6/problem.py", "problems/UF7/problem.py", "problems/UF8/problem.py", "problems/UF9/problem.py", "problems/UF10/problem.py", "problems/ackley/problem.py", "problems/EWA1/problem.py", "problems/EWA2/problem.py"]}
{"id": "C111", "title": "Published Pareto fronts cover everything attainable", "statement": "Whatever objective vector a search attains within the bounds, some published point is at least as good in every objective up to the resolution of the published sample, so a result can never look better than the reference front by more than that resolution.", "quantifier": "all vectors within the bounds of the problem", "why_tests_cant": "Coverage is a statement about every attainable vector.", "anchors": ["problems/ZDT1/problem.py", "problems/ZDT2/problem.py", "problems/ZDT4/problem.py", "problems/UF1/problem.py", "problems/UF2/problem.py", "problems/UF3/problem.py", "problems/UF4/problem.py", "problems/UF5/problem.py", "problems/UF7/problem.py", "problems/ackley/problem.py"]}
{"id": "C112", "title": "Objectives are defined on the whole search space", "statement": "No objective of a benchmark problem raises (square root or fractional power of a negative number, division by zero, index error) on any vector within the problem's bounds.", "quantifier": "all vectors within the bounds", "why_tests_cant": "A domain error may occur on a boundary or a thin set no test vector hits.", "anchors": ["problems/*/problem.py: fitnesses, dims"]}
{"id": "C113", "title": "Polynomial mutation needs no clamping, follows its draw and has no bias", "statement": "On a vector inside the box mutate never raises and the perturbation formula itself stays within the bounds, so clamping changes nothing. A draw of at most 1/2 moves the gene down or not at all, a draw of at least 1/2 up or not at all, 1/2 leaves it unchanged, and a larger draw never gives a smaller gene. The extreme draws reach the bounds up to EPSILON. A larger eta never moves a gene further. Mirroring the box, the vector and the draw mirrors the result.", "quantifier": "all boxes (empty intervals included), vectors inside them, mutation rates, eta >= 0, draws; exact real arithmetic", "why_tests_cant": "universal over real inputs, draws and exponents; boundary behaviour and bias show only on particular draws", "anchors": ["algorithms/base/drivertools.py: mutate", "algorithms/NSGAIII/NSGAIII.py: polynomial_mutation"]}
{"id": "C114", "title": "Simulated binary crossover surrounds the midpoint of the parents and needs no clamping", "statement": "On parents inside the box crossover never raises (no division by zero, no power of a negative number) and the children computed by the formula lie within the bounds, so clamping changes nothing. One child's gene lies at or below the midpoint of the parents' genes, the other at or above it; for a draw of at most 1/2 both lie between the parents; a larger draw puts both further from the midpoint. The low child depends on the lower bound as the high child does on the upper bound: mirrored parents have mirrored children.", "quantifier": "all boxes, parents inside them, eta >= 0, all draws; exact real arithmetic", "why_tests_cant": "universal over real inputs, draws and exponents", "anchors": ["algorithms/base/drivertools.py: crossover, get_beta_q", "algorithms/NSGAIII/NSGAIII.py: simulated_binary_crossover, get_beta_q"]}
{"id": "C115", "title": "OMOPSO's non-uniform mutation stays in the box and cools down", "statement": "Called on a particle inside the box the operator never raises and every touched coordinate moves towards the bound its draw chose without passing it; untouched coordinates are unchanged. With the same draws the move is never larger later in the run, and at the end of the budget nothing moves.", "quantifier": "all boxes, particles, progress between 0 and 1, perturbation exponents > 0 and draws; exact real arithmetic", "why_tests_cant": "universal over real inputs, draws and progress values", "anchors": ["algorithms/OMOPSO/OMOPSO.py: NonUniformMutation, Mutation.__call__"]}
{"id": "C116", "title": "NSGA-II's mating pool is filled by binary tournaments", "statement": "The mating pool has twice as many members as offspring are wanted, all of them survivors of the environmental selection. Each member is one of two survivors drawn at random for its slot: with the slot's coin showing heads (probability 0.9) it is preferred to (or equivalent to) both of them, otherwise both are preferred to it, where preferred means lower rank, or the same rank and a crowding distance at least as large.", "quantifier": "every population, every ranking and crowding, all draws and coins", "why_tests_cant": "quantifies over all draws; a comparison the wrong way round, or a wrong precedence of 'and/or' with the conditional expression, still yields survivors", "anchors": ["algorithms/NSGAII/NSGAII.py: NSGAII._mating_selection, NSGAII._environmental_selection"]}
{"id": "C117", "title": "JGBL: gene jumping happens exactly when the front does not fit, and a run keeps its promises", "statement": "A JGBL step leaves what NSGA-II's step leaves unless more than N members of the old population and the offspring together are non-dominated among them (N the population size). In that case the new population is selected from N of those non-dominated members and six new vectors for each of the N whose draw says it jumps, made from it and from non-dominated members that are not among the N; it has N members and nobody in it is dominated by somebody left out. No step raises an exception (in particular there is always an individual to choose from); every vector handed to the problem and every member of the population lies in the box; the cost is the number of evaluations: at least N + steps*M and at most N + steps*(M + 6N); finalized_population returns N vectors at no cost. With a fitness archive no vector is evaluated twice.", "quantifier": "every problem, box, population, all draws, all iteration orders of sets and every sequence of step and finalized_population calls", "why_tests_cant": "histories and draws are unbounded; the jump needs a front larger than the population, which small tests rarely produce", "anchors": ["algorithms/JGBL/JGBL.py: JGBL.step, JGBL.jump_genes", "algorithms/NSGAII/NSGAII.py: NSGAII"]}
{"id": "C118", "title": "The result table names the two best algorithms and stars exactly the ambiguous places", "statement": "In one metric and one set of results every algorithm has as many points as it earns over all problems (two for a lone winner, otherwise one for the winner and each algorithm close to it). The ranking line lists everybody who has points, most points first. The cell of the result table shows two algorithms (one or none if fewer have points), first place first, such that nobody left out has more points than somebody shown; a name carries a star exactly if an algorithm that is not shown has as many points as it.", "quantifier": "every list of scores of any number of problems and algorithms, ties included", "why_tests_cant": "ties of every shape between any number of algorithms", "anchors": ["statistic/ranking.py: table_rank, format_result, detailed_rank, rank, get_weak_winners"]}
{"id": "C119", "title": "A driver with a trimming function evaluates and returns trimmed vectors only", "statement": "A driver that is given a trimming function (as the nodes of HGS are: genes cut to the mantissa bits of the node's level) hands to the problem's objectives only vectors that the trimming leaves unchanged, and its population and the vectors it returns are of that kind too. For HGS this means that every gene a node evaluates or returns has at most as many significant bits as its level allows.", "quantifier": "every driver (NSGA-II, JGBL, SPEA2, IBEA, SMS-EMOA, NSLS, NSGA-III, OMOPSO), every trimming function that rounds each gene on its own and idempotently, every problem, population, sequence of draws and number of steps", "why_tests_cant": "a path on which one vector escapes the trimming (after mutation, after a repair that puts back a bound or an old gene, in a copy) shows only on particular draws", "anchors": ["algorithms/HGS/tools.py: trim_vector, trim_mantissa", "algorithms/HGS/classic/ClassicHGS.py: Node", "algorithms/NSGAII/NSGAII.py: NSGAII.step", "algorithms/JGBL/JGBL.py: JGBL.step", "algorithms/SPEA2/SPEA2.py: SPEA2.step", "algorithms/IBEA/IBEA.py: IBEA.step", "algorithms/SMSEMOA/SMSEMOA.py: SMSEMOA.step", "algorithms/NSLS/NSLS.py: NSLS.local_search", "algorithms/NSGAIII/NSGAIII.py: NSGAIII.step", "algorithms/OMOPSO/OMOPSO.py: OMOPSO.step"]}
{"id": "C120", "title": "The Pareto dominance indicator is always that of the results on disk", "statement": "Evaluating the Pareto dominance indicator of any stored results never raises and returns for each the share of the common front of the present results of the same budget and run number that its own non-dominated vectors make up - whatever was evaluated before, whatever results were added or rewritten since, and also if an evaluation was interrupted while it removed outdated files.", "quantifier": "every history of adding and rewriting results, evaluating any sublists of them and interrupting an evaluation during its removals; every list of results, budgets, run numbers and vectors", "why_tests_cant": "The two caches on disk make the value depend on the whole history; tests see a few short ones.", "anchors": ["simulation/metrics_processor.py:pareto_dominance_indicator", "simulation/metrics_processor.py:preload_results_for_problem", "simulation/metrics_processor.py:filter_non_dominated_in_cache", "simulation/metrics_processor.py:clear_old_pdi_metrics", "simulation/metrics_processor.py:get_metric"]}
{"id": "C121", "title": "An interrupted evaluation can be repeated", "statement": "If the evaluation of the metrics is interrupted at any point, evaluating again works and returns the values of the results on disk.", "quantifier": "every point of interruption within the renewal of the cache of non-dominated pools", "why_tests_cant": "Crash points between and inside file operations are not reached by unit tests.", "anchors": ["simulation/metrics_processor.py:filter_non_dominated_in_cache", "simulation/metrics_processor.py:clear_old_pdi_metrics", "simulation/serializer.py:load_file", "simulation/serializer.py:save_file"]}
{"id": "C122", "title": "Removing results is noticed", "statement": "If results are removed from the result directory or moved to another budget, the next evaluation returns the indicator of the results that are there.", "quantifier": "every history that also removes results", "why_tests_cant": "It takes a particular history (a removed result and a new one with the same vectors) to show the stale value.", "anchors": ["simulation/metrics_processor.py:filter_non_dominated_in_cache"]}
{"id": "C123", "title": "HGS over any of its configured drivers never raises and stays within the bounds", "statement": "A run of hierarchic HGS over NSGA-II, JGBL, IBEA, OMOPSO, SPEA2, SMS-EMOA, NSGA-III or NSLS, with a sound configuration and an initial population within the bounds, never raises, and every vector of every node's population, of every node's delegates and of the returned population is within the bounds. The drivers' own demands hold at every level: two individuals for SPEA2, SMS-EMOA and NSGA-III, one step per metaepoch for NSGA-III.", "quantifier": "all configurations, bounds, objective functions, trimming functions that keep the bounds, per-level driver parameters, random draws and numbers of metaepochs", "why_tests_cant": "The tree of demes grows and dies by random draws and hypervolume comparisons, and the interaction of each driver's message adapter with sprouting cannot be enumerated.", "anchors": ["algorithms/HGS/classic/ClassicHGS.py: ClassicHGS, Node", "algorithms/HGS/distributed/message.py: HGSMessageAdapter, DefaultHGSMessageAdapter", "algorithms/NSGAII/message.py: NSGAIIHGSMessageAdapter", "algorithms/JGBL/message.py: JGBLHGSMessageAdapter", "algorithms/IBEA/message.py: IBEAHGSMessageAdapter", "algorithms/SPEA2/message.py: SPEA2HGSMessageAdapter", "algorithms/SMSEMOA/message.py: SMSEMOAHGSMessageAdapter", "algorithms/OMOPSO/message.py: OMOPSOHGSMessageAdapter", "algorithms/NSGAIII/message.py: NSGAIIIHGSMessageAdapter", "algorithms/NSLS/message.py: NSLSHGSMessageAdapter"]}
{"id": "C124", "title": "The delegates a deme nominates are the best it knows", "statement": "After any metaepoch of any run of HGS, for every deme: no member of its population dominates one of the delegates it sprouts from, and the delegates are members of its population.", "quantifier": "all reachable states of HGS over each driver: configurations, objectives, draws and numbers of metaepochs", "why_tests_cant": "It depends on the internal ranking lists that each driver hands out at the end of an epoch, for every history of the deme.", "anchors": ["algorithms/HGS/distributed/message.py: HGSMessageAdapter, DefaultHGSMessageAdapter", "algorithms/NSGAII/message.py: NSGAIIHGSMessageAdapter", "algorithms/JGBL/message.py: JGBLHGSMessageAdapter", "algorithms/IBEA/message.py: IBEAHGSMessageAdapter", "algorithms/SPEA2/message.py: SPEA2HGSMessageAdapter", "algorithms/SMSEMOA/message.py: SMSEMOAHGSMessageAdapter", "algorithms/OMOPSO/message.py: OMOPSOHGSMessageAdapter", "algorithms/HGS/classic/ClassicHGS.py: Node.run_metaepoch"]}
{"id": "C125", "title": "HGS's demes see the problem's objectives within the configured error", "statement": "With fitness error 0 at a level (the shipped configuration) the objectives a deme of that level works with are the problem's, so that it prefers one vector to another exactly when the problem does; with error e between 0 and 1 and draws within three standard deviations every value is within the relative error e, and a vector better by that margin is never taken for a worse one.", "quantifier": "all problems, levels, configured errors, admissible vectors and random draws", "why_tests_cant": "The values are random and the domain is continuous; tests on problems with non-negative objectives cannot see what the absolute value does to the others.", "anchors": ["algorithms/HGS/classic/ClassicHGS.py: blurred_fitnesses", "algorithms/HGS/tools.py: blurred_fitnesses", "algorithms/HGS/distributed/actors.py: NodeActor driver construction", "simulation/run_config.py: fitness_errors"]}
{"id": "C126", "title": "A deme of HGS works with the precision of its level", "statement": "In every state HGS reaches, over each of its drivers, the genes of all vectors a deme has evaluated, of its population and of its delegates have at most as many significant bits as mantissa_bits gives for the deme's level - whatever population HGS was started on and whatever the delegates of the parent looked like.", "quantifier": "all configurations, initial populations, objectives, draws and numbers of metaepochs; all eight drivers", "why_tests_cant": "Trimming happens in the constructor and wherever a driver makes new vectors; one forgotten place, or the arguments of another level, shows only after particular histories of sprouting.", "anchors": ["algorithms/HGS/classic/ClassicHGS.py: Node.__init__", "algorithms/HGS/tools.py: trim_vector, trim_mantissa", "algorithms/*/*.py: trim_function"]}
{"id": "C127", "title": "An island model over any of the drivers is safe", "statement": "Run IMGA on a torus over any of its drivers, from a population within the bounds with enough vectors per island and room for the emigrants: no epoch, migration or finalization raises or hangs; all individuals of all islands and the result are within the bounds; every island keeps the number of individuals its driver works with although individuals come and go, returns the number of vectors expected of it, and its cost, and IMGA's, is what its steps cost.", "quantifier": "all problems, initial populations, numbers of islands, emigrants and epochs, epoch lengths, topologies given by the torus, draws and completion orders; the drivers JGBL, SPEA2, SMS-EMOA, OMOPSO, NSGA-III, IBEA and NSLS (NSGA-II: C90)", "why_tests_cant": "Immigrants enter a driver behind its back, between two of its steps; whether each driver's own bookkeeping survives that depends on every history of epochs and migrations.", "anchors": ["algorithms/IMGA/IMGA.py: IMGA.step, epoch, migration, finalized_population, create_sub_population_driver", "algorithms/IMGA/message.py: IMGAMessageAdapter", "algorithms/SPEA2/message.py: SPEA2IMGAMessageAdapter", "algorithms/SMSEMOA/message.py: SMSEMOAIMGAMessageAdapter", "algorithms/OMOPSO/message.py: OMOPSOIMGAMessageAdapter"]}
{"id": "C128", "title": "Immigrants are judged on the scale of the island's individuals", "statement": "In a run of IMGA, whenever an island's driver normalises objectives it does so over all individuals it compares, immigrants included: NSGA-III's normalised objectives lie between 0 and 1, IBEA's scaled objectives lie between 0 and 1; and an immigrant is not removed while an individual it dominates survives.", "quantifier": "all runs of IMGA over NSGA-III and over IBEA: problems, populations, draws, numbers of epochs and migrants", "why_tests_cant": "The drivers alone keep the promise in every run; only a migration between the measurement and its use breaks it, when the immigrant is better than all the island has seen.", "anchors": ["algorithms/NSGAIII/NSGAIII.py: update_ideal_point, normalize", "algorithms/IBEA/IBEA.py: _scale_objectives, _calculate_fitness, _environmental_selection", "algorithms/IMGA/message.py: IMGAMessageAdapter.immigrate"]}
{"id": "C129", "title": "Violin plots show the runs of the accepted results", "statement": "The violin command saves at most one picture per problem and ranked metric. In it appear, in the order of the legend, exactly the algorithms that have a non-zero value of the metric in some run of their accepted result (the last one whose mean cost is within 500 of the largest budget), each with the values of all its runs, zeros replaced by the machine epsilon. Claimed too: no algorithm with stored results is left out.", "quantifier": "Every set of stored results (problems, algorithms, budgets, runs, values), every bootstrap sample, every outcome of the drawing library.", "why_tests_cant": "The content of the picture depends on which results exist, on their order and on which values are zero; a test fixes one directory.", "anchors": ["plots/violin.py:violin", "plots/violin.py:prepare_data", "plots/pictures.py:algos_order", "statistic/ranking.py:best_func", "statistic/stats_bootstrap.py:find_acceptable_result_for_budget"]}
{"id": "C130", "title": "Curves of quality over time show every stored value", "statement": "The pictures command saves one picture per problem and ranked metric, in it one line per algorithm of the legend that has values, through one point (time, mean over the runs) for every stored time at which the metric has a value, from left to right. Claimed too: it works on the results of every offered algorithm and all points are visible. The same with mean costs instead of times for pictures_from_stats.", "quantifier": "Every set of stored results with increasing times, every bootstrap sample.", "why_tests_cant": "Grouping by dictionaries, order of insertion and the choice of the visible range depend on the whole directory.", "anchors": ["plots/pictures.py:pictures_time", "plots/pictures.py:pictures_from_stats", "plots/pictures.py:plot_results", "plots/pictures.py:algos_groups"]}
{"id": "C131", "title": "The summary compares algorithms per problem", "statement": "The pictures_summary command draws one picture per ranked metric. For every algorithm of the legend and every stored problem it has a point exactly if the algorithm has a score there (mean of the metric over the runs of the accepted result); the value is the logarithm of the score relative to the largest one on that problem (for pdi the logarithm itself), so values lie in [0,1) and are ordered like the scores. Claimed too: it works for every stored problem and all points are visible.", "quantifier": "Every set of stored results, every selection of algorithms to join by lines, every bootstrap sample.", "why_tests_cant": "Normalisation happens in place while the table of all problems is being filled, so a wrong order or a second normalisation only shows for particular histories.", "anchors": ["plots/pictures.py:pictures_summary", "plots/pictures.py:plot_results_summary", "plots/pictures.py:problems_order"]}
{"id": "C132", "title": "Pictures of the fronts", "statement": "The best_fronts command saves one picture per stored problem with the problem's whole front and, for every algorithm that has a place in the plots, all points of the first run of its accepted result. The front of ZDT3 is drawn in pieces: the pieces put together are the front, and cuts are made exactly at gaps larger than 0.05. Claimed too: no algorithm is left out and no gap is bridged.", "quantifier": "Every set of stored results and populations, every front, every front with points from left to right for the cutting, every positive gap size.", "why_tests_cant": "Cutting depends on the lengths of the pieces so far; which population is shown depends on all stored costs.", "anchors": ["plots/best_fronts.py:best_fronts", "plots/best_fronts.py:plot_problem_front", "evotools/ea_utils.py:split_front"]}
{"id": "C133", "title": "Highlighted points are the non-dominated ones", "statement": "best_fronts_color_nondom draws the same populations as best_fronts for the problems that have any, each point once, and highlights a point exactly if no point drawn for the same problem by any algorithm dominates it.", "quantifier": "Every set of stored results and populations of vectors of one length per problem.", "why_tests_cant": "Domination is relative to all populations of the picture together.", "anchors": ["plots/best_fronts.py:best_fronts_color_nondom", "plots/best_fronts.py:plot_results", "metrics/metrics.py:filter_not_dominated"]}
{"id": "C134", "title": "Drivers nest at most two levels deep", "statement": "On the repository's configuration a driver name made of algorithm names joined by plus signs can be prepared for a known problem exactly when it is one known algorithm, or IMGA, HGS or DHGS over one of the eight plain algorithms.", "quantifier": "every problem module with dimensions and a published front, every list of names without plus signs", "why_tests_cant": "Names form an unbounded set; tests try the listed combinations only.", "anchors": ["simulation/factory.py: prepare", "simulation/run_config.py: cust_base, init_alg___", "algorithms/base/driver.py"]}
{"id": "C135", "title": "Every driver gets operators fitted to the problem", "statement": "Whatever listed algorithm is prepared for whatever problem, at each level of nesting the driver is configured with mutation rate one over the number of coordinates, crossover rate 0.9 and, where it takes one, a reference point with as many coordinates as there are objectives.", "quantifier": "every problem, every listed algorithm, each level of the prepared driver", "why_tests_cant": "The configuration is merged from several tables keyed by names; a test looks at one of the merged results.", "anchors": ["simulation/factory.py: prepare", "simulation/run_config.py: cust_base, init_alg___"]}
{"id": "C136", "title": "Polynomial mutation stays in the box in floating point", "statement": "With every operation rounded as in double precision, mutating a vector of the box neither raises nor leaves the box: a coordinate is kept, lowered but not below its lower bound, or raised but not above its upper bound, as the draws say.", "quantifier": "every rounding with the listed properties, every vector, box, rate, eta at least 0 and all draws", "why_tests_cant": "Rounding errors show only on rare inputs at the boundary.", "anchors": ["algorithms/base/drivertools.py: mutate"]}
{"id": "C137", "title": "Simulated binary crossover stays in the box in floating point", "statement": "With every operation rounded, crossing two vectors of the box neither raises (no division by zero, no complex power) nor leaves the box; both children are as described by the draws and parents closer than epsilon in a coordinate pass it on unchanged.", "quantifier": "every rounding with the listed properties, all parents, boxes, rates, eta at least 0 and all draws", "why_tests_cant": "The failures would be rare rounding accidents such as a base slightly below zero.", "anchors": ["algorithms/base/drivertools.py: crossover"]}
{"id": "C138", "title": "Non-uniform mutation stays in the box in floating point", "statement": "With every operation rounded, OMOPSO's non-uniform mutation never leaves the interval, moves in the direction drawn and does nothing at the end of the run.", "quantifier": "every rounding with the listed properties, every interval, value, progress and draw", "why_tests_cant": "Overshooting a bound by one unit in the last place needs a particular draw.", "anchors": ["algorithms/OMOPSO/OMOPSO.py: NonUniformMutation"]}
{"id": "C139", "title": "Initial populations stay in the box in double precision", "statement": "A generated population has the requested size and, computed in double precision, every coordinate lies within its bounds, the upper bound included.", "quantifier": "every count, all bounds, all draws", "why_tests_cant": "a + (b - a) * u can round up past b for some draws in principle; sampling does not settle it.", "anchors": ["evotools/ea_utils.py: gen_population"]}
{"id": "C140", "title": "Dominance with infinities and nan", "statement": "On double precision vectors: without nan (infinities allowed) domination_cmp tells domination, being dominated and neither apart, swapping the arguments negates it, and NSGA-II's and OMOPSO's tests agree with it. With nan, dominance is still a strict order under which a vector with a nan neither dominates nor is dominated, so filter_not_dominated keeps it; swapping the arguments should still negate the comparison and the tests should still agree.", "quantifier": "all vectors of doubles of equal length, all lists of such vectors", "why_tests_cant": "nan arises from failing objective functions at run time; the interplay of comparisons is not covered by examples.", "anchors": ["evotools/ea_utils.py: dominates, domination_cmp", "metrics/metrics_utils.py: filter_not_dominated", "algorithms/NSGAII/NSGAII.py: dominates", "algorithms/OMOPSO/OMOPSO.py: dominates"]}
{"id": "C141", "title": "Timed runs lose and invent nothing to double precision", "statement": "A timed run adds up differences of time.time() readings in double precision and finds the slots due with float floor division. For every sequence of readings this delivers exactly the slots step, 2*step, ... up to the timeout, each once and in order (nothing if a single step was enough), each with the progress of the last step that ended before it, and ends with the first step after which the summed clock reaches the timeout. With readings of a clock that is not set back the sum of doubles equals the true time passed, after any number of steps.", "quantifier": "every step function, every positive integer time step below 2^53 and integer timeout, every sequence of double readings whose sums stay below 2^52 seconds (decreasing ones included); for the exactness of the sum, readings between 2^30 and 2^31 seconds since the epoch that never decrease", "why_tests_cant": "Rounding errors depend on the readings of the clock and the number of steps; a test fixes a few readings, and a lost or doubled slot would show up only at particular fractions of a second.", "anchors": ["algorithms/base/driver.py: TimeRun._start"]}
{"id": "C142", "title": "Converting results from JSON to pickle survives crashes", "statement": "The conversion tool replaces each JSON file below a directory by a pickle of the same contents and name, touching no other file. Killed at any moment, or stopped by an exception, it has lost no document: each is still there as JSON or completely converted. Running it again after a crash gives the same files as an undisturbed run. It ends normally exactly when every JSON file can be read and no directory is in the way of a pickle. Results already stored as pickles are kept.", "quantifier": "every file tree, every order of directory listings (also another order in the second run), every moment of a crash, any contents", "why_tests_cant": "The crash can come after any byte of any write, and the order of the listing is up to the system; a test interrupts at a few points of one small tree.", "anchors": ["dir_walker.py: walk, json2pickle"]}
{"id": "C143", "title": "Clearing large budgets deletes exactly the numbered files above the limit", "statement": "clear_budget, run over a directory tree, deletes a file exactly if the part of its name before the first dot is an integer above 4500 (so a result goes together with its cached metrics); everything else is left as it was, also when the tool is interrupted. It ends normally exactly when every file has such a number in its name.", "quantifier": "every file tree, every order of directory listings, every moment of interruption, all (ASCII) file names", "why_tests_cant": "Names that Python's int accepts (signs, blanks, underscores) and those it does not are unboundedly many, and a wrong deletion is found only by looking at every other file.", "anchors": ["dir_walker.py: walk, clear_budget"]}
{"id": "C144", "title": "The summary of stored results sees every stored result once", "statement": "After any history of finished stores, iterating over all results (as summary, statistics and plots do) yields each problem, algorithm and budget or time exactly once: exactly those under which some run stored a result, with the results of exactly the runs that stored one; the count that summary prints is the number of those runs. Anything in the results directory whose name is not a problem module makes every report end with an exception.", "quantifier": "every history of finished stores over any problems, algorithms, runs and budgets, every order of directory listings, every faithful serialisation", "why_tests_cant": "the histories and listing orders are unboundedly many; tests check one directory tree", "anchors": ["simulation/serialization.py: RunResult.each_result, each_result", "statistic/summary.py: analyse_results"]}
{"id": "C145", "title": "An observable merged from several processes passes on every message and completes with the last", "statement": "Subscribing to an observable built from several providers that run in processes of their own delivers every message of every provider exactly once, the messages of one provider in order, and completes exactly when all providers have completed, in whatever order the processes write to the shared queue.", "quantifier": "every number of providers, every finite sequence of messages of each, failing or completing, every interleaving of their writes", "why_tests_cant": "interleavings are chosen by the operating system and unboundedly many", "anchors": ["evotools/rxtools.py: multiprocess_observable, from_process"]}
{"id": "C146", "title": "Renicing gives every simulation the priority asked for", "statement": "With the renice option every simulation of a queue runs at the niceness of the start plus the increment; without it no simulation changes the niceness.", "quantifier": "every increment of at least 0, every starting niceness, every length of the queue", "why_tests_cant": "depends on the position in a queue of any length; a test of one worker sees the right value", "anchors": ["simulation/worker.py: SimulationWorker.run", "simulation/run_parallel.py: run_simulations"]}
{"id": "C147", "title": "Progress, remaining time and running times of the queue are reported right", "statement": "After each simulation the queue reports the share of simulations that are done and the time that remains if they take equally long, printed as hours, minutes and seconds; at the end it lists every configuration once, longest first, with its mean running time over the repetitions.", "quantifier": "every length of the queue, every position in it, every elapsed time, every list of completed simulations with any times", "why_tests_cant": "ranges over all queue lengths and times; the errors show only with more than an hour left or by comparing with the true share", "anchors": ["simulation/run_parallel.py: log_simulation_stats, log_summary"]}
{"id": "C148", "title": "Processes can store results at the same time", "statement": "When several processes store results into one results directory at the same time, each to its own runs, no store raises whatever the order of their system calls (in particular while they make the same missing directories), no process waits for another, any of them may be killed, and every result file is at every moment as if the processes had stored one after the other; when all have ended the whole directory is. A report made meanwhile gives what is stored so far.", "quantifier": "every number of processes, every list of results of each, every interleaving of their system calls (mkdir, stat, open, single-byte writes), every crash point of each, every initial directory tree of the right layout", "why_tests_cant": "interleavings are chosen by the operating system and unboundedly many; races between making directories show rarely", "anchors": ["simulation/serializer.py: Serializer.store, save_file", "simulation/serialization.py: NumberMeasuredResultExtractor.load_number_measured_results"]}
{"id": "C149", "title": "Processes can ask for the same metric at the same time", "statement": "When several processes ask for the same metric of the same result at the same time, whatever the order of their system calls, the cache file holds the complete value once all have ended, and every one of them gets the value.", "quantifier": "every number of processes, every interleaving of their system calls (open, single-byte reads and writes), every value and serialisation of it, with and without a cache file at the start", "why_tests_cant": "interleavings are chosen by the operating system and unboundedly many; the harmful ones need one process to open the file between another's open and write", "anchors": ["simulation/metrics_processor.py: get_metric"]}
{"id": "C150", "title": "Only outdated indicators are thrown away", "statement": "When the stored results of a problem have changed, evaluating the dominance indicator first removes every cached indicator of the problem, at whatever depth below the problem's directory, and the problem's own cache files, and removes nothing else, wherever the results directory lies.", "quantifier": "every directory tree below the problem's directory, every path of the results directory, every problem name without wildcards", "why_tests_cant": "path patterns are matched against whole paths; directory trees and names are unbounded, and a test uses one results directory", "anchors": ["simulation/metrics_processor.py: clear_old_pdi_metrics"]}
{"id": "C151", "title": "The command line does what it says", "statement": "Every accepted command line runs the function of exactly one command, which is a word of the line. Options may stand anywhere, in any order and in every documented spelling; the command sees the values given and the documented defaults otherwise. The numbers after --timeout and --step are the timeout and the step of the run, in whichever order they are written and also if only one of them is given. Every command can be told the results directory.", "quantifier": "every list of words; for the values every arrangement of words, flags and options and every spelling of each", "why_tests_cant": "arrangements and spellings are unboundedly many, and the parser works from the text of the help message", "anchors": ["evogil.py: main_worker, set_default_options, module docstring", "simulation/factory.py: resolve_configuration, create_budget_simulation, create_time_bound_simulation"]}
{"id": "C152", "title": "The rankings prefer the better result", "statement": "If everything the result of one algorithm offers is offered at least as well by the result of another algorithm on the same problem, the first is never ranked above the second in any of the ranked metrics (hypervolume, pdi, gd, igd, ahd, spacing); in particular an algorithm whose result is outperformed (covered, and not conversely) does not win.", "quantifier": "all problems (published fronts), all results of any number of algorithms, all numbers of objectives, all six ranked metrics", "why_tests_cant": "The claim compares every pair of possible result sets; tests compare a few fixed sets, and the failing sets are special (five objectives with ties, repeated vectors, sparse fronts).", "anchors": ["metrics/metrics.py:hypervolume", "metrics/metrics.py:generational_distance", "metrics/metrics.py:inverse_generational_distance", "metrics/metrics.py:average_hausdorff_distance", "metrics/metrics.py:spacing", "metrics/metrics_utils.py:pareto_dominance_indicator", "statistic/ranking.py:best_func", "simulation/metrics_processor.py:yield_metrics"]}
{"id": "C153", "title": "The detailed ranking and the table report exactly what the three result directories hold", "statement": "rank_details prints, for each of its three directories, one line per budget and metric in which some algorithm has a result whose mean cost exceeds the budget by at most 500; the lines are ordered by budget and then alphabetically, and each ranks the algorithms by the number of problems on which they have the best mean. table prints the metrics ahd, gd, igd, hypervolume, pdi, spacing in this order, exactly those with a result of budget 40 in one of the directories, with a cell per directory holding the best two by points over the problems of that directory; the budget is printed once. Results of any other budget do not appear in the table, results of other directories in neither report, and the random draws of the bootstrap change nothing.", "quantifier": "every content of the three directories (any number of problems, algorithms, budgets and runs), every bootstrap size of at least 1 and every sequence of random draws", "why_tests_cant": "the dictionaries are filled in nested loops over problems, algorithms, budgets and metrics and read back in another order; a test fixes one content and one seed", "anchors": ["statistic/ranking.py:detailed_rank", "statistic/ranking.py:table_rank", "statistic/ranking.py:format_result"]}
{"id": "C154", "title": "The statistics report says something about every stored result, and lists the untrusted ones", "statement": "The statistics command prints, for every problem and every algorithm of the archive, a heading and then exactly one line of figures per metric of every stored result, in the order of the archive, with a line of dashes between results. A metric gets a report on its values exactly if more than one value in twenty lies farther than three standard deviations from the mean; the report then ends with 'untrusted' if the mean without outliers differs from the mean by more than a tenth of it (or the mean is 0), and with 'probably okay' otherwise. After everything, exactly the metrics called untrusted are listed once more, in the same order. If a stored result has a population without a length, the command ends with an exception there: what was printed before stays, and the list of untrusted results is not printed.", "quantifier": "every archive of results (any number of problems, algorithms, budgets, metrics and runs), every bootstrap size, every outcome of the random draws", "why_tests_cant": "the archive has no bounded size and a report with a missing line, a misplaced separator or a result wrongly left out of the closing list looks like a good one; tests on sample archives cannot show that no archive is misreported", "anchors": ["statistic/stats.py:statistics", "statistic/stats.py:force_data", "statistic/stats_bootstrap.py:yield_analysis"]}
{"id": "C155", "title": "A driver is always shut down and a failing simulation is contained", "statement": "Whatever happens while a simulation is prepared, made or run - an unusable configuration, any exception, an interruption - its driver, if it was made, is shut down exactly once and last. Interruptions leave the worker; exceptions do not: it returns the results with the processor time and its number if and only if nothing went wrong, and nothing otherwise. When the command ends the actor system it started and the actors of all drivers are shut down.", "quantifier": "all simulations, all points of failure and kinds of exceptions, all queues", "why_tests_cant": "the exception can come from any call; tests inject a few", "anchors": ["simulation/worker.py: SimulationWorker.run", "simulation/timing.py: process_time, log_time", "simulation/run_parallel.py: run_parallel"]}
{"id": "C156", "title": "Benchmark problems are the published test functions", "statement": "For every vector within a problem's bounds, the objectives return the values of the test function published under that name (ZDT1-4 and 6, UF1-UF10, Kursawe, Ackley), so results can be compared with the literature.", "quantifier": "every admissible decision vector of every modelled problem", "why_tests_cant": "The objectives are sums, products and trigonometric functions of up to thirty real variables; a wrong coefficient or index set shows only away from the points a test happens to evaluate.", "anchors": ["problems/ZDT1/problem.py", "problems/ZDT2/problem.py", "problems/ZDT3/problem.py", "problems/ZDT4/problem.py", "problems/ZDT6/problem.py", "problems/UF1/problem.py", "problems/UF2/problem.py", "problems/UF3/problem.py", "problems/UF4/problem.py", "problems/UF5/problem.py", "problems/UF6/problem.py", "problems/UF7/problem.py", "problems/UF8/problem.py", "problems/UF9/problem.py", "problems/UF10/problem.py", "problems/kursawe/problem.py", "problems/ackley/problem.py"]}
{"id": "C157", "title": "SPEA2 ranks by the published fitness", "statement": "For every union of population and archive with at least two individuals, SPEA2 gives each the fitness of the publication: the sum, over the individuals that dominate it, of the number of individuals each of those dominates, plus 1 / (sigma + 2), where sigma is the distance to its k-th nearest other individual in objective space and k the integer part of the square root of the size. This is the value the archive is filled by.", "quantifier": "all unions of at least two individuals with the same number of objectives, and all archive sizes up to the union's", "why_tests_cant": "the fitness is a double sum over all pairs and a sorted list of distances; tests compare a few hand-computed values", "anchors": ["algorithms/SPEA2/SPEA2.py: calculate_fitnesses, calculate_raw_fitness, calculate_density, calculate_dominated, environmental_selection"]}
{"id": "C158", "title": "NSGA-III's reference points are uniformly distributed", "statement": "For every number of objectives, a generated reference point is uniformly distributed on the unit simplex when its draws are independent and uniform: the chance that every coordinate exceeds its threshold is the share of the simplex above the thresholds, (1 - their sum) to the power of the number of objectives less one. No objective is favoured although the coordinates are drawn one after the other.", "quantifier": "all numbers of objectives, all thresholds (they determine the distribution)", "why_tests_cant": "a statement about probabilities: a statistical test can only fail to reject it, for the numbers of objectives tried", "anchors": ["algorithms/NSGAIII/NSGAIII.py: generate_reference_point, NSGAIII.generate_reference_points"]}
{"id": "C159", "title": "Initial populations are independent and uniform in the box", "statement": "gen_population draws each individual uniformly in the problem's box and independently of the others: for every count and every box, the chance that the individuals lie above given thresholds, a vector of them for each individual, is the product over individuals and coordinates of the shares of the intervals above the thresholds.", "quantifier": "all counts, boxes and thresholds (they determine the joint distribution)", "why_tests_cant": "a statement about the joint distribution of all coordinates; sampling cannot establish independence", "anchors": ["evotools/ea_utils.py: gen_population"]}
{"id": "C160", "title": "A better survivor is likelier to become a parent", "statement": "Each place in the mating pool is filled by a tournament between survivors drawn uniformly. If w survivors are worse and b are better than an individual among n, then under NSGA-II it fills a given place with chance (n + 0.8 (w - b)) / n^2, and under SPEA2, whose tournament is between two different survivors, with chance (n - 1 + w - b) / (n (n - 1)). So the better of two survivors is always strictly likelier to be a parent, and equally good ones are equally likely. The same is expected of IBEA (fitter individuals are better).", "quantifier": "every population of survivors, every ranking and fitness, every place in the pool", "why_tests_cant": "a chance is a property of the distribution of outcomes over all draws; a test sees one outcome, or a sample whose error hides small biases", "anchors": ["algorithms/NSGAII/NSGAII.py: NSGAII._mating_selection", "algorithms/IBEA/IBEA.py: IBEA._mating_selection", "algorithms/SPEA2/SPEA2.py: SPEA2.Tournament"]}
{"id": "C161", "title": "Mutation touches genes independently and favours no direction", "statement": "mutate(xs, dims, mutation_rate, eta) on a vector in the box: whatever the vector, each gene goes down with chance rate/2 (never if it is at its lower bound), up with chance rate/2 (never if it is at its upper bound) and keeps exactly its value otherwise; the genes are independent of each other, so the chance of any pattern of downs, keeps and ups is the product. In particular a vector strictly inside the box is returned unchanged with chance (1 - rate)^n.", "quantifier": "every vector in every box, every rate in [0, 1], every eta >= 0, every pattern", "why_tests_cant": "a chance is a property of the distribution of results over all the draws; tests see single results or samples", "anchors": ["algorithms/base/drivertools.py: mutate"]}
{"id": "C162", "title": "Crossover treats both parents alike", "statement": "crossover(xs, ys, ...): exchanging the parents does not change the distribution of the child: every event about the child (including failure) that has chance p for (xs, ys) when the first child is returned has chance p for (ys, xs) when the second one is, and a fair coin decides which is returned. When crossover takes place and the parents differ in every gene, each gene of the child is strictly nearer to the chosen parent with chance 3/4 and strictly nearer to the other one with chance 1/4, independently of the other genes.", "quantifier": "every pair of parents, box, rate and eta; every event; every pattern of genes", "why_tests_cant": "a chance is a property of the distribution over all the draws; samples cannot show that two distributions are equal", "anchors": ["algorithms/base/drivertools.py: crossover"]}
{"id": "C163", "title": "Resampled averages scatter around the mean of the data", "statement": "The bootstrap of yield_analysis averages k values drawn from the data with replacement. Over all equally likely draws the mean of that average is exactly the mean of the data (the resampling has no bias, so no position is left out or preferred), and its variance is exactly the variance of the data divided by k.", "quantifier": "all non-empty data, all k >= 1, all draws", "why_tests_cant": "the mean over the draws is not visible in any finite number of resamples", "anchors": ["statistic/stats_bootstrap.py: sample_wr", "statistic/stats_bootstrap.py: bootstrap", "statistic/stats_bootstrap.py: average"]}
{"id": "C164", "title": "Emigrants come from better fronts more often", "statement": "When an island sends an individual away, it is taken from the i-th of its L Pareto fronts (best first) with chance (1/i) / (1 + 1/2 + ... + 1/L), uniformly within the front, so that each front is strictly likelier than the next; the individual leaves the island and nothing else changes. One would also expect that no individual is less likely to emigrate than one it dominates, which fails: the members of a front share its chance.", "quantifier": "every non-empty island population and fitness function, every draw of the front and of the individual", "why_tests_cant": "The chances are those of a random choice weighted over the fronts of an arbitrary population; a sample of emigrations cannot establish them.", "anchors": ["algorithms/IMGA/IMGA.py: IMGA.Island.emigrate", "evotools/random_tools.py: weighted_choice", "evotools/ea_utils.py: paretofront_layers"]}
{"id": "C165", "title": "Particles of OMOPSO are guided to sparse places of the front", "statement": "Each particle is guided by the winner of a tournament between two different leaders drawn at random. One expects the leader in the less crowded place of the front (the larger crowding distance) to be the likelier guide. In fact, of n leaders one with s leaders in sparser and d leaders in more crowded places guides with chance (n - 1 + s - d) / (n (n - 1)), so that the leader in the more crowded place is always the likelier one.", "quantifier": "every set of at least two different leaders, whatever their crowding distances, every pair drawn", "why_tests_cant": "The chance is that of a random choice among the leaders of an arbitrary archive; a sample of tournaments cannot establish it, and a test with a fixed seed sees one winner.", "anchors": ["algorithms/OMOPSO/OMOPSO.py: CrowdingTournament", "algorithms/OMOPSO/OMOPSO.py: LeaderArchive.crowding"]}
{"id": "C166", "title": "OMOPSO's particles fly towards their attractors at bounded speed", "statement": "From rest, however many steps are made and whatever the draws, leaders and personal bests in the box, a particle stays in the box and its speed in each coordinate stays below eight times the width of the box (and no smaller multiple will do). A resting particle moves towards its personal best and its leader when they lie on the same side, and one that has reached both stays there.", "quantifier": "all boxes, starting points, draws, and sequences of personal bests and leaders of any length", "why_tests_cant": "The speed feeds back into itself over an unbounded number of steps; that it cannot grow without bound is an invariant of all draw sequences.", "anchors": ["algorithms/OMOPSO/OMOPSO.py: OMOPSO.compute_speed", "algorithms/OMOPSO/OMOPSO.py: OMOPSO.move"]}
{"id": "C167", "title": "Mutation lets OMOPSO leave a coordinate that all particles share", "statement": "If all particles agree in a coordinate, mutation can move some of them to other values of it, so that the search is not confined. Fails: if the initial population agrees in a coordinate, then all particles and all results have that value after any number of steps, whatever the draws.", "quantifier": "every problem, population that agrees in a coordinate, number of steps and draws", "why_tests_cant": "That no sequence of draws, however long, ever changes the coordinate cannot be seen from finitely many runs: each run that stays could be bad luck.", "anchors": ["algorithms/OMOPSO/OMOPSO.py: OMOPSO.step", "algorithms/OMOPSO/OMOPSO.py: OMOPSO.mopso_mutation"]}
{"id": "C168", "title": "Jumping genes arrive where they should", "statement": "Cut and paste: each child is what is left of one parent with the genes cut out of the other inserted in one piece and in order at the drawn place, so that together the children have exactly the genes of the parents. Copy and paste: each child is a copy of one parent in which the copied genes of the other replace those from the drawn place on, as far as there is room. A gene keeps its relative position between the bounds when it moves to another dimension.", "quantifier": "all boxes with non-empty intervals, pairs of vectors in the box, sorted positions of the genes and places of insertion", "why_tests_cant": "Index arithmetic of deleting, inserting and overwriting several positions at once must be right for every combination of positions.", "anchors": ["algorithms/JGBL/JGBL.py: JGBL.cut_and_paste", "algorithms/JGBL/JGBL.py: JGBL.copy_and_paste", "algorithms/JGBL/JGBL.py: JGBL.paste", "algorithms/JGBL/JGBL.py: JGBL.multi_delete"]}
