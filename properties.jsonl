{"id": "C01", "title": "CList behaves like a bounded double-ended queue", "statement": "For max_length >= 2 and verify=True, any sequence of append_/appendleft_/pop_/popleft_/set_/add_/get/length/clear calls on a CList gives, for every batch item, exactly the results of a bounded double-ended queue of capacity max_length: same contents, same lengths, same returned elements, and an IndexError exactly when an element is appended to a full list, popped from an empty list, or accessed with an index outside -len..len-1 (indices within -max_length..max_length-1).", "quantifier": "for every capacity >= 2, every element type, every operation sequence and every circular position of the internal buffer", "why_tests_cant": "the circular begin/end arithmetic has a different state for every rotation and history; tests visit a handful of rotations", "anchors": ["src/evotorch/tools/structures.py:CList", "src/evotorch/tools/structures.py:CList._get_underlying_key", "src/evotorch/tools/structures.py:CList.append_", "src/evotorch/tools/structures.py:CList.pop_"]}
{"id": "C02", "title": "CList batch items are independent", "statement": "In a batched CList every operation acts on each batch item as if that item were alone, and a batch item whose `where` mask is False is left exactly as it was (contents, length, order).", "quantifier": "for every batch, mask and operation sequence (including operations that raise, which leave the whole list unchanged)", "why_tests_cant": "all 2^batch masks in all reachable joint states cannot be enumerated", "anchors": ["src/evotorch/tools/structures.py:CList", "src/evotorch/tools/structures.py:do_where"]}
{"id": "C03", "title": "CList of capacity one and out-of-capacity indices", "statement": "A CList with max_length=1 can hold one element, and reading an index outside the documented range raises IndexError for every out-of-range index.", "quantifier": "for every index and every state", "why_tests_cant": "needs the full index range of every state; the failing states are corner cases of the circular arithmetic", "anchors": ["src/evotorch/tools/structures.py:CList._is_full", "src/evotorch/tools/structures.py:CList._mod_underlying_key"]}
{"id": "C04", "title": "CMemory is an array of independent cells", "statement": "With at most one batch dimension, a CMemory behaves as a total map from (batch item, key) to value: get returns the most recent value written to that cell, set_/add_/subtract_/add_circular_ change only the addressed cell of the batch items selected by `where`, keys outside the declared key range (of a selected batch item) raise KeyError and change nothing; keys of batch items that are masked out are ignored as long as they are at most one key range away from the declared one.", "quantifier": "for every key range (including negative offsets), every batch size and every operation sequence", "why_tests_cant": "aliasing between cells shows only for particular key/offset combinations over whole histories", "anchors": ["src/evotorch/tools/structures.py:CMemory", "src/evotorch/tools/structures.py:CMemory._get_address", "src/evotorch/tools/structures.py:CMemory.set_", "src/evotorch/tools/structures.py:CMemory.add_", "src/evotorch/tools/structures.py:CMemory.add_circular_"]}
{"id": "C05", "title": "CMemory.multiply_ and divide_ scale the addressed cell", "statement": "multiply_(key, v) leaves the addressed cell holding its old value times v and divide_(key, v) its old value divided by v, with or without a `where` mask.", "quantifier": "for every stored value, factor and mask", "why_tests_cant": "the defect is invisible for values where old+v = old*v (0 and 2), which are natural test literals", "anchors": ["src/evotorch/tools/structures.py:CMemory.multiply_", "src/evotorch/tools/structures.py:CMemory.divide_"]}
{"id": "C06", "title": "CMemory addressing with several batch dimensions", "statement": "With two or more batch dimensions every batch position has its own cells: writing key k of position (i,j) and reading it back returns the value, and no other position changes.", "quantifier": "for every batch shape", "why_tests_cant": "shape-dependent broadcasting; tests use one batch dimension", "anchors": ["src/evotorch/tools/structures.py:CMemory.__init__", "src/evotorch/tools/structures.py:CMemory._get_address"]}
{"id": "C07", "title": "CDict is a finite map with defaults", "statement": "After clear(), any sequence of set_/get/contains/clear on a CDict behaves per batch item as a finite map: get(k, default) is the last value set since the last clear or the default; contains is true exactly for keys set since the last clear; get without default returns the last value set (its result for a key that was never set is unspecified); keys outside the key range raise KeyError and change nothing.", "quantifier": "for every key domain, batch, mask and operation sequence", "why_tests_cant": "history-dependent for every key/mask combination", "anchors": ["src/evotorch/tools/structures.py:CDict"]}
{"id": "C08", "title": "CBag returns exactly what was put in", "statement": "For integer value ranges starting at 1 or lower, popping a CBag until exhaustion returns each pushed element exactly once (as a multiset), whatever random permutation the shuffle draws, and -- below its capacity -- never invents or loses an element.", "quantifier": "for every content, capacity, range and every outcome of the random shuffle", "why_tests_cant": "the shuffle outcome is random; all permutations of all contents must be covered", "anchors": ["src/evotorch/tools/structures.py:CBag", "src/evotorch/tools/structures.py:CBag._shuffle"]}
{"id": "C09", "title": "split_workload covers the work evenly", "statement": "split_workload(w, n) returns n non-negative parts summing to w, any two differing by at most 1, larger ones first.", "quantifier": "for every workload and every positive number of actors", "why_tests_cant": "unbounded arithmetic domain", "anchors": ["src/evotorch/tools/misc.py:split_workload"]}
{"id": "C10", "title": "Splitting a batch partitions it", "statement": "batch.split(num_pieces) / batch.split(max_size=...) gives contiguous, in-order, non-overlapping pieces whose concatenation is the original batch; sizes differ by at most one (num_pieces) or never exceed max_size; the i-th piece's reported indices are where its rows came from.", "quantifier": "for every batch length and split request", "why_tests_cant": "arithmetical; every length/pieces combination", "anchors": ["src/evotorch/core.py:SolutionBatchPieces"]}
{"id": "C11", "title": "Parallel evaluation is schedule independent", "statement": "Evaluating a batch through remote actors, whatever the number of actors, the sub-batch settings and the order in which pieces are completed, stores for every solution the same evaluation results as evaluating it sequentially in the main process, for every row-wise fitness function.", "quantifier": "for every batch, number of pieces and every completion order", "why_tests_cant": "completion order is chosen by the scheduler at run time", "anchors": ["src/evotorch/core.py:Problem._evaluate_all", "src/evotorch/core.py:SolutionBatchPieces", "src/evotorch/core.py:Problem.evaluate"]}
{"id": "C12", "title": "Distributed gradient averaging", "statement": "With several actors, the gradient used for an update is the average of the actors' gradients weighted by the numbers of solutions they sampled: weights are non-negative and sum to 1, the result does not depend on the order in which actors answer, and equals the common gradient if all actors agree.", "quantifier": "for every number of actors, weights, gradients and arrival order", "why_tests_cant": "arrival order and per-actor sample counts vary at run time", "anchors": ["src/evotorch/algorithms/distributed/gaussian.py:GaussianSearchAlgorithm._step_distributed", "src/evotorch/core.py:Problem.sample_and_compute_gradients"]}
{"id": "C13", "title": "Pareto ranks describe domination exactly", "statement": "Pareto ranking assigns every solution the number of its front: fronts partition the population, no solution dominates another in the same front, the first front is exactly the non-dominated set, and every solution of front k+1 is dominated by some solution of front k; the ranking always terminates.", "quantifier": "for every population, every number of objectives and any mix of min/max objectives", "why_tests_cant": "exponentially many domination relations", "anchors": ["src/evotorch/core.py:_compute_pareto_ranks", "src/evotorch/core.py:_pareto_sort", "src/evotorch/core.py:SolutionBatch.arg_pareto_sort", "src/evotorch/core.py:SolutionBatch.compute_pareto_ranks"]}
{"id": "C14", "title": "take_best never prefers a worse front", "statement": "On a multi-objective problem, take_best(n) returns n distinct solutions of the batch such that no excluded solution belongs to a better front than an included one.", "quantifier": "for every population and n", "why_tests_cant": "combinatorial; needs every front structure", "anchors": ["src/evotorch/core.py:SolutionBatch.take_best"]}
{"id": "C15", "title": "take_best breaks ties by crowding distance", "statement": "Within the front that is only partially included, multi-objective take_best keeps the least crowded solutions.", "quantifier": "for every population and n", "why_tests_cant": "the selection inside the cut front depends on sorted order of crowding values; small tests can agree by coincidence", "anchors": ["src/evotorch/core.py:SolutionBatch.take_best", "src/evotorch/core.py:_crowding_distance_assignment"]}
{"id": "C16", "title": "Single-objective selection is correct", "statement": "argsort orders a batch from best to worst, argbest/argworst point to a best/worst solution, and take_best(n) returns n solutions none of which is worse than any excluded one, for both senses.", "quantifier": "for every batch of comparable evaluations, every n and sense", "why_tests_cant": "every permutation of every length", "anchors": ["src/evotorch/core.py:SolutionBatch.argsort", "src/evotorch/core.py:SolutionBatch.argbest", "src/evotorch/core.py:SolutionBatch.argworst", "src/evotorch/core.py:SolutionBatch.take_best"]}
{"id": "C17", "title": "Best and worst solutions ever seen", "statement": "After any history of evaluated batches (with finite evaluations), the problem's status reports for each objective the best and the worst evaluation over every solution ever evaluated, together with the decision values that had it; earlier solutions win ties.", "quantifier": "for every history of batches and senses", "why_tests_cant": "it is a property of unbounded histories", "anchors": ["src/evotorch/core.py:Problem._get_best_and_worst", "src/evotorch/core.py:Problem.evaluate"]}
{"id": "C18", "title": "compare_solutions is a strict weak order with the right sense", "statement": "is_better / is_worse / compare_solutions agree with each other, are antisymmetric and transitive, and follow the objective's sense.", "quantifier": "for every triple of evaluated solutions and objective", "why_tests_cant": "universally quantified relation", "anchors": ["src/evotorch/core.py:Problem.compare_solutions", "src/evotorch/core.py:Problem.is_better", "src/evotorch/core.py:Problem.is_worse"]}
{"id": "C19", "title": "Evaluations never go stale through the batch API", "statement": "If every evaluation is stored by an evaluation of the problem, then after any sequence of evaluations, set_values / access_values writes (keep_evals not requested), slicing, concatenation, take and re-evaluation, each solution either counts as not evaluated or carries the fitness of its current decision values, provided mutable value handles are not kept across a later evaluation.", "quantifier": "for every sequence of batch operations", "why_tests_cant": "histories of interleaved mutation and evaluation", "anchors": ["src/evotorch/core.py:SolutionBatch.access_values", "src/evotorch/core.py:SolutionBatch.set_values", "src/evotorch/core.py:SolutionBatch.forget_evals", "src/evotorch/core.py:SolutionBatch.set_evals"]}
{"id": "C20", "title": "Objective and row indices follow Python rules", "statement": "An objective index or solution index i is accepted exactly when -n <= i < n and then means the same element as in Python; otherwise IndexError.", "quantifier": "for every integer index and size", "why_tests_cant": "boundary behaviour over all integers", "anchors": ["src/evotorch/core.py:Problem.normalize_obj_index", "src/evotorch/core.py:SolutionBatch._normalize_row_index", "src/evotorch/core.py:SolutionBatch._normalize_obj_index", "src/evotorch/core.py:Solution.__init__"]}
{"id": "C21", "title": "Rank-based fitness shaping only depends on order", "statement": "The utilities of the centered, linear and nes rankings are unchanged by any strictly increasing transformation of the fitnesses, are strictly/weakly increasing in fitness quality, give the best solution the largest utility, and centered/nes utilities sum to zero; centered lies in [-1/2, 1/2], linear in [0,1].", "quantifier": "for every fitness vector of length >= 2 without ties, every monotone transformation and both senses", "why_tests_cant": "universally quantified over real functions and vectors", "anchors": ["src/evotorch/tools/ranking.py:centered", "src/evotorch/tools/ranking.py:linear", "src/evotorch/tools/ranking.py:nes"]}
{"id": "C22", "title": "modify_tensor respects bounds and maximum change", "statement": "modify_tensor(original, target, lb, ub, max_change) returns, elementwise, a value inside [lb, ub] intersected with [original - max_change*|original|, original + max_change*|original|] that equals the target when the target is admissible, and is the admissible value nearest to the target otherwise, whenever the intersection is non-empty.", "quantifier": "for every original, target, bounds and max_change", "why_tests_cant": "real-valued inputs with all sign combinations", "anchors": ["src/evotorch/tools/misc.py:modify_tensor", "src/evotorch/tools/misc.py:modify_vector"]}
{"id": "C23", "title": "Gaussian search keeps sigma in its limits", "statement": "In the Gaussian-distribution search algorithms, if the initial standard deviation is inside [stdev_min, stdev_max] then it stays inside for every generation, and one update changes each component by at most stdev_max_change times its size, whatever gradients (without NaN) the problem produces.", "quantifier": "for every history of gradients and every number of generations", "why_tests_cant": "adversarial gradient histories", "anchors": ["src/evotorch/algorithms/distributed/gaussian.py:GaussianSearchAlgorithm._update_distribution", "src/evotorch/tools/misc.py:modify_tensor"]}
{"id": "C24", "title": "Functional CEM/PGPE keep sigma in its limits", "statement": "In the functional cem/pgpe API, after any number of tell calls the standard deviation is within [stdev_min, stdev_max] and never moved more than stdev_max_change allows unless a bound forces it.", "quantifier": "for every history of tells", "why_tests_cant": "adversarial histories", "anchors": ["src/evotorch/algorithms/functional/funccem.py:cem_tell", "src/evotorch/algorithms/functional/funcpgpe.py:pgpe_tell", "src/evotorch/tools/misc.py:modify_vector"]}
{"id": "C25", "title": "Random integer fills stay in range", "statement": "make_uniform with integer dtype returns only integers within the inclusive bounds, make_randint only integers 0..n-1, for whatever the underlying generator produces; boolean uniform only uses admitted truth values.", "quantifier": "for every generator output and every bound pair", "why_tests_cant": "the generator output is arbitrary", "anchors": ["src/evotorch/tools/misc.py:make_uniform", "src/evotorch/tools/misc.py:make_randint"]}
{"id": "C26", "title": "Symmetric Gaussian samples are mirrored", "statement": "Symmetric sampling (make_gaussian(symmetric=True) and the symmetric separable Gaussian distribution) returns consecutive pairs mirrored around the center, so that the sample mean is exactly the center; odd sizes are rejected.", "quantifier": "for every noise drawn, center, stdev and even population size", "why_tests_cant": "quantifies over all random draws", "anchors": ["src/evotorch/tools/misc.py:make_gaussian", "src/evotorch/distributions.py:SymmetricSeparableGaussian"]}
{"id": "C27", "title": "Constraint penalties", "statement": "The violation is the least change of the left-hand side that satisfies the constraint. With non-negative weights and a positive exponent the penalty is zero exactly on satisfied constraints, never gets better when the violation grows, and has the sign that makes a violating solution worse; an unknown comparison or sign raises ValueError.", "quantifier": "for every constraint kind, both senses and all real inputs", "why_tests_cant": "continuous inputs", "anchors": ["src/evotorch/tools/constraints.py:_violation", "src/evotorch/tools/constraints.py:_penalty"]}
{"id": "C28", "title": "Hook results are merged in call order", "statement": "Calling a Hook calls every registered function once, in order, ignores None results, merges all-dictionary results with later keys winning, concatenates all-list results in order, and raises TypeError on mixtures.", "quantifier": "for every list of registered functions and every combination of results", "why_tests_cant": "combinations of result kinds over unbounded lists", "anchors": ["src/evotorch/tools/hook.py:Hook.__call__"]}
{"id": "C29", "title": "Lazy status values are computed once and are fresh", "statement": "Between two steps each status item is computed at most once, repeated reads give the same value, and after a step a read reflects the new state unless an explicit value was stored; unknown keys raise KeyError; the set of keys never shrinks.", "quantifier": "for every interleaving of reads, steps and update_status calls", "why_tests_cant": "interleavings of reads with steps", "anchors": ["src/evotorch/algorithms/searchalgorithm.py:LazyReporter", "src/evotorch/algorithms/searchalgorithm.py:SearchAlgorithm.step"]}
{"id": "C30", "title": "run performs exactly n steps with hooks in order", "statement": "run(n) performs exactly n generations; each generation calls before-step hooks, the algorithm's step, after-step hooks and log hooks in that order with the iteration counter and fresh status; end-of-run hooks run once, with the last status.", "quantifier": "for every n, every algorithm and hook set", "why_tests_cant": "unbounded number of generations", "anchors": ["src/evotorch/algorithms/searchalgorithm.py:SearchAlgorithm.step", "src/evotorch/algorithms/searchalgorithm.py:SearchAlgorithm.run"]}
{"id": "C31", "title": "Loggers fire at the configured interval", "statement": "A logger with interval k and optional after_first_step logs exactly the generations k,2k,3k,... (or 1,k+1,2k+1,...), for any number of generations; the pickling logger's last save after a finished run contains the final generation.", "quantifier": "for every interval and number of generations", "why_tests_cant": "unbounded histories", "anchors": ["src/evotorch/logging.py:Logger.__call__", "src/evotorch/logging.py:PicklingLogger"]}
{"id": "C32", "title": "Multi-point crossover conserves genes", "statement": "For every parent pair and every set of cut points, at every locus the two children of MultiPointCrossOver carry exactly the two parent genes (one each, complementary), and which parent is inherited switches exactly at the cut points; parents are not modified.", "quantifier": "for every parents, lengths and cut points", "why_tests_cant": "all random cut points", "anchors": ["src/evotorch/operators/real.py:MultiPointCrossOver", "src/evotorch/operators/real.py:OnePointCrossOver", "src/evotorch/operators/real.py:TwoPointCrossOver"]}
{"id": "C33", "title": "Cut-and-splice conserves material", "statement": "The children of CutAndSplice contain together exactly the elements of the two parents (as multisets, with total length preserved), each a prefix of one parent followed by a suffix of the other.", "quantifier": "for every parents and cut positions", "why_tests_cant": "all random cut points", "anchors": ["src/evotorch/operators/sequence.py:CutAndSplice"]}
{"id": "C34", "title": "Cosyne permutation only moves values inside columns", "statement": "CosynePermutation returns a population in which each column is a permutation of the original column, solutions not selected keep their row, and permuting everything/nothing are the extreme cases.", "quantifier": "for every population and every random draw", "why_tests_cant": "all permutations", "anchors": ["src/evotorch/operators/real.py:CosynePermutation"]}
{"id": "C35", "title": "Simulated binary crossover preserves the parents' mean", "statement": "Before bounds are enforced, the two children of SimulatedBinaryCrossOver have the same per-gene sum as the parents; after enforcement all genes are inside the problem's bounds, and genes already inside are not changed by the enforcement.", "quantifier": "for every parent pair, random draw and eta", "why_tests_cant": "all random draws", "anchors": ["src/evotorch/operators/real.py:SimulatedBinaryCrossOver", "src/evotorch/operators/base.py:Operator._respect_bounds"]}
{"id": "C36", "title": "Tournament selection picks the best of each tournament", "statement": "Each parent chosen by tournament selection is one of the drawn candidates and none of the drawn candidates is better; the number of parents is even and matches num_children (or cross_over_rate), odd num_children is rejected.", "quantifier": "for every population, draw, tournament size and requested number of children", "why_tests_cant": "all random draws", "anchors": ["src/evotorch/operators/base.py:CrossOver._do_tournament", "src/evotorch/operators/base.py:CrossOver._compute_num_tournaments"]}
{"id": "C37", "title": "Genetic algorithm keeps population size; elitism is monotone", "statement": "In every generation of a GeneticAlgorithm the population size stays popsize, and with elitist selection on a single-objective deterministic problem the best fitness never gets worse.", "quantifier": "for every operator behaviour, number of generations and fitness function", "why_tests_cant": "all operator outcomes over unbounded generations", "anchors": ["src/evotorch/algorithms/ga.py:GeneticAlgorithm._step", "src/evotorch/algorithms/ga.py:ExtendedPopulationMixin"]}
{"id": "C38", "title": "MAP-Elites archive", "statement": "Each filled cell of the MAP-Elites archive holds a solution whose features fall inside the cell and which has the best fitness among all solutions of the candidate pool that fit the cell; a cell is filled exactly if some candidate fits; cells never become empty and never get worse without re-evaluation.", "quantifier": "for every feature grid, every population and any number of generations (finite fitnesses)", "why_tests_cant": "unbounded histories and all grids", "anchors": ["src/evotorch/algorithms/mapelites.py:_best_solution_considering_feature", "src/evotorch/algorithms/mapelites.py:MAPElites._step"]}
{"id": "C39", "title": "Feature grids cover the feature space", "statement": "make_feature_grid(lb, ub, num_bins) yields cells such that every real feature vector lies in at least one cell and two cells share only boundaries.", "quantifier": "for every bounds, bins and dimension", "why_tests_cant": "real-valued; unbounded dimensions", "anchors": ["src/evotorch/algorithms/mapelites.py:MAPElites.make_feature_grid"]}
{"id": "C40", "title": "ClipUp velocity never exceeds max_speed", "statement": "Whatever finite non-zero gradients are followed, the norm of ClipUp's velocity after each step is at most max_speed, and each position update moves by exactly that velocity.", "quantifier": "for every gradient history", "why_tests_cant": "real vectors, unbounded histories", "anchors": ["src/evotorch/optimizers.py:ClipUp", "src/evotorch/algorithms/functional/funcclipup.py:clipup_tell"]}
{"id": "C41", "title": "Running normalisation statistics do not depend on batching or merge order", "statement": "RunningNorm's count, mean and standard deviation depend only on the multiset of (unmasked) observations, not on how they were grouped into update calls, in which order, or through which merges of other RunningNorm objects they arrived.", "quantifier": "for every grouping, order, mask and merge tree", "why_tests_cant": "all merge trees and groupings", "anchors": ["src/evotorch/neuroevolution/net/runningnorm.py:RunningNorm.update", "src/evotorch/neuroevolution/net/runningnorm.py:RunningNorm.stats"]}
{"id": "C42", "title": "RunningNorm survives empty masks and leaves the caller's data alone", "statement": "An update whose mask selects nothing leaves the statistics unchanged and usable, masked-out rows never influence the statistics, and no later update modifies an observation tensor given earlier.", "quantifier": "for every observation, mask and update sequence", "why_tests_cant": "needs aliasing and sequence coverage", "anchors": ["src/evotorch/neuroevolution/net/runningnorm.py:RunningNorm.update"]}
{"id": "C43", "title": "Parameter vectors round-trip", "statement": "fill_parameters(net, v) followed by parameter_vector(net) returns v, is accepted exactly when len(v) is the parameter count, and parameter slices of the flat functional module partition the vector without overlap.", "quantifier": "for every network shape and vector", "why_tests_cant": "every list of parameter shapes", "anchors": ["src/evotorch/neuroevolution/net/misc.py:fill_parameters", "src/evotorch/neuroevolution/net/misc.py:parameter_vector", "src/evotorch/neuroevolution/net/functional.py:ModuleExpectingFlatParameters"]}
{"id": "C44", "title": "Network strings compose left to right", "statement": "`A >> B >> C` in the network mini-language denotes the layers in order, independent of how the string is parenthesised, and running the resulting network threads input and hidden states through the layers in that order.", "quantifier": "for every expression tree over >> and every input/hidden state", "why_tests_cant": "all expression trees", "anchors": ["src/evotorch/neuroevolution/net/parser.py:str_to_net", "src/evotorch/neuroevolution/net/multilayered.py:MultiLayered"]}
{"id": "C45", "title": "SyncVectorEnv runs each sub-environment for exactly num_episodes episodes", "statement": "In SyncVectorEnv each sub-environment behaves exactly as if it were stepped alone with its own actions; with num_episodes=n it reports exactly n episode ends, and afterwards only NaN rewards and done=True until reset.", "quantifier": "for every number of environments, action sequence and environment behaviour", "why_tests_cant": "all joint behaviours of sub-environments", "anchors": ["src/evotorch/neuroevolution/net/vecrl.py:SyncVectorEnv"]}
{"id": "C46", "title": "Vectorised and scalar rollouts agree", "statement": "The fitness that VecGymNE assigns to a solution is the average over its first num_episodes episodes of the total (shaped) reward, equal to what the scalar GymNE rollout computes for the same environment behaviour (without action noise and episode_length, and with a normalization of observations which does not change during the evaluation).", "quantifier": "for every environment behaviour, number of environments, alive-bonus schedule", "why_tests_cant": "all interleavings of episode ends across environments", "anchors": ["src/evotorch/neuroevolution/vecgymne.py:VecGymNE._evaluate_subbatch", "src/evotorch/neuroevolution/gymne.py:GymNE._rollout", "src/evotorch/neuroevolution/net/rl.py:AliveBonusScheduleWrapper"]}
{"id": "C47", "title": "Observation statistics are neither lost nor double counted across actors", "statement": "After a parallel evaluation, the main problem's observation statistics equal the statistics of all observations ever made by all actors, independent of which actor evaluated what.", "quantifier": "for every number of actors, rounds and distribution of work", "why_tests_cant": "all schedules", "anchors": ["src/evotorch/neuroevolution/gymne.py:GymNE._make_sync_data_for_main", "src/evotorch/neuroevolution/gymne.py:GymNE._use_sync_data_from_main", "src/evotorch/neuroevolution/gymne.py:GymNE._use_sync_data_from_actors"]}
{"id": "C48", "title": "A cloned or unpickled problem still evaluates", "statement": "A clone (or pickle round-trip) of a neuroevolution problem taken at any point of its life evaluates solutions to the same fitness as the original.", "quantifier": "for every point in the history at which the copy is taken", "why_tests_cant": "crash/checkpoint points are arbitrary", "anchors": ["src/evotorch/neuroevolution/neproblem.py:NEProblem._prepare", "src/evotorch/core.py:Problem._get_cloned_state", "src/evotorch/core.py:Problem._start_preparations"]}
{"id": "C49", "title": "Immutable conversion round-trips", "statement": "as_immutable(x) contains no mutable container anywhere, and mutable_copy(as_immutable(x)) is structurally equal to x for every nesting of lists, dicts, sets, tuples, arrays and scalars.", "quantifier": "for every nested container", "why_tests_cant": "unbounded nesting", "anchors": ["src/evotorch/tools/immutable.py:as_immutable", "src/evotorch/tools/immutable.py:mutable_copy"]}
{"id": "C50", "title": "deep_clone preserves structure and sharing", "statement": "deep_clone(x) is isomorphic to x including shared references and cycles, and shares no mutable object with x; copying terminates on cyclic structures.", "quantifier": "for every object graph", "why_tests_cant": "all graphs incl. cyclic", "anchors": ["src/evotorch/tools/cloning.py:deep_clone"]}
{"id": "C51", "title": "Read-only ObjectArrays cannot be changed through their API", "statement": "No sequence of operations on a read-only view of an ObjectArray (indexing, slicing, views of views, cloning) changes the contents of the original array; slices of writable arrays write through; elements are stored as immutable copies.", "quantifier": "for every sequence of views and operations", "why_tests_cant": "histories of views", "anchors": ["src/evotorch/tools/objectarray.py:ObjectArray"]}
{"id": "C52", "title": "expects_ndim batches like an elementwise map", "statement": "A function decorated with expects_ndim gives on batched arguments the same results as calling the undecorated function on every combination of aligned batch items, with right-aligned broadcasting of leftmost dimensions; mismatching batch sizes raise.", "quantifier": "for every function, number of extra dimensions and shapes", "why_tests_cant": "all shapes and functions", "anchors": ["src/evotorch/decorators.py:expects_ndim", "src/evotorch/decorators.py:rowwise"]}
{"id": "C53", "title": "Actors get distinct seeds", "statement": "The random seeds handed to the actors (4 per actor) are pairwise distinct for any base seed, as long as 4*actors < 2^32.", "quantifier": "for every base seed and number of actors", "why_tests_cant": "2^32 base seeds times actor counts", "anchors": ["src/evotorch/core.py:Problem._parallelize"]}
{"id": "C54", "title": "Adaptive population size terminates within budget rules", "statement": "With num_interactions set, a generation keeps extending its population until the interactions exceed num_interactions or the population size reaches popsize_max, always terminates when popsize_max is set, and gathers a whole number of batches of popsize solutions, stopping at the first batch count that meets a stopping condition (so the total exceeds popsize_max by less than popsize).", "quantifier": "for every sequence of interaction counts", "why_tests_cant": "environment-dependent interaction counts", "anchors": ["src/evotorch/algorithms/distributed/gaussian.py:GaussianSearchAlgorithm._step_non_distributed", "src/evotorch/core.py:Problem._sample_and_compute_gradients"]}
{"id": "C55", "title": "Elite selection of the cross-entropy method", "statement": "With parenthood_ratio, exactly floor(n * ratio) samples are used and none of the unused samples is better than a used one; the mean update is the difference between elite mean and old mean.", "quantifier": "for every population, ratio and fitness", "why_tests_cant": "real-valued populations", "anchors": ["src/evotorch/distributions.py:SeparableGaussian", "src/evotorch/algorithms/functional/funccem.py:cem_tell"]}
{"id": "C56", "title": "CMA-ES covariance stays symmetric and weights are a convex combination", "statement": "The recombination weights of CMAES are positive on the parents, sum to 1 and do not increase with rank, and the covariance matrix stays symmetric over any history of updates.", "quantifier": "for every population size and history", "why_tests_cant": "unbounded histories, real matrices", "anchors": ["src/evotorch/algorithms/cmaes.py:CMAES.__init__", "src/evotorch/algorithms/cmaes.py:CMAES.update_C"]}
{"id": "C57", "title": "Minibatch sampling visits every batch once per epoch", "statement": "SupervisedNE.get_minibatch delivers each epoch's minibatches exactly once before starting a new epoch, and with common_minibatch all solutions of an evaluation see the same minibatches.", "quantifier": "for every dataset length, number of calls and evaluation history", "why_tests_cant": "unbounded histories", "anchors": ["src/evotorch/neuroevolution/supervisedne.py:SupervisedNE.get_minibatch", "src/evotorch/neuroevolution/supervisedne.py:SupervisedNE._evaluate_batch"]}
{"id": "C58", "title": "Restarting bookkeeping", "statement": "Restart counts one initial start plus one per termination seen; IPOP multiplies the population size of the terminated run by popsize_multiplier at each restart, so after k restarts an integer multiplier m gives m^k times the initial size.", "quantifier": "for every history of terminations", "why_tests_cant": "unbounded histories", "anchors": ["src/evotorch/algorithms/restarter/restart.py:Restart", "src/evotorch/algorithms/restarter/modify_restart.py:IPOP"]}
{"id": "C59", "title": "SteadyStateGA operator registration", "statement": "SteadyStateGA accepts at most one cross-over and one mutation, rejects registration after the first step, and applies the operators in the documented order.", "quantifier": "for every sequence of use/step calls", "why_tests_cant": "state machine over all call sequences", "anchors": ["src/evotorch/algorithms/ga.py:SteadyStateGA.use"]}
{"id": "C60", "title": "Tensor-making arguments are resolved consistently", "statement": "Problem.make_* accept exactly one of size arguments and num_solutions, and at most one of dtype and use_eval_dtype; the resulting shape, dtype and generator are those requested or the problem's defaults.", "quantifier": "for every argument combination", "why_tests_cant": "combinatorial explosion of argument combinations", "anchors": ["src/evotorch/tools/tensormaker.py:TensorMakerMixin"]}
{"id": "C61", "title": "Vector-space conversions round-trip", "statement": "Batching a single observation/action space and unbatching it gives the same space.", "quantifier": "for every supported space", "why_tests_cant": "all spaces", "anchors": ["src/evotorch/neuroevolution/net/vecrl.py:_batch_space", "src/evotorch/neuroevolution/net/vecrl.py:_unbatch_space"]}
{"id": "C62", "title": "Masked clear of CList and CDict", "statement": "clear(where=mask) empties exactly the batch items selected by the mask and leaves the others as they were.", "quantifier": "for every batch, mask and state", "why_tests_cant": "all masks in all states", "anchors": ["src/evotorch/tools/structures.py:CList.clear", "src/evotorch/tools/structures.py:CDict.clear"]}
{"id": "C63", "title": "XNES can be run in distributed mode", "statement": "Averaging the gradients returned by the actors gives, for each distribution parameter (the mean vector and the covariance factor matrix alike), a gradient of the shape of that parameter.", "quantifier": "for every solution length, number of tasks and gradient values", "why_tests_cant": "every dimension and number of actors", "anchors": ["src/evotorch/algorithms/distributed/gaussian.py:GaussianSearchAlgorithm._step_distributed", "src/evotorch/core.py:Problem.sample_and_compute_gradients"]}
{"id": "C64", "title": "Actors of a problem with its own generator can be started", "statement": "A problem constructed with its own seed can be parallelised: every actor starts and its problem's generator is seeded with the actor's seed.", "quantifier": "for every seed assignment", "why_tests_cant": "every seed assignment", "anchors": ["src/evotorch/core.py:EvaluationActor.__init__"]}
{"id": "C65", "title": "Unevaluated solutions are not preferred", "statement": "Solutions whose evaluation is NaN (not evaluated, or failed) are never selected in place of evaluated ones by take_best, and do not prevent the problem from reporting the best and worst of the evaluated ones.", "quantifier": "for every batch containing NaN evaluations, every sense and every valid sorting", "why_tests_cant": "all mixes of NaN and numbers", "anchors": ["src/evotorch/core.py:SolutionBatch.take_best", "src/evotorch/core.py:SolutionBatch.argsort", "src/evotorch/core.py:Problem._get_best_and_worst"]}
{"id": "C66", "title": "set_evals writes exactly the addressed rows", "statement": "set_evals stores the given evaluations (and extra data, or NaN when none is given) in exactly the addressed rows, leaves decision values and all other rows unchanged, and accepts exactly the documented shapes; forget_evals makes the addressed solutions count as not evaluated.", "quantifier": "for every batch, addressed rows, evaluation shape and data", "why_tests_cant": "all shapes and index lists", "anchors": ["src/evotorch/core.py:SolutionBatch.set_evals", "src/evotorch/core.py:SolutionBatch.forget_evals", "src/evotorch/core.py:Solution.is_evaluated"]}
{"id": "C67", "title": "Utilities order solutions from worse to better", "statement": "utility(obj_index) without ranking gives larger values exactly to better solutions for both senses, and refuses batches with NaN evaluations.", "quantifier": "for every batch and objective", "why_tests_cant": "all evaluations", "anchors": ["src/evotorch/core.py:SolutionBatch.utility"]}
{"id": "C68", "title": "Crowding distances measure the room around a solution", "statement": "Within a front, solutions at either end of the ordering of some objective get an infinite crowding distance; every other solution gets the sum over the objectives of the distance between its two neighbours, relative to the range of the objective (kept away from zero).", "quantifier": "for every front, number of objectives and valid sorting", "why_tests_cant": "all fronts and tie-breakings", "anchors": ["src/evotorch/core.py:_crowding_distance_assignment"]}
{"id": "C69", "title": "Rankings give numbers for every population", "statement": "The utilities computed by the centered, linear and normalized rankings are numbers (never NaN), whatever the population size >= 1 and the fitnesses.", "quantifier": "for every population size >= 1, every finite fitness vector and both senses", "why_tests_cant": "the failing sizes/values (one solution, equal fitnesses) are corner cases of universally quantified inputs", "anchors": ["src/evotorch/tools/ranking.py:centered", "src/evotorch/tools/ranking.py:linear", "src/evotorch/tools/ranking.py:normalized"]}
{"id": "C70", "title": "Normalized ranking standardises", "statement": "The utilities of the normalized ranking sum to zero, have unit (unbiased) standard deviation, order the solutions exactly as their fitnesses do, change sign with the sense, and do not change when the fitnesses are shifted or scaled by a positive factor.", "quantifier": "for every fitness vector of length >= 2 which is not constant, every shift, every positive scale and both senses", "why_tests_cant": "universally quantified over real vectors and coefficients", "anchors": ["src/evotorch/tools/ranking.py:normalized"]}
{"id": "C71", "title": "CEM updates of numbers give numbers", "statement": "A cross-entropy update from a finite state and a population of finite solutions and fitnesses gives a finite center and standard deviation, for every parenthood ratio and population size.", "quantifier": "for every population, parenthood ratio in [0,1] and state", "why_tests_cant": "depends on the product of population size and ratio over all values", "anchors": ["src/evotorch/distributions.py:SeparableGaussian", "src/evotorch/algorithms/functional/funccem.py:cem_tell"]}
{"id": "C72", "title": "Log barriers", "statement": "log_barrier is finite on strictly satisfied constraints (with the default inf), equals the given inf (with the penalty's sign) on violated ones, and never gets better when the slack of the constraint shrinks.", "quantifier": "for every inequality, both signs, every positive sharpness and all real inputs", "why_tests_cant": "continuous inputs", "anchors": ["src/evotorch/tools/constraints.py:_log_barrier"]}
{"id": "C73", "title": "ClipUp only follows the direction of the gradient", "statement": "Multiplying the gradient given to ClipUp by any positive number does not change the step, in the class and in the functional implementation.", "quantifier": "for every optimizer state, gradient and positive factor", "why_tests_cant": "continuous inputs", "anchors": ["src/evotorch/optimizers.py:ClipUp.ascent", "src/evotorch/algorithms/functional/funcclipup.py:_clipup_step"]}
{"id": "C74", "title": "ClipUp survives a zero gradient", "statement": "After following any sequence of finite gradients, including all-zero ones (for instance when all fitnesses are equal), ClipUp's velocity and the center it moves remain finite.", "quantifier": "for every history of gradients", "why_tests_cant": "unbounded histories", "anchors": ["src/evotorch/optimizers.py:ClipUp.ascent", "src/evotorch/algorithms/functional/funcclipup.py:_clipup_step"]}
{"id": "C75", "title": "ClipUp rejects illegal hyperparameters", "statement": "A negative stepsize or max_speed, or a momentum outside [0, 1], is rejected with ValueError, whether given to the constructor or assigned later through param_groups; an accepted assignment is what is read back and changes nothing else.", "quantifier": "for every value and hyperparameter", "why_tests_cant": "continuous inputs", "anchors": ["src/evotorch/optimizers.py:ClipUp.__init__", "src/evotorch/optimizers.py:ClipUpParameterGroup.__setitem__"]}
{"id": "C76", "title": "Only differences of fitness weights matter", "statement": "Adding one constant to all weights does not change the gradients of the separable Gaussian distributions (unless the weights come from a ranking that is already centered), and when all weights are equal the gradients are zero.", "quantifier": "every distribution, division option, ranking that is not already centering, sample and weight vector", "why_tests_cant": "The weights and samples are arbitrary reals; tests compare a few vectors.", "anchors": ["src/evotorch/distributions.py: SeparableGaussian._compute_gradients, SymmetricSeparableGaussian._compute_gradients"]}
{"id": "C77", "title": "The antithetic gradient is the plain gradient halved", "statement": "On mirrored samples, the gradients of the symmetric separable Gaussian are exactly half of those which the plain separable Gaussian computes on the same samples and weights.", "quantifier": "every mean, standard deviation, mirrored sample, weight vector and division option", "why_tests_cant": "Holds for any number of pairs and any weights; a test fixes them.", "anchors": ["src/evotorch/distributions.py: SymmetricSeparableGaussian._compute_gradients"]}
{"id": "C78", "title": "Gradients follow translations and dilations of the search space", "statement": "Moving the mean and all samples by the same vector leaves the gradients unchanged; multiplying mean, standard deviations and samples by k multiplies the gradients by k.", "quantifier": "every distribution, sample, weights, shift and non-zero factor", "why_tests_cant": "Equivariance quantifies over all shifts and factors.", "anchors": ["src/evotorch/distributions.py: SeparableGaussian._compute_gradients, SymmetricSeparableGaussian._compute_gradients"]}
{"id": "C79", "title": "Relative entropy is a divergence", "statement": "The relative entropy of two separable Gaussians is never negative and is zero exactly for equal distributions.", "quantifier": "all pairs of distributions with positive standard deviations", "why_tests_cant": "An inequality over all reals.", "anchors": ["src/evotorch/distributions.py: SeparableGaussian.relative_entropy"]}
{"id": "C80", "title": "Standard deviations stay positive", "statement": "Following any gradients for any number of generations keeps the standard deviations of a search distribution positive.", "quantifier": "every history of gradients", "why_tests_cant": "Histories are unbounded and gradients arbitrary.", "anchors": ["src/evotorch/distributions.py: SeparableGaussian.update_parameters, ExpSeparableGaussian.update_parameters"]}
{"id": "C81", "title": "XNES keeps its inverse transform", "statement": "Throughout any history of updates the stored inverse transform of the XNES distribution is the inverse of its transform, so converting between local and global coordinates is loss-free.", "quantifier": "every history of gradients and learning rates", "why_tests_cant": "Histories are unbounded.", "anchors": ["src/evotorch/distributions.py: ExpGaussian.update_parameters, to_local_coordinates, to_global_coordinates"]}
{"id": "C82", "title": "XNES with an optimizer", "statement": "XNES created with an optimizer for its center follows the center gradient by that optimizer.", "quantifier": "every optimizer, learning rates and gradients", "why_tests_cant": "Shown false for every input at once; tests of one configuration are missing.", "anchors": ["src/evotorch/algorithms/distributed/gaussian.py: GaussianSearchAlgorithm._update_distribution", "src/evotorch/distributions.py: ExpGaussian.update_parameters"]}
{"id": "C83", "title": "Updating an XNES distribution leaves the caller's learning rates alone", "statement": "Updating the parameters of the XNES distribution does not modify the dictionary of learning rates of the caller, so later changes of its entries take effect.", "quantifier": "every dictionary and history of its changes", "why_tests_cant": "Quantifies over all later calls with the same dictionary.", "anchors": ["src/evotorch/distributions.py: ExpGaussian.update_parameters"]}
{"id": "C84", "title": "The reported covariance is the covariance of the samples", "statement": "The covariance reported by the XNES distribution is that of its samples.", "quantifier": "every transform matrix and noise with identity second moment", "why_tests_cant": "Tests use diagonal transforms, for which the difference vanishes.", "anchors": ["src/evotorch/distributions.py: ExpGaussian.cov, ExpGaussian.to_global_coordinates"]}
{"id": "C85", "title": "Assigning the transform of XNES", "statement": "After assigning a new transform to an XNES distribution, local coordinates are computed with respect to the new transform.", "quantifier": "every distribution and assigned transform", "why_tests_cant": "An equivalence over all matrices.", "anchors": ["src/evotorch/distributions.py: ExpGaussian.sigma (setter), ExpGaussian.to_local_coordinates"]}
{"id": "C86", "title": "Gradients are score gradients", "statement": "Each coordinate of the mean (standard deviation) gradient of the separable Gaussian distributions is the derivative of the weighted log-likelihood of the samples with respect to the mean (standard deviation), times the variance, divided by what the division options name; for the exponential distribution the standard deviation gradient is the derivative with respect to the logarithm of the standard deviation.", "quantifier": "every distribution with positive standard deviations, samples, weights, ranking and division option", "why_tests_cant": "An identity between a computed tensor and a derivative for all reals.", "anchors": ["src/evotorch/distributions.py: SeparableGaussian._compute_gradients, SeparableGaussian._divide_grad, ExpSeparableGaussian._compute_gradients"]}
{"id": "C87", "title": "The status of IPOP is readable after a restart", "statement": "After any step of an IPOP searcher, including one which restarted the wrapped algorithm, all items of its status can be read (so that loggers work).", "quantifier": "for every wrapped algorithm, every history of steps", "why_tests_cant": "depends on the wrapped algorithm and on when a restart happens", "anchors": ["src/evotorch/algorithms/restarter/modify_restart.py:IPOP", "src/evotorch/algorithms/restarter/restart.py:Restart._step"]}
{"id": "C88", "title": "Polynomial mutation keeps genes legal", "statement": "For every problem whose bounds are accepted by PolynomialMutation and every gene inside its bounds, the mutated gene is a finite number inside its bounds; a draw below 1/2 never increases the gene and one from 1/2 on never decreases it; genes which are not chosen keep their value.", "quantifier": "for every bounds, eta, mutation probability, population and random draw", "why_tests_cant": "Tests use strictly ordered bounds and a few seeds; fixed variables (equal bounds) and boundary draws are never sampled.", "anchors": ["src/evotorch/operators/real.py:505-600"]}
{"id": "C89", "title": "Gaussian mutation keeps genes legal", "statement": "The genes returned by GaussianMutation are inside the problem's bounds, genes which were not chosen for mutation keep their value, and chosen ones are shifted by exactly stdev times the noise unless clipped; without a mutation probability every gene is chosen.", "quantifier": "for every population, bounds, stdev, probability and random draw", "why_tests_cant": "The draws are random; a test sees finitely many of them.", "anchors": ["src/evotorch/operators/real.py:30-66", "src/evotorch/operators/base.py:58-96"]}
{"id": "C90", "title": "Cross-over yields the requested children", "statement": "Every cross-over operator accepted by its constructor, applied on an evaluated population, returns a batch with the requested number of unevaluated children of the same solution length.", "quantifier": "for every population, tournament size, number of children or positive cross-over rate, and solution length", "why_tests_cant": "Rates which ask for less than one child and solutions with a single gene are not exercised by tests.", "anchors": ["src/evotorch/operators/base.py:100-361", "src/evotorch/operators/real.py:69-300"]}
{"id": "C91", "title": "Solutions of a GA population carry their own evaluations", "statement": "After a generation of GeneticAlgorithm every solution of the population carries the fitness of its own decision values.", "quantifier": "for every elitist/re_evaluate/re_evaluate_parents_first setting, operator list, number of children and number of generations", "why_tests_cant": "depends on an unbounded history of generations and on all operator behaviours", "anchors": ["src/evotorch/algorithms/ga.py:ExtendedPopulationMixin._make_extended_population", "src/evotorch/algorithms/ga.py:GeneticAlgorithm._step"]}
{"id": "C92", "title": "Non-elitist GA replaces the worst solutions", "statement": "With elitist=False, when there are fewer children than parents, the children take the places of the worst solutions of the population; with more children than popsize the best children are taken.", "quantifier": "for every fitness function, operator list, sorting procedure and generation", "why_tests_cant": "quantifies over all fitness functions and over all sorting procedures", "anchors": ["src/evotorch/algorithms/ga.py:GeneticAlgorithm._step"]}
{"id": "C93", "title": "Cosyne keeps its population size and its elites", "statement": "Every generation of Cosyne leaves exactly popsize evaluated solutions, the num_elites best ones never get lost, and the search proceeds for every popsize.", "quantifier": "for every operator behaviour, popsize, number of elites and number of generations", "why_tests_cant": "unbounded generations, all operator outcomes", "anchors": ["src/evotorch/algorithms/ga.py:Cosyne._step", "src/evotorch/algorithms/ga.py:Cosyne.__init__"]}
{"id": "C94", "title": "Cross-over operators get evaluated parents", "statement": "By default (re_evaluate_parents_first not given) the operators of an algorithm whose operator list contains a cross-over are applied to parents which carry their evaluations, in every generation.", "quantifier": "for every operator list containing a cross-over, configuration and number of generations", "why_tests_cant": "state machine over unbounded generations", "anchors": ["src/evotorch/algorithms/ga.py:ExtendedPopulationMixin.__init__", "src/evotorch/algorithms/ga.py:SteadyStateGA.__init__"]}
{"id": "C95", "title": "MAP-Elites with infinite or NaN fitness", "statement": "Whatever the fitness values, a cell is reported as filled when some candidate fits it, and a solution that fits is displaced only by a better one.", "quantifier": "for every candidate list, cell and fitness function, including infinite and NaN fitnesses", "why_tests_cant": "special values in all positions and orders", "anchors": ["src/evotorch/algorithms/mapelites.py:_best_solution_considering_feature"]}
{"id": "C96", "title": "Every cell of a feature grid has a range for every feature", "statement": "make_feature_grid gives cells with one range per feature and refuses numbers of bins which do not match the number of features.", "quantifier": "for every number of features, bounds and bins", "why_tests_cant": "unbounded dimensions and mismatched lengths", "anchors": ["src/evotorch/algorithms/mapelites.py:MAPElites.make_feature_grid"]}
{"id": "C97", "title": "CMA-ES covariance stays positive definite", "statement": "Whatever the samples and rankings, the covariance matrix of CMAES stays symmetric and positive definite and its step size positive, for the active and the non-active variant and for every frequency of decomposition, as long as the learning rates satisfy c_1 + c_mu < 1 and no upper standard deviation limit cuts a full covariance matrix; the default arguments (with the default population size) satisfy this in every dimension.", "quantifier": "for every dimension, population size, option set, Gaussian draw, ranking and number of generations", "why_tests_cant": "real matrices and unbounded histories", "anchors": ["src/evotorch/algorithms/cmaes.py:CMAES.update_C", "src/evotorch/algorithms/cmaes.py:CMAES.decompose_C", "src/evotorch/algorithms/cmaes.py:CMAES.__init__"]}
{"id": "C98", "title": "CMA-ES standard deviation limits", "statement": "stdev_min and stdev_max of CMAES bound every element-wise standard deviation of the search distribution and leave it a valid distribution (a positive definite covariance).", "quantifier": "for every covariance matrix, step size and limits", "why_tests_cant": "real matrices; the failure needs correlated samples", "anchors": ["src/evotorch/algorithms/cmaes.py:_limit_stdev"]}
{"id": "C99", "title": "Separable CMA-ES with default rates", "statement": "With its default learning rates, separable CMAES keeps the variances positive for every population size.", "quantifier": "for every dimension and population size", "why_tests_cant": "the failure needs populations that grow with the dimension", "anchors": ["src/evotorch/algorithms/cmaes.py:CMAES.__init__", "src/evotorch/algorithms/cmaes.py:CMAES.update_C"]}
{"id": "C100", "title": "CMA-ES accepts explicit learning rates", "statement": "c_1 and c_mu of CMAES can be given explicitly as numbers and are then used (times their ratios).", "quantifier": "for every value and combination of the other options", "why_tests_cant": "depends on the combination of options", "anchors": ["src/evotorch/algorithms/cmaes.py:CMAES.__init__"]}
{"id": "C101", "title": "CMA-ES center is the weighted mean of the better half", "statement": "After a generation of CMAES the center is (1 - c_m) times the old center plus c_m times the weighted mean of the better half of the samples, a better ranked sample never weighs less, and the step size stays positive.", "quantifier": "for every state, draw, ranking and tie-breaking of topk", "why_tests_cant": "all rankings and all results of torch.topk", "anchors": ["src/evotorch/algorithms/cmaes.py:CMAES.update_m", "src/evotorch/algorithms/cmaes.py:CMAES.get_population_weights", "src/evotorch/algorithms/cmaes.py:CMAES.update_sigma"]}
{"id": "C102", "title": "Normalisation standardises observations", "statement": "RunningNorm.normalize maps every component x to (x - mean)/stdev of the collected data, clipped to the configured interval, with the standard deviation never below the square root of min_variance; the collected data themselves get mean 0 and variance at most 1 (exactly 1 where the variance is at least min_variance); to_layer() and update_and_normalize() compute the same values, and a batch is normalised row by row.", "quantifier": "for every history of updates, merges and masks, every observation, min_variance > 0 and clip interval", "why_tests_cant": "tests check single data sets; the claim is about every history and every input", "anchors": ["src/evotorch/neuroevolution/net/runningnorm.py:RunningNorm.normalize", "src/evotorch/neuroevolution/net/runningnorm.py:RunningNorm.to_layer", "src/evotorch/neuroevolution/net/runningnorm.py:ObsNormLayer.forward"]}
{"id": "C103", "title": "Observation statistics can be restored", "statement": "GymNE.set_observation_stats(s) makes the statistics of the problem those of s, for every RunningStat s with data, including one obtained earlier from get_observation_stats of the same problem; s itself is unchanged.", "quantifier": "for every problem state and statistics object", "why_tests_cant": "depends on object identity", "anchors": ["src/evotorch/neuroevolution/gymne.py:GymNE.set_observation_stats", "src/evotorch/neuroevolution/gymne.py:GymNE.get_observation_stats"]}
{"id": "C104", "title": "Interaction and episode counters never lose steps", "statement": "After a parallel evaluation the interaction and episode counters of the main problem are the totals over everything done so far, and they never decrease.", "quantifier": "for every number of actors, distribution of work and interleaving with episodes run by the main problem", "why_tests_cant": "all schedules and interleavings", "anchors": ["src/evotorch/neuroevolution/gymne.py:GymNE._use_sync_data_from_actors", "src/evotorch/neuroevolution/gymne.py:GymNE.run"]}
{"id": "C105", "title": "A rejected parameter vector leaves the network unchanged", "statement": "fill_parameters with a vector of a wrong length raises an error and leaves every parameter of the network as it was.", "quantifier": "for every network (nested modules, tied weights, any shapes) and every vector of a wrong length", "why_tests_cant": "all network structures and lengths", "anchors": ["src/evotorch/neuroevolution/net/misc.py:fill_parameters"]}
{"id": "C106", "title": "The flat functional module computes what the filled network computes", "statement": "make_functional_module(net) called with a flat vector v gives the same output as net after fill_parameters(net, v), also with tied weights; with the network's own parameter_vector it computes what the network computes; a vector of a wrong length raises ValueError.", "quantifier": "for every module tree, forward function, vector and input", "why_tests_cant": "all module trees and all vectors", "anchors": ["src/evotorch/neuroevolution/net/functional.py:ModuleExpectingFlatParameters", "src/evotorch/neuroevolution/net/misc.py:parameter_vector"]}
{"id": "C107", "title": "Malformed network strings are reported as NetParsingError", "statement": "str_to_net either builds a network or raises NetParsingError, unless a layer constructor itself fails.", "quantifier": "for every syntactically valid python expression", "why_tests_cant": "all expression trees", "anchors": ["src/evotorch/neuroevolution/net/parser.py:str_to_net", "src/evotorch/neuroevolution/net/parser.py:_process_call_expr"]}
{"id": "C108", "title": "Layer names and constants in network strings", "statement": "A layer name in a network string means evotorch's layer of that name if there is one, otherwise torch.nn's; arguments are evaluated with the given constants, and giving additional constants never changes the network built from a string that was accepted.", "quantifier": "for every string, set of constants and extension of it", "why_tests_cant": "all strings and constants", "anchors": ["src/evotorch/neuroevolution/net/parser.py:_get_module", "src/evotorch/neuroevolution/net/parser.py:str_to_net"]}
{"id": "C109", "title": "A >> B computes B after A", "statement": "The network made by joining A and B feeds the outputs of A into B, each keeping its own hidden state over time steps.", "quantifier": "for every two modules (recurrent or not) and every input sequence", "why_tests_cant": "all modules and unbounded input sequences", "anchors": ["src/evotorch/neuroevolution/net/multilayered.py:MultiLayered", "src/evotorch/neuroevolution/net/parser.py:_process_expr"]}
{"id": "C110", "title": "Resetting a stateful network forgets everything", "statement": "After reset(), a stateful wrapper of a network behaves on every input sequence as a freshly made one, whatever it was fed before; a call which raises leaves the hidden state as it was.", "quantifier": "for every network, every history and every input sequence", "why_tests_cant": "unbounded histories", "anchors": ["src/evotorch/neuroevolution/net/statefulmodule.py:StatefulModule"]}
{"id": "C111", "title": "make_net hands out an independent network", "statement": "make_net(v) returns a new network with the structure of the problem's network and the parameters v, which no later evaluation, make_net or kill_actors call on the problem changes.", "quantifier": "for every history before and after, every solution, with or without actors, and for networks given as strings, callables or objects", "why_tests_cant": "unbounded histories; object identity", "anchors": ["src/evotorch/neuroevolution/neproblem.py:NEProblem.make_net", "src/evotorch/neuroevolution/neproblem.py:NEProblem.parameterize_net"]}
{"id": "C112", "title": "The user's network object is not modified", "statement": "Evaluating solutions does not change the parameters of the network object which the user gave to the problem.", "quantifier": "for every history of the problem", "why_tests_cant": "object identity over histories", "anchors": ["src/evotorch/neuroevolution/neproblem.py:NEProblem._instantiate_net", "src/evotorch/neuroevolution/neproblem.py:NEProblem.parameterize_net"]}
{"id": "C113", "title": "SyncVectorEnv refuses sub-environments whose spaces differ", "statement": "Making a SyncVectorEnv out of sub-environments whose observation or action spaces are not of the same kind and shape raises an error.", "quantifier": "for every list of sub-environments and spaces", "why_tests_cant": "all combinations of spaces at all positions", "anchors": ["src/evotorch/neuroevolution/net/vecrl.py:SyncVectorEnv"]}
{"id": "C114", "title": "Assigning several objects to a slice of an ObjectArray stores an immutable copy of each of them", "statement": "`a[i:j:k] = values` with as many values as the slice has places puts, into each place of the slice in order, an immutable copy of the corresponding value; every other cell (in this and in all other arrays) keeps its contents; a different number of values is rejected with TypeError and changes nothing.", "quantifier": "All arrays reached by any program of array operations, all slices with positive step, all values (including values that are created on the fly while the assignment iterates over them).", "why_tests_cant": "Whether a value is confused with an earlier one depends on object identities, i.e. on which addresses the allocator reuses; a test can only see the addresses of its own run.", "anchors": ["src/evotorch/tools/objectarray.py:ObjectArray.set_item", "src/evotorch/tools/immutable.py:as_immutable"]}
{"id": "C115", "title": "ObjectArray.repeat concatenates n copies of the contents", "statement": "`a.repeat(n)` (or `a.repeat((n,))`) gives a new writable ObjectArray of length n*len(a) whose k-th element is a[k mod len(a)].", "quantifier": "All arrays reached by any program of array operations, all n.", "why_tests_cant": "The element at each place for all lengths and all n.", "anchors": ["src/evotorch/tools/objectarray.py:ObjectArray.repeat"]}
{"id": "C116", "title": "Numbers passed to an expects_ndim function take dtype and device of the considered tensors", "statement": "A Python number passed for an argument with a declared number of dimensions is treated like a 0-dimensional tensor whose dtype (bool for booleans) and device are those of the tensors passed for arguments with declared numbers of dimensions, provided these agree; otherwise TypeError is raised. Arguments declared with None have no influence.", "quantifier": "All decorated functions, declarations and argument lists.", "why_tests_cant": "All combinations of declarations, dtypes, devices and positions.", "anchors": ["src/evotorch/decorators.py:expects_ndim"]}
{"id": "C117", "title": "Every positional argument of a decorated call reaches the function", "statement": "A function decorated with expects_ndim, called with arguments without batch dimensions, is called with exactly the given arguments (arrays and numbers as tensors); a call with more arguments than declared does not silently lose arguments.", "quantifier": "All declarations, functions and argument lists.", "why_tests_cant": "Requires all lengths of argument lists against all declarations.", "anchors": ["src/evotorch/decorators.py:expects_ndim"]}
{"id": "C118", "title": "A batched policy acts like independent networks", "statement": "A Policy given n parameter vectors acts like n policies with one vector each: the action number i depends only on the parameters, the observations and the hidden state of network i; setting the parameters of, or resetting, some networks affects these only; and a network that was reset acts as if it had not been called before.", "quantifier": "for every network, number of networks and history of set_parameters (all or some), reset (all or some, with and without copy) and calls", "why_tests_cant": "The histories and networks are unboundedly many; tests compare a few steps of one network.", "anchors": ["src/evotorch/neuroevolution/net/vecrl.py:Policy", "src/evotorch/neuroevolution/net/layers.py:RNN", "src/evotorch/neuroevolution/net/layers.py:LSTM"]}
{"id": "C119", "title": "A policy does not modify tensors of its caller", "statement": "Calling a policy, resetting it (in the default way) or giving it parameters does not change any tensor which the caller holds: observations, actions returned earlier, parameters given earlier.", "quantifier": "for every policy, heap of tensors and call", "why_tests_cant": "Absence of writes to aliased tensors has to hold for all sharing patterns.", "anchors": ["src/evotorch/neuroevolution/net/vecrl.py:Policy.reset", "src/evotorch/neuroevolution/net/vecrl.py:Policy.set_parameters"]}
{"id": "C120", "title": "reset_tensors clears the chosen rows and nothing else", "statement": "reset_tensors(x, indices), for a collection x of tensors nested to any depth and a sequence of integers or booleans, sets exactly the chosen rows of every tensor in x to 0 and changes nothing else; invalid indices raise IndexError.", "quantifier": "for every nesting (with shared tensors), every selection", "why_tests_cant": "All nestings and selections, including repeated and negative indices and shared tensors.", "anchors": ["src/evotorch/neuroevolution/net/vecrl.py:reset_tensors"]}
{"id": "C121", "title": "Info dictionaries are combined without loss", "statement": "Combining the info dictionaries of the sub-environments gives a dictionary with every key that occurs; its entry number i is the value reported by environment i, or None if that environment did not report it; it is an array exactly if all environments report numeric values of the same shape.", "quantifier": "for every list of dictionaries", "why_tests_cant": "All combinations of missing keys, shapes and kinds of values.", "anchors": ["src/evotorch/neuroevolution/net/vecrl.py:_batch_info_dicts"]}
{"id": "C122", "title": "Adam follows Kingma and Ba's rule in both interfaces", "statement": "The class-based Adam optimizer (without amsgrad) and the functional adam/adam_ask/adam_tell both move each coordinate, at every step, by lr * m / (sqrt(v) + epsilon), where m and v are the bias-corrected exponentially discounted sums of the gradients and of their squares so far; so, with the same hyperparameters and gradients, the class's ascents add up to the functional center. With amsgrad the class uses the largest average of squares so far, so that no move is longer than without it. The class rejects meaningless hyperparameters (a single beta, negative step size or epsilon, betas outside [0, 1)) with ValueError.", "quantifier": "for every number of coordinates, hyperparameters, and history of gradients", "why_tests_cant": "Unit tests compare a few steps on a few literal gradients; the closed form over any history needs induction.", "anchors": ["src/evotorch/optimizers.py:Adam", "src/evotorch/optimizers.py:TorchOptimizer.ascent", "src/evotorch/algorithms/functional/funcadam.py:adam", "src/evotorch/algorithms/functional/funcadam.py:adam_ask", "src/evotorch/algorithms/functional/funcadam.py:adam_tell"]}
{"id": "C123", "title": "Adam's moves are bounded and do not depend on the unit of the fitness", "statement": "However large the gradients, Adam moves a coordinate per step by at most stepsize * sqrt(beta2 / ((beta2 - beta1^2)(1 - beta2))) if beta1^2 < beta2; under a constant gradient g every move is stepsize * g / (|g| + epsilon), so at most stepsize; multiplying all the gradients and epsilon by a positive constant changes no move.", "quantifier": "for every history of gradients, hyperparameters, step and coordinate", "why_tests_cant": "Bounds over all histories, including adversarial sequences of gradients, cannot be sampled.", "anchors": ["src/evotorch/optimizers.py:Adam", "src/evotorch/optimizers.py:TorchOptimizer.ascent"]}
{"id": "C124", "title": "SGD with momentum follows the discounted sum of gradients in both interfaces", "statement": "The class-based SGD without dampening and the functional sgd/sgd_ask/sgd_tell move, at every step, by lr times the sum of the gradients so far discounted by powers of momentum (with nesterov: lr times the last gradient plus momentum times that sum); so the class's ascents add up to the functional center.", "quantifier": "for every number of coordinates, hyperparameters, and history of gradients", "why_tests_cant": "The closed form over any history needs induction.", "anchors": ["src/evotorch/optimizers.py:SGD", "src/evotorch/optimizers.py:TorchOptimizer.ascent", "src/evotorch/algorithms/functional/funcsgd.py:sgd", "src/evotorch/algorithms/functional/funcsgd.py:sgd_ask", "src/evotorch/algorithms/functional/funcsgd.py:sgd_tell"]}
{"id": "C125", "title": "Every gradient has an effect on SGD", "statement": "If two histories of gradients given to the SGD optimizer differ for the first time in some coordinate of the last gradient, the resulting ascents differ in that coordinate, whatever the momentum, the dampening and the nesterov setting.", "quantifier": "for every history, hyperparameters and coordinate", "why_tests_cant": "Holds or fails for all histories at once; a test with few steps hardly notices an ignored gradient.", "anchors": ["src/evotorch/optimizers.py:SGD"]}
{"id": "C126", "title": "The initial standard deviation has the requested radius, dtype and device", "statement": "Algorithms started with radius_init begin with equal standard deviations whose Euclidean norm is the radius; started with stdev_init they begin with exactly these values; exactly one of both must be given (otherwise ValueError). The class-based and the functional algorithms begin with the same tensor, of the dtype and on the device of the solutions.", "quantifier": "for every solution length, radius, standard deviation, dtype and device", "why_tests_cant": "All lengths, dtypes and devices (tests have only the cpu and float32).", "anchors": ["src/evotorch/tools/misc.py:to_stdev_init", "src/evotorch/tools/misc.py:stdev_from_radius", "src/evotorch/algorithms/functional/misc.py:_get_stdev_init", "src/evotorch/algorithms/functional/funccem.py:cem", "src/evotorch/algorithms/functional/funcpgpe.py:pgpe"]}
{"id": "C127", "title": "Class-based and functional PGPE perform the same search", "statement": "Constructing the PGPE class and the functional pgpe with the same arguments (center, learning rates, ranking, optimizer by name with its configuration, initial standard deviation or radius, limits, symmetric or not) and giving both the same random samples, both go through the same centers, the same standard deviations and the same populations, generation after generation, for each of the optimizers available in both (ClipUp, Adam, SGD). It holds with a limited change of the standard deviation (the default), with positive lower and upper limits, and without these as long as the standard deviations remain positive. The class accepts the arguments the function accepts, except the population sizes with which ask fails. Without any limit it is false: where a gradient leads below zero, the class continues with a negative standard deviation, the functional search has zero and then NaN forever.", "quantifier": "all numbers of generations, all solution lengths, all samples, fitness functions and gradient estimates (also NaN or infinite estimates for the standard deviation), all accepted arguments", "why_tests_cant": "tests compare a few steps of one configuration; here two different code paths (per-component clipping in different order, different optimizer implementations, the class lagging one update behind ask/tell) are compared over unbounded runs", "anchors": ["src/evotorch/algorithms/distributed/gaussian.py:274-419", "src/evotorch/algorithms/distributed/gaussian.py:714-742", "src/evotorch/algorithms/functional/funcpgpe.py:217-384", "src/evotorch/algorithms/functional/misc.py:26-75", "src/evotorch/tools/misc.py:711-908", "src/evotorch/optimizers.py:421-458"]}
{"id": "C128", "title": "Class-based and functional CEM perform the same search", "statement": "Constructing the CEM class and the functional cem with the same arguments and giving both the same random samples, both go through the same centers, standard deviations and populations, under the same conditions on the limits as for PGPE. The class accepts the arguments the function accepts, with any population size. Without limits it is false once a standard deviation is zero (all parents share a coordinate): the class goes on with what the parents give, the functional search has NaN for this coordinate after the next tell, because zero times an infinite permitted change is NaN.", "quantifier": "all numbers of generations, all solution lengths, samples, fitness functions and estimates, all accepted arguments", "why_tests_cant": "a search collapses in one coordinate only in long runs; equality over unbounded runs is not testable", "anchors": ["src/evotorch/algorithms/distributed/gaussian.py:274-419", "src/evotorch/algorithms/distributed/gaussian.py:1159-1180", "src/evotorch/algorithms/functional/funccem.py:122-289", "src/evotorch/tools/misc.py:711-908"]}
{"id": "C129", "title": "Functional samplers take exactly the declared parameters, by position or by name", "statement": "A functional sampler made for a list of required parameters accepts a call exactly when all required parameters are given by position, or all of them by name in any order; giving them by name in any order or by position yields the same samples. The wrapped distribution receives exactly the given values for the required parameters and the fixed parameters (a fixed value wins over a given one), nothing else. Every other call raises: KeyError for an unknown name in a keyword call of the right size, TypeError otherwise.", "quantifier": "for all distribution classes, lists of distinct required parameters, fixed parameters, calls and random draws", "why_tests_cant": "Depends on all orders and mixtures of arguments for all parameter lists; tests use a few calls with mu and sigma.", "anchors": ["src/evotorch/distributions.py:1029-1079"]}
{"id": "C130", "title": "Functional gradient estimators: settings of the call win, and a bound function only automates sampling and evaluation", "statement": "An estimator without a function succeeds exactly when samples and fitnesses have the same length and the distribution accepts the parameters, and returns the gradients of the distribution described by the given and fixed parameters for the objective sense and ranking of the call (falling back to those given at construction), plus samples and fitnesses exactly when asked. The estimator with a function h called with n equals drawing n samples, evaluating them with h and calling the estimator without a function. Keyword order does not matter. Without any objective sense the call raises ValueError.", "quantifier": "for all distribution classes, estimators, functions, settings, parameters and random draws", "why_tests_cant": "Quantifies over all keyword orders, settings and functions; tests check particular calls.", "anchors": ["src/evotorch/distributions.py:1208-1360"]}
{"id": "C131", "title": "The static sampler of a separable Gaussian and its instances accept the same parameters and give the same samples", "statement": "A parameter dictionary is accepted by the constructor of a separable Gaussian exactly when it has vectors mu and sigma of equal length and no parameter outside the mandatory and optional ones; the static functional sampler accepts exactly the same dictionaries (a symmetric one only for an even number of samples) and, for the same noise, returns the same rows as an instance.", "quantifier": "for all parameter dictionaries, sets of optional parameters, numbers of samples and noise", "why_tests_cant": "Agreement of two separately written code paths over all dictionaries and noises cannot be settled by examples.", "anchors": ["src/evotorch/distributions.py:96-111", "src/evotorch/distributions.py:418-497", "src/evotorch/distributions.py:647-704"]}
{"id": "C132", "title": "Initial solutions respect the declared bounds", "statement": "A numeric problem accepts exactly bounds that are scalars or vectors of the solution length (anything else raises ValueError). Generated initial solutions lie between the initial bounds, the strict bounds serving as initial bounds when those are missing, and therefore also between the strict bounds, in which all solutions must always reside.", "quantifier": "for all problem configurations with a floating-point dtype, all ordered bounds and all draws of the generator", "why_tests_cant": "The bounds, lengths and draws are unbounded; a test sees a few sampled populations and would not notice missing cross-checks.", "anchors": ["src/evotorch/core.py:1070-1153", "src/evotorch/core.py:1860-1904"]}
{"id": "C133", "title": "Objective senses are validated", "statement": "A constructed problem has at least one objective, each with the sense 'min' or 'max', so that for each objective it can tell whether higher is better; any other sense is rejected with ValueError.", "quantifier": "for all configurations and all strings or sequences of strings given as the objective sense", "why_tests_cant": "All other strings must be rejected; tests try one or two.", "anchors": ["src/evotorch/core.py:1160-1190", "src/evotorch/core.py:1758-1768"]}
{"id": "C134", "title": "The number of actors and their GPU shares follow the available resources", "statement": "A problem never ends up with exactly one actor, has several actors only when its device is the cpu, and the GPU shares which are computed automatically never exceed the available GPUs in total; with num_actors='num_devices' whole CPUs and GPUs are mapped one to one, and a problem on another device than the cpu gets no actors.", "quantifier": "for all configurations and all amounts of CPUs and GPUs of the cluster", "why_tests_cant": "Depends on the resources of the cluster, over which tests cannot range.", "anchors": ["src/evotorch/core.py:1319-1581"]}
{"id": "C135", "title": "Actors of a parallelized problem get different seeds", "statement": "Starting the actors of a parallelized problem gives the generators of Python, numpy and PyTorch of all actors pairwise different seeds, all of them acceptable for numpy, and succeeds for every problem, also for one with a random seed of its own.", "quantifier": "for all problems with at most 2^30 actors and all draws of the generator of the main process", "why_tests_cant": "Distinctness over all actors and draws (with wrap-around at 2^32) is not testable by examples, and ray actors are not started in unit tests.", "anchors": ["src/evotorch/core.py:133-142", "src/evotorch/core.py:1977-2047"]}
{"id": "C136", "title": "A read-only tensor cannot be modified through itself or its views", "statement": "Once every reference to some memory is a read-only tensor (or the numpy array of one), the values never change: item assignment, in-place methods, augmented assignments and `out=` raise an error, and slices, reshapes, results of other torch functions and numpy arrays on that memory are read-only too.", "quantifier": "for every state of the memory, every program (sequence of method calls, function calls, augmented assignments, copies, numpy writes) and every result of the torch functions that respects PyTorch's naming convention", "why_tests_cant": "Programs mix views, copies and functions in unboundedly many ways; a test shows only that a few listed methods raise", "anchors": ["src/evotorch/tools/readonlytensor.py:28-75", "src/evotorch/tools/readonlytensor.py:92-143"]}
{"id": "C137", "title": "Copies of read-only tensors", "statement": "`clone()` and `copy.deepcopy` of a read-only tensor give an independent regular tensor with the same values; slicing and reshaping give a read-only view or else a regular tensor with its own memory, never a regular tensor on the protected memory.", "quantifier": "for every state, every read-only tensor and every index or shape", "why_tests_cant": "Whether an index gives a view or a copy depends on the index; a test samples a few", "anchors": ["src/evotorch/tools/readonlytensor.py:28-43", "src/evotorch/tools/readonlytensor.py:92-113", "src/evotorch/tools/readonlytensor.py:125-129"]}
{"id": "C138", "title": "read_only_tensor makes its own copy, like torch.tensor", "statement": "The tensor made by `read_only_tensor(x)` keeps its values whatever is done afterwards with x; only `as_read_only_tensor(x)` may share memory with x.", "quantifier": "for every source (Python sequence or tensor, converted or not), every later program and all values", "why_tests_cant": "The claim is about everything that may happen later to the source", "anchors": ["src/evotorch/tools/readonlytensor.py:154-186", "src/evotorch/tools/readonlytensor.py:189-225"]}
{"id": "C139", "title": "Updating a regular tensor in place with a read-only operand", "statement": "After `x += r`, where x is a regular tensor and r a read-only one, x holds the new values and is still a regular tensor.", "quantifier": "for every state, every regular tensor, every augmented assignment and all operands", "why_tests_cant": "Tests look at the values, not at what can be done later with the variable", "anchors": ["src/evotorch/tools/readonlytensor.py:131-142"]}
{"id": "C140", "title": "The policy made from a solution acts as the solution did in the problem", "statement": "Driving the environment by hand with the module returned by `to_policy(x)` (raw observations in, its output as action) gives the actions and rewards of a rollout of x by the problem with the same observation statistics and without action noise, for recurrent and other networks; in VecGymNE each action equals the one which reaches the environment in the evaluation.", "quantifier": "for all environments, networks (recurrent or not), action spaces, statistics, episode limits and numbers of steps", "why_tests_cant": "Equality of whole trajectories over arbitrary environments and networks; tests check shapes and a few actions", "anchors": ["src/evotorch/neuroevolution/gymne.py:324-414", "src/evotorch/neuroevolution/gymne.py:646-672", "src/evotorch/neuroevolution/vecgymne.py:837-848", "src/evotorch/neuroevolution/vecgymne.py:927-973", "src/evotorch/neuroevolution/net/rl.py:131-196", "src/evotorch/neuroevolution/net/vecrl.py:527-552"]}
{"id": "C141", "title": "GymNE.run treats a module made by to_policy like the parameters", "statement": "`run(to_policy(x))` and `visualize(to_policy(x))` behave as `run(x)` and `visualize(x)`: the argument may be a torch module or a sequence of parameters.", "quantifier": "for all environments, networks, action spaces, statistics and numbers of steps", "why_tests_cant": "The difference shows only once statistics have been collected, and only in the values which the network receives", "anchors": ["src/evotorch/neuroevolution/gymne.py:416-475", "src/evotorch/neuroevolution/gymne.py:646-672"]}
{"id": "C142", "title": "Population reports describe the present population", "statement": "After a step, the status items pop_best, pop_best_eval, mean_eval and median_eval (obj<i>_... with several objectives) are the best solution of the present population, its fitness, and the mean and lower median of the fitnesses, however often and in whatever order the status was read in between.", "quantifier": "for every population, number of objectives, objective, history of steps and reads, and order of registration", "why_tests_cant": "lazily computed, cached and nested reads in all orders over unbounded histories; populations with unevaluated solutions", "anchors": ["src/evotorch/algorithms/searchalgorithm.py:SinglePopulationAlgorithmMixin", "src/evotorch/algorithms/searchalgorithm.py:LazyReporter"]}
{"id": "C143", "title": "Excluded reports are not reported", "statement": "An algorithm reports pop_best, pop_best_eval, mean_eval and median_eval, under different names for each objective, except those named by exclude; the distribution-based searches keep their own mean_eval.", "quantifier": "for every exclusion (a name or several), number of objectives, focused objective and order of iteration of the set of reports", "why_tests_cant": "names for any number of objectives; set iteration order varies between processes", "anchors": ["src/evotorch/algorithms/searchalgorithm.py:SinglePopulationAlgorithmMixin.__init__", "src/evotorch/algorithms/distributed/gaussian.py:GaussianSearchAlgorithm.__init__"]}
{"id": "C144", "title": "Pickle files keep every saved generation", "statement": "A PicklingLogger writes one file per saved generation, in its directory, never overwriting those of other generations; the last file has the requested items of the status, the observation statistics and a policy made from the requested (or center, or best) solution; saving fails only if there is no solution to make a policy from.", "quantifier": "for every status, generation, sequence of saves, prefix, directory, width of the number and explicit file name", "why_tests_cant": "all generation numbers and paddings; all file names", "anchors": ["src/evotorch/logging.py:PicklingLogger.save", "src/evotorch/logging.py:PicklingLogger.unpickle_last_file"]}
{"id": "C145", "title": "Scalar loggers pass on every scalar once", "statement": "StdOutLogger prints every item once with its value, the leading keys first, in aligned columns; groups keep names apart; MlflowLogger logs the scalars of every interval-th generation with the number of the generation as step.", "quantifier": "for every status, leading keys, group, interval, mode and number of generations", "why_tests_cant": "all dictionaries and histories", "anchors": ["src/evotorch/logging.py:StdOutLogger", "src/evotorch/logging.py:MlflowLogger", "src/evotorch/logging.py:NeptuneLogger", "src/evotorch/logging.py:WandbLogger"]}
{"id": "C146", "title": "Bin sends every value to the nearer of its two bounds", "statement": "The output of Bin(lb, ub) for a value closer to lb is lb, and for a value closer to ub is ub; every output is one of the two bounds.", "quantifier": "for all real bounds lb and ub with lb != ub, in either order, and all real inputs", "why_tests_cant": "a test tries a few values per bound; the midpoint, where the sign function returns 0, is easily missed, and the claim is about all bounds in both orders", "anchors": ["src/evotorch/neuroevolution/net/layers.py:54-74"]}
{"id": "C147", "title": "Clip returns the closest admissible value, and Round the closest number with the given digits", "statement": "Clip(lb, ub) returns the point of the interval [lb, ub] closest to its input. Round(ndigits) returns the closest multiple of 10**-ndigits, with ties going to the multiple with an even last digit; applying it twice is the same as applying it once, it moves a value by at most half a unit, and it never exchanges the order of two values.", "quantifier": "for all intervals, all numbers of digits (also negative ones) and all real inputs", "why_tests_cant": "idempotence, monotonicity and optimality quantify over all pairs of real numbers", "anchors": ["src/evotorch/neuroevolution/net/layers.py:25-45", "src/evotorch/neuroevolution/net/layers.py:104-113"]}
{"id": "C148", "title": "FeedForwardNet computes the multilayer perceptron described by its layers and its parameter vector", "statement": "A FeedForwardNet filled with a parameter vector computes, layer after layer, the activation of W x + b, where each W is stored row by row in the vector and is followed by its b if the layer has a bias; the output has the size of the last layer. The vector must have exactly one number per weight and bias, the input must have the declared size, and a network can be built exactly when every layer is a tuple of two or three elements and every named activation is one of relu, selu, elu, tanh, hardtanh, sigmoid and round.", "quantifier": "for all input sizes, all lists of layers, all activation functions that act on each number, all parameter vectors and all inputs", "why_tests_cant": "the statement is about networks of any depth and width and about the place of every single parameter in the flat vector; tests fix an architecture", "anchors": ["src/evotorch/neuroevolution/net/layers.py:311-374", "src/evotorch/neuroevolution/net/misc.py:26-46"]}
{"id": "C149", "title": "StructuredControlNet is the sum of a linear layer and a perceptron whose contribution the activation bounds", "statement": "The output of a StructuredControlNet is the sum of a linear layer and of a multilayer perceptron with num_layers hidden layers, both applied to the same input, with the parameters of the linear layer first. The activation also follows the last layer, so with the default activation each output differs from that of the linear layer by less than 1.", "quantifier": "for all sizes, all numbers of hidden layers (zero included), with and without bias, all parameter vectors and all inputs", "why_tests_cant": "tests fix the architecture and a few parameter vectors; the bound holds for all of them", "anchors": ["src/evotorch/neuroevolution/net/layers.py:392-437"]}
{"id": "C150", "title": "LocomotorNet depends on its input and the number of passes since its last reset only", "statement": "A LocomotorNet answers the k-th input since its creation or its last reset() by the linear layer applied to that input plus, for each output, the sum of the waves amplitude * sin(frequency * k + phase), k counting from 0; after a reset() it answers as a new network with the same parameters.", "quantifier": "for all sizes, all parameter vectors and all sequences of forward passes and resets", "why_tests_cant": "the claim is about all interleavings of calls and about all positions of the parameters", "anchors": ["src/evotorch/neuroevolution/net/layers.py:494-568"]}
{"id": "C151", "title": "Every episode of a LocomotorNet policy starts at timestep 0", "statement": "When a LocomotorNet is used as the policy of a GymNE problem, each episode starts with a reset network, so evaluating the same solution on the same observations gives the same actions, whatever was evaluated before.", "quantifier": "for all sequences of evaluated solutions and of episodes, of all lengths", "why_tests_cant": "whether a leftover of earlier episodes influences later ones depends on the whole history of evaluations; a test with one episode cannot see it", "anchors": ["src/evotorch/neuroevolution/gymne.py:371-372", "src/evotorch/neuroevolution/net/statefulmodule.py:82-86", "src/evotorch/neuroevolution/neproblem.py:342-363", "src/evotorch/neuroevolution/net/layers.py:525-568"]}
{"id": "C152", "title": "Through the environment wrapper, both gym APIs look the same", "statement": "With force_classic_api, a TorchWrapper around an environment answers every sequence of resets and steps by the observations, rewards, end flags and infos of the environment, where the end flag of a sub-environment is true exactly if it has terminated or was truncated. This does not depend on whether the environment follows the classic API or the new one, nor on whether its flags are booleans, integers or floating point numbers. Steps before the first reset raise and leave the environment alone. Without force_classic_api results keep the form the environment gives them. reset_env and take_step_in_env do the same for environments that are not vectorized.", "quantifier": "for all environments (as state machines), all ways of reporting, all sequences of resets and steps", "why_tests_cant": "the claim relates two environments over all interaction sequences; tests use a few environments of whichever API is installed", "anchors": ["src/evotorch/neuroevolution/net/vecrl.py:223-251", "src/evotorch/neuroevolution/net/vecrl.py:488-596", "src/evotorch/neuroevolution/net/rl.py:63-127"]}
{"id": "C153", "title": "The environment wrapper only sends admissible actions", "statement": "With clipping, every number of an action sent to the environment lies within the bounds of its action space, and a number that already did so is sent unchanged; with discrete actions given as scores, the index sent for each sub-environment is that of a largest score, and is smaller than the number of scores.", "quantifier": "for all bounds (also one-sided or infinite), all batches of actions, all scores", "why_tests_cant": "quantifies over all action values and all bounds", "anchors": ["src/evotorch/neuroevolution/net/vecrl.py:538-550"]}
{"id": "C154", "title": "Dtype and device of a container", "statement": "dtype_of_container and device_of_container return the dtype (device) which all tensors within a container have, None if it has none, raise ValueError exactly for mismatches and TypeError for unrecognized objects; also for containers with shared and cyclic parts.", "quantifier": "every container: every graph of lists, tuples, sets, dictionaries, their immutable counterparts, arrays, tensors and other objects, also cyclic", "why_tests_cant": "The search caches incomplete answers for parts of a cycle; that the answer for the whole is right anyway is an invariant over all graphs.", "anchors": ["src/evotorch/tools/misc.py: dtype_of_container, device_of_container"]}
{"id": "C155", "title": "Casting the tensors in a container", "statement": "cast_tensors_in_container returns a copy of the container with the same structure (sharing and cycles included) in which every tensor has the requested dtype and device; the original is left as it was.", "quantifier": "every container, every requested dtype and device", "why_tests_cant": "Structure preservation is a correspondence between all objects of two graphs of any shape.", "anchors": ["src/evotorch/tools/misc.py: cast_tensors_in_container"]}
{"id": "C156", "title": "Casting a container, then asking for its dtype", "statement": "After cast_tensors_in_container, dtype_of_container and device_of_container return what was requested, and what was not requested is as before.", "quantifier": "every container of tensors, bytes, lists, tuples, sets, dictionaries, immutable lists and dictionaries without a cycle through a tuple; every requested dtype and device", "why_tests_cant": "Relates three recursive functions on graphs of any shape.", "anchors": ["src/evotorch/tools/misc.py: cast_tensors_in_container, dtype_of_container, device_of_container"]}
{"id": "C157", "title": "Dtype and device of a search distribution", "statement": "A search distribution has the dtype and the device requested when it is made, modified or moved (by default those of its parameters), and all its parameter tensors have them; the dictionary passed by the user is not changed by casting.", "quantifier": "every dictionary of parameters, every requested dtype and device, every replaced parameter", "why_tests_cant": "Parameters of any structure and any combination of dtypes; the default of the lookup is computed even if it is not needed.", "anchors": ["src/evotorch/distributions.py: Distribution.__init__, Distribution.modified_copy, Distribution.to"]}
{"id": "C158", "title": "Parameter dictionaries given to ExpGaussian", "statement": "Making an ExpGaussian (the distribution of XNES) from a dictionary of parameters depends only on what the user put into the dictionary, so a dictionary can be changed and used again.", "quantifier": "every dictionary of parameters, every new sigma", "why_tests_cant": "An equivalence over all matrices about two successive constructions.", "anchors": ["src/evotorch/distributions.py: ExpGaussian.__init__, ExpGaussian.to_local_coordinates"]}
{"id": "C159", "title": "Fitness functions and the evaluations they leave in a batch", "statement": "Evaluating a batch stores for every solution exactly what the fitness function says about the decision values of that solution: the objectives, then the evaluation data, NaN where the function gives no evaluation data. This holds for per-solution and vectorized fitness functions, for fitness functions with their own device, and for batches split into pieces for remote actors. Results of the wrong shape are refused with ValueError.", "quantifier": "every fitness function (per-solution or vectorized), every number of objectives and of evaluation data, every batch, every splitting into pieces and every completion order of the actors, every device setting", "why_tests_cant": "An equality over arbitrary functions, batch sizes, and all combinations of device and actor settings.", "anchors": ["src/evotorch/core.py: Problem.evaluate, Problem._evaluate_all, Problem._evaluate_batch, Problem._evaluate, Problem.get_device_of_fitness_function, SolutionBatch.set_evals, Solution.set_evals"]}
{"id": "C160", "title": "Callable evaluators", "statement": "A callable evaluator made for objective j maps a tensor with any number of leading batch dimensions to a tensor with these dimensions, where each element is objective j of the vector at the same position. Used repeatedly it updates the status of the problem (best, worst) as if these batches had been evaluated. An evaluator is made exactly if the problem is numeric, the dtypes agree and the objective exists (or is the only one).", "quantifier": "every shape, every numeric problem, every objective index (negative ones included), every history of calls", "why_tests_cant": "A statement about all shapes and positions.", "anchors": ["src/evotorch/core.py: Problem.make_callable_evaluator, ProblemBoundEvaluator.__call__"]}
{"id": "C161", "title": "Ways to make a batch", "statement": "A new batch made for a problem has the requested number of solutions, generated by the problem unless empty=True, is on the requested device (by default that of the problem) and is unevaluated with a NaN for every objective and evaluation datum. A batch made like another one has its kind, senses, solution length, and its length unless another is requested; it is filled by the problem unless empty=True. A batch can be moved to another device without change. Arguments that exclude each other give ValueError.", "quantifier": "every problem, every batch, every population size, device and combination of arguments", "why_tests_cant": "Covers all combinations of seven optional arguments for all problems.", "anchors": ["src/evotorch/core.py: SolutionBatch.__init__, SolutionBatch.to"]}
{"id": "C162", "title": "Arguments of generate_batch", "statement": "Without center and stdev, generate_batch returns an unevaluated batch of values from the generator of the problem; with both, values around center (in mirrored pairs if symmetric is requested); with stdev only, around a center sampled from the initial bounds, as documented. symmetric without stdev, an odd population with symmetric, and empty together with center are refused.", "quantifier": "every numeric problem, every population size, center, stdev and outcome of the random generator", "why_tests_cant": "Quantifies over all outcomes of the generator and all settings.", "anchors": ["src/evotorch/core.py: Problem.generate_batch"]}
{"id": "C163", "title": "Concatenating batches", "statement": "cat and concat return the solutions of the given batches, each with its evaluations, in the given order. Batches with other senses or another solution length are refused.", "quantifier": "every non-empty list of batches of any lengths, numeric or of objects", "why_tests_cant": "An equality for all lists of batches; broadcasting hides size mismatches.", "anchors": ["src/evotorch/core.py: SolutionBatch.cat, SolutionBatch.concat, SolutionBatch.__init__"]}
{"id": "C164", "title": "New tensors made for an object", "statement": "The makers empty, zeros, ones, nan, uniform, gaussian and randint of a problem or another object with a dtype and a device return a new tensor of the requested shape (num_solutions rows of the solution length, or the given size), of the requested dtype (given as a torch dtype or by its name; by default the dtype, or with use_eval_dtype the evaluation dtype, of the object; int64 for randint), on the requested device (by default that of the object), filled with the constant or with fresh draws of the requested generator. Conflicting requests give ValueError.", "quantifier": "every object with dtype, eval_dtype, device and generator, every maker, every combination of arguments", "why_tests_cant": "Covers all combinations of seven optional arguments of seven makers.", "anchors": ["src/evotorch/tools/tensormaker.py: TensorMakerMixin", "src/evotorch/tools/misc.py: make_empty, make_zeros, make_ones, make_nan, make_uniform, make_gaussian, make_randint"]}
{"id": "C165", "title": "Existing tensors filled by makers", "statement": "If a maker is given an existing tensor as out, this tensor gets the constants or fresh draws in all its elements and keeps its shape, dtype and device. Arguments which make sense only for new tensors (a size, a number of solutions, a dtype, a device) are refused with ValueError.", "quantifier": "every tensor, every maker, every combination of arguments", "why_tests_cant": "All shapes (also none), dtypes and combinations of arguments.", "anchors": ["src/evotorch/tools/tensormaker.py: TensorMakerMixin", "src/evotorch/tools/misc.py: make_empty, make_zeros, make_ones, make_nan, make_uniform, make_gaussian, make_randint"]}
{"id": "C166", "title": "Identity matrices", "statement": "make_I returns the n x n matrix with 1 on the diagonal and 0 elsewhere, for n given as an integer, as a tuple of one integer, or by the solution length of the object; with out, the given matrix is overwritten so and keeps its shape, dtype and device. Tuples of another length are refused.", "quantifier": "every size, every matrix shape, every object", "why_tests_cant": "All sizes, also non-square outputs.", "anchors": ["src/evotorch/tools/tensormaker.py: TensorMakerMixin.make_I", "src/evotorch/tools/misc.py: make_I"]}
{"id": "C167", "title": "Conversion to tensors", "statement": "as_tensor returns a tensor with the shape of its argument and the elements of its argument converted to the requested dtype, on the requested device; without a dtype the dtype is kept or inferred from the data, and without a device the tensor stays where it is. The method of an object uses the dtype and device of the object by default. The dtype object gives an array of objects, which exists on the cpu only.", "quantifier": "every tensor, array of objects or other data, every dtype, device and object", "why_tests_cant": "All combinations of sources, dtypes and devices.", "anchors": ["src/evotorch/tools/misc.py: as_tensor", "src/evotorch/tools/tensormaker.py: TensorMakerMixin.as_tensor"]}
{"id": "C168", "title": "Device of a fitness function", "statement": "A fitness function decorated by on_device, on_cuda or on_aux_device is executed on the declared device (for on_aux_device: the device of the problem if it is not the cpu, otherwise cuda if available, where actors with distinct indices get distinct devices if all are visible). The first decorated function among the objective function, _evaluate_batch and _evaluate counts; without one there is no device. A decorator on _evaluate_all, which cannot respect it, is refused with RuntimeError.", "quantifier": "every way to define fitness functions of a problem, every device setting", "why_tests_cant": "All combinations of decorated functions.", "anchors": ["src/evotorch/decorators.py: on_device, on_cuda, on_aux_device", "src/evotorch/core.py: Problem._device_of_fitness_function, Problem.aux_device"]}
{"id": "C169", "title": "Attributes of remote problems", "statement": "Writing to an attribute path of a remote problem changes this attribute of the object reached by the path and no other attribute of any object, and reading the same path afterwards gives the written value. Paths given as dotted strings and as lists of names are equivalent. Missing attributes on the way give AttributeError.", "quantifier": "every graph of objects, every attribute path and value", "why_tests_cant": "All object graphs, also with sharing and cycles.", "anchors": ["src/evotorch/core.py: EvaluationActor.get, EvaluationActor.set"]}
{"id": "C170", "title": "CMA-ES via pycma", "statement": "The options given to pycma are those asked for by the arguments of PyCMAES and those of cma_options, together with unlimited iterations and a valid random seed unless given, and the bounds of the problem (infinite on an unbounded side). An option given twice is refused with ValueError. In every step pycma is told, for each solution it has asked for, a number which is smaller exactly when the solution is better in the sense of the chosen objective; if an evaluation is not a number, ValueError is raised.", "quantifier": "every combination of arguments and cma_options, every problem, fitness function, objective, sense and setting of parallelization, every list of solutions", "why_tests_cant": "Quantifies over option dictionaries and fitness functions; signs of minimization and maximization cancel twice.", "anchors": ["src/evotorch/algorithms/pycmaes.py: PyCMAES.__init__, PyCMAES._step"]}
{"id": "C171", "title": "Methods of remote problems", "statement": "Calling a method through all_remote_problems() or all_remote_envs() calls it with the same arguments on every actor and returns the results in the order of the actors; the state of each actor changes only by its own call. If calls fail, the error of the first failing actor is raised. On an actor itself the accessor raises RuntimeError.", "quantifier": "every method, argument list, keyword dictionary and number and states of actors", "why_tests_cant": "Quantifies over all methods and any number of processes.", "anchors": ["src/evotorch/core.py: RemoteMethod, AllRemoteProblems, AllRemoteEnvs, EvaluationActor.call"]}
{"id": "C172", "title": "Number of actors and the device of the simulator", "statement": "VecGymNE accepts every documented value of num_actors, including the names max, num_cpus, num_gpus and num_devices. The vectorized environment moves its tensors to the device of the problem if that is not the cpu, otherwise to the auxiliary device exactly if there are several actors with a share of the GPUs.", "quantifier": "every device, number of actors and number of GPUs per actor", "why_tests_cant": "Needs combinations of devices which no test machine has.", "anchors": ["src/evotorch/neuroevolution/vecgymne.py: VecGymNE.__init__"]}
{"id": "C173", "title": "Alive bonus schedules", "statement": "GymNE and VecGymNE give an alive bonus schedule the same meaning: (t, b) adds b from time step t on, (t0, t1, b) ramps it up between t0 and t1. Schedules of other lengths are refused with ValueError.", "quantifier": "every schedule", "why_tests_cant": "Quantifies over all lengths and numbers.", "anchors": ["src/evotorch/neuroevolution/vecgymne.py: VecGymNE.__init__", "src/evotorch/neuroevolution/net/rl.py: AliveBonusScheduleWrapper"]}
{"id": "C174", "title": "At most max_num_envs environments", "statement": "If max_num_envs is given, at no time more than that many sub-environments exist in all processes together, and batches of any size are still evaluated completely, in pieces.", "quantifier": "every history of evaluations, policies made from solutions and clones, every limit, number of actors and distribution of pieces to actors", "why_tests_cant": "Quantifies over histories and numbers of processes.", "anchors": ["src/evotorch/neuroevolution/vecgymne.py: VecGymNE._parallelize, VecGymNE._set_actor_max_num_envs, VecGymNE._get_env, VecGymNE._evaluate_batch", "src/evotorch/core.py: EvaluationActor.call"]}
{"id": "C175", "title": "Sub-batches of GymNE and VecGymNE", "statement": "With num_subbatches a batch is divided into that many pieces for the actors, with subbatch_size into pieces of at most that size, otherwise into as many pieces as there are actors; giving both is refused with ValueError.", "quantifier": "every batch, number of actors, num_subbatches and subbatch_size", "why_tests_cant": "Quantifies over all batch sizes and arguments.", "anchors": ["src/evotorch/neuroevolution/gymne.py: GymNE.__init__", "src/evotorch/neuroevolution/vecgymne.py: VecGymNE.__init__", "src/evotorch/core.py: Problem.__init__, Problem._evaluate_all"]}
{"id": "C176", "title": "Supported spaces of GymNE", "statement": "GymNE accepts an environment exactly if its observations are a Box and its actions a Box or Discrete, and then knows the lengths of observations and actions. Other spaces are refused with TypeError. The environment is to be given under exactly one of the names env and env_name and together with a network, otherwise ValueError is raised.", "quantifier": "every pair of spaces, every combination of the arguments", "why_tests_cant": "Quantifies over all kinds of spaces.", "anchors": ["src/evotorch/neuroevolution/gymne.py: ensure_space_types, GymNE.__init__"]}
{"id": "C177", "title": "Action noise", "statement": "With action_noise_stdev, GymNE and VecGymNE add Gaussian noise with mean zero and that standard deviation to every component of the action; without it actions are left as they are.", "quantifier": "every standard deviation, action and outcome of the random number generator", "why_tests_cant": "A distribution cannot be established by samples.", "anchors": ["src/evotorch/neuroevolution/gymne.py: GymNE._use_policy", "src/evotorch/neuroevolution/vecgymne.py: VecGymNE._evaluate_subbatch"]}
{"id": "C178", "title": "Names of vectorized environments", "statement": "make_vector_env takes the part of the name before the first '::' as the registry: gym or nothing means gymnasium, brax means brax, anything else is refused with ValueError. Keyword arguments, with those of gym_kwargs taking precedence, reach every copy of a gymnasium environment; brax_kwargs do not matter for it, nor gym_kwargs for brax. With num_envs that many copies are made (at least one); without it, empty_info, num_episodes and device are refused.", "quantifier": "every name, number of environments and dictionaries of keyword arguments", "why_tests_cant": "Quantifies over all strings and dictionaries.", "anchors": ["src/evotorch/neuroevolution/net/vecrl.py: make_vector_env, make_gym_env, SyncVectorEnv.__init__"]}
{"id": "C179", "title": "Keyword arguments of brax environments", "statement": "A brax environment is made with all keyword arguments given, with the number of environments given once under the name num_envs or batch_size; giving it twice or not at all, or refusing automatic resets, raises ValueError. The prefix old:: chooses the old implementation.", "quantifier": "every name and dictionary of keyword arguments", "why_tests_cant": "Quantifies over all dictionaries; brax is not installed in most test environments.", "anchors": ["src/evotorch/neuroevolution/net/vecrl.py: make_brax_env, VectorEnvFromBrax.__init__"]}
{"id": "C180", "title": "Ends of episodes and seeds of brax environments", "statement": "step reports for every sub-environment whether its episode was terminated and whether it was truncated, an episode being truncated where brax says so, and ended exactly where brax says done. seed(s) followed by reset() is the same as reset(seed=s), and the seed is used for one reset only.", "quantifier": "every brax environment, state, action and seed", "why_tests_cant": "Quantifies over simulators.", "anchors": ["src/evotorch/neuroevolution/net/vecrl.py: VectorEnvFromBrax.seed, VectorEnvFromBrax.reset, VectorEnvFromBrax.step"]}
{"id": "C181", "title": "Merged info dictionaries on a device", "statement": "If SyncVectorEnv has a device, reset and step report every key of the info dictionaries: as a tensor on the device if all sub-environments report arrays or numbers of the same shape, otherwise as a list with None where it is missing. Without a device the tensors are numpy arrays.", "quantifier": "every list of info dictionaries", "why_tests_cant": "Quantifies over all dictionaries.", "anchors": ["src/evotorch/neuroevolution/net/vecrl.py: SyncVectorEnv.__move_to_target_device, _batch_info_dicts"]}
{"id": "C182", "title": "assert_allclose passes exactly when the values are close", "statement": "assert_allclose(actual, desired, rtol=..., atol=...) passes if and only if the two have the same shape, or one is a single number, and every |actual - desired| <= atol + rtol * |desired| (equal infinities are close; NaN are equal exactly if equal_nan); otherwise it fails with AssertionError. Without any tolerance it raises TestingError.", "quantifier": "all arrays, nested lists and tolerances", "why_tests_cant": "Quantifies over all arrays and tolerances; a test helper which passes wrongly hides bugs in every test using it.", "anchors": ["src/evotorch/testing.py: assert_allclose, _to_numpy"]}
{"id": "C183", "title": "assert_almost_between passes exactly within the bounds", "statement": "assert_almost_between(x, lb, ub, atol=t) passes if and only if lb - t <= x <= ub + t holds for every element, where the bounds are broadcast to the shape of x from the last dimension; NaN never passes; bounds which cannot be broadcast are refused.", "quantifier": "all arrays, bounds of all shapes and tolerances", "why_tests_cant": "Quantifies over arrays, shapes and bounds.", "anchors": ["src/evotorch/testing.py: assert_almost_between"]}
{"id": "C184", "title": "assert_eachclose, assert_shape_matches and assert_dtype_matches", "statement": "assert_eachclose(x, v) passes if and only if every element of x is close to v; assert_shape_matches passes if and only if the shape is the given one, an integer n meaning (n,); assert_dtype_matches passes if and only if the dtypes are equal.", "quantifier": "all arrays, values and tolerances", "why_tests_cant": "Quantifies over all arrays, values and shapes.", "anchors": ["src/evotorch/testing.py: assert_eachclose, assert_shape_matches, assert_dtype_matches"]}
{"id": "C185", "title": "The default configuration of the Python logger", "statement": "After set_default_logger_config(level, override=True), and without override on a logger which is not configured yet, every message of at least that level is printed exactly once, in the documented format: on stdout below WARNING, on stderr from WARNING on; lower messages are not printed. Without override a configured logger is left as it is.", "quantifier": "all previous configurations of the logger, all levels, any number of repeated calls", "why_tests_cant": "Quantifies over previous handlers and sequences of calls.", "anchors": ["src/evotorch/tools/misc.py: set_default_logger_config"]}
{"id": "C186", "title": "What a callable network is given", "statement": "A callable given as the network of GymNE or VecGymNE is called with network_args as keyword arguments; if it is decorated with @pass_info, also with the documented constants (obs_length, act_length, obs_shape, act_shape, obs_space, act_space), where network_args take precedence and a discrete action space is presented as an unbounded Box. If its signature does not accept these, TypeError is raised.", "quantifier": "all signatures, spaces and network_args", "why_tests_cant": "Quantifies over signatures, spaces and dictionaries.", "anchors": ["src/evotorch/tools/misc.py: pass_info_if_needed", "src/evotorch/neuroevolution/neproblem.py: NEProblem._instantiate_net", "src/evotorch/neuroevolution/gymne.py: GymNE._network_constants", "src/evotorch/neuroevolution/vecgymne.py: _env_constants_for_callable_net, VecGymNE.__init__"]}
{"id": "C187", "title": "The constants of network strings", "statement": "In a string which describes the network of GymNE or VecGymNE the names obs_length, act_length, obs_shape, act_shape, obs_space and act_space stand for the lengths and shapes of the observation and action spaces and every entry of network_args for its value, network_args taking precedence.", "quantifier": "all spaces and network_args", "why_tests_cant": "Quantifies over spaces and dictionaries.", "anchors": ["src/evotorch/neuroevolution/neproblem.py: NEProblem._instantiate_net, NEProblem.network_constants", "src/evotorch/neuroevolution/gymne.py: GymNE._str_network_constants", "src/evotorch/neuroevolution/vecgymne.py: _env_constants_for_str_net"]}
{"id": "C188", "title": "Names of dtypes mean the same in PyTorch and numpy", "statement": "Every dtype specification which to_torch_dtype and to_numpy_dtype both accept means the same kind and width of numbers in both; converting a dtype from PyTorch to numpy and back, or from numpy to PyTorch and back, gives the same dtype.", "quantifier": "all dtypes, names and native types", "why_tests_cant": "Names given to numpy are arbitrary strings.", "anchors": ["src/evotorch/tools/misc.py: to_torch_dtype, to_numpy_dtype"]}
{"id": "C189", "title": "is_bool, is_integer and is_real", "statement": "is_bool, is_integer and is_real answer for every object whether it is a boolean, an integer, a real number: a Python number, a numpy scalar, or a tensor or array without dimensions with such a dtype. Booleans are neither integers nor real numbers; integers are real numbers.", "quantifier": "all objects", "why_tests_cant": "Quantifies over kinds of objects, shapes and dtypes.", "anchors": ["src/evotorch/tools/misc.py: is_bool, is_integer, is_real, is_dtype_bool, is_dtype_integer, is_dtype_float, is_dtype_real"]}
{"id": "C190", "title": "The vector questions agree with the questions about elements", "statement": "is_bool_vector, is_integer_vector and is_real_vector answer yes exactly if the object is one-dimensional and each of its elements is a boolean, an integer, a real number; it does not matter whether the vector is a tensor, an array or a list. is_sequence is true exactly of tensors and arrays with dimensions and of other iterables except strings.", "quantifier": "all objects", "why_tests_cant": "Quantifies over nested objects and lists of any length.", "anchors": ["src/evotorch/tools/misc.py: is_bool_vector, is_integer_vector, is_real_vector, is_sequence"]}
{"id": "C191", "title": "numpy_copy and dtypes", "statement": "numpy_copy(x) keeps the dtype, numpy_copy(x, dtype) gives an array with the requested dtype, which can be a numpy dtype, a PyTorch dtype, a native type or a name.", "quantifier": "all sources and dtypes", "why_tests_cant": "Quantifies over sources and dtype specifications.", "anchors": ["src/evotorch/tools/misc.py: numpy_copy"]}
{"id": "C192", "title": "The text of a container is limited in depth, and the limit shows only where it applies", "statement": "Printing a nested container with a maximum depth gives the full text if nothing is nested deeper than the limit. Otherwise exactly the contents that lie too deep are replaced by the mark `<...>`, one mark for every way leading to a cut, and the text never has more open brackets than the limit and closes every one, even for containers which contain themselves.", "quantifier": "for all containers, cyclic ones included, all depths and all texts of the elements", "why_tests_cant": "Containers which contain themselves and arbitrary nestings; tests print a few literals", "anchors": ["src/evotorch/tools/recursiveprintable.py:1-144"]}
{"id": "C193", "title": "The text of a container is not much longer than its contents", "statement": "Printing a container takes text proportional to what it contains.", "quantifier": "for all containers, cyclic ones included", "why_tests_cant": "The length for cyclic containers grows with the tenth power of the number of references; tests print small ones", "anchors": ["src/evotorch/tools/recursiveprintable.py:1-144"]}
{"id": "C194", "title": "The reports of MAP-Elites describe its archive", "statement": "The status of MAPElites describes the filled cells: pop_best (and pop_best_eval) is the best solution in a filled cell, which is also the best solution evaluated in the run if every solution fits a cell and fitnesses do not change, and mean_eval is the mean fitness of the filled cells.", "quantifier": "for all grids, operators, fitness functions and numbers of generations", "why_tests_cant": "Depends on which cells are still empty, and on what empty cells hold, at any generation", "anchors": ["src/evotorch/algorithms/mapelites.py:327-401", "src/evotorch/algorithms/searchalgorithm.py:496-595"]}
{"id": "C195", "title": "A saved solution holds what is needed to act as it did", "statement": "`save_solution` writes the parameters, a policy with these parameters, the counts of interactions and episodes and the name of the environment if it was given by name; observation statistics exactly if the saved policy normalizes observations, and then those by which it does. It works at any time.", "quantifier": "for all problems with and without observation normalization, with and without collected statistics, and all solutions", "why_tests_cant": "Agreement between the saved statistics and those inside the policy, and states before the first observation", "anchors": ["src/evotorch/neuroevolution/gymne.py:674-724", "src/evotorch/neuroevolution/vecgymne.py:975-1026"]}
{"id": "C196", "title": "A batched functional search is a family of independent searches", "statement": "Running the functional cross entropy method, or functional PGPE with sgd, clipup or adam, on a state in which some fields (the center, the standard deviation, learning rates, bounds, ...) have extra leftmost dimensions gives, at each place of the batch and after any number of generations, exactly the state which the search run on its own from the item at that place would reach with the same draws; fields without extra dimensions are shared. What happens at one place depends neither on the other places nor on the shape of the batch, and if the batched search raises an error then so does each single one. Generations change the center, the standard deviation and the memory of the optimizer, and none of the settings in the state.", "quantifier": "for all batch shapes without empty dimensions, all assignments of batch dimensions (suffixes of the batch shape) to the fields of the state and to the draws, all functions for sampling, evaluating and updating whose shapes and errors do not depend on values, and all numbers of generations", "why_tests_cant": "Tests batch one or two fields with one shape for a few generations; leaks between places of a batch and misaligned dimensions show only for particular combinations", "anchors": ["src/evotorch/algorithms/functional/funccem.py:190-290", "src/evotorch/algorithms/functional/funcpgpe.py:300-395", "src/evotorch/algorithms/functional/funcadam.py:104-172", "src/evotorch/algorithms/functional/funcclipup.py:94-152", "src/evotorch/algorithms/functional/funcsgd.py:78-136", "src/evotorch/decorators.py:692-869", "src/evotorch/tools/misc.py:857-908"]}
{"id": "C197", "title": "XNES does not care about the coordinates of the search space", "statement": "Let the search space be given new coordinates by an invertible affine map, and let the new fitness function give the moved point the fitness of the point, or an increasing function of it if the weights come from ranks. Then a run of XNES begun with the moved distribution and with the same draws is the moved run: in every generation the center, the matrix, its stored inverse and every solution are the moved ones, and the fitnesses are the same (transformed) ones.", "quantifier": "for all dimensions, invertible matrices, translations, fitness functions, rankings, learning rates, draws and numbers of generations", "why_tests_cant": "A statement about two runs of any length for all matrices; tests run one problem in one coordinate system", "anchors": ["src/evotorch/distributions.py:811-1014", "src/evotorch/algorithms/distributed/gaussian.py:300-418"]}
{"id": "C198", "title": "The gradients of XNES are score gradients", "statement": "What XNES computes from samples and weights is the gradient of the weighted log-likelihood of the samples in the coordinates in which it makes its updates: along every direction of updates of center and matrix, the derivative at the current distribution is the inner product with the computed gradients (with factor one half for the matrix part).", "quantifier": "for all dimensions, distributions with a correct inverse, samples, weights and directions", "why_tests_cant": "An identity between computed tensors and a derivative, for all matrices", "anchors": ["src/evotorch/distributions.py:926-1014"]}
{"id": "C199", "title": "Units of single coordinates do not matter to SNES, PGPE and CEM", "statement": "Measure each coordinate of the solutions in a unit of its own and from an origin of its own, and let the new fitness function give the converted point the fitness of the point (or an increasing function of it, if only ranks and elites matter). Then a run of SNES, PGPE or CEM with a learning rate for the center, or with SGD with or without (Nesterov) momentum, begun with the converted center, standard deviations and limits on standard deviations and with the same draws, is the converted run: in every generation the center, the standard deviations and all solutions are the converted ones, the fitnesses are the same (transformed) ones, and it stops being finite in the same generation.", "quantifier": "for all dimensions, positive factors and shifts per coordinate, fitness functions, rankings, gradient divisions, learning rates, momenta, limits on standard deviations, draws and numbers of generations", "why_tests_cant": "A statement about pairs of runs of any length; tests run a problem in one choice of units", "anchors": ["src/evotorch/algorithms/distributed/gaussian.py:274-419", "src/evotorch/distributions.py:481-808", "src/evotorch/optimizers.py:58-90", "src/evotorch/tools/misc.py:711-816"]}
{"id": "C200", "title": "With ClipUp and Adam the unit of the search space is the unit of the step size", "statement": "If all coordinates are measured in another unit (and from other origins), and the step size and maximum speed of ClipUp, or the learning rate and epsilon of Adam, are converted too, then a run of SNES, PGPE or CEM with that optimizer is the converted run: centers, standard deviations and solutions are converted in every generation. In particular, with an unchanged unit, moving the origin moves the run.", "quantifier": "for all dimensions, positive factors, shifts, fitness functions, rankings, step sizes, momenta, maximum speeds, betas, epsilons, limits, draws and numbers of generations", "why_tests_cant": "A statement about pairs of runs of any length whose optimizer states differ", "anchors": ["src/evotorch/algorithms/distributed/gaussian.py:274-419", "src/evotorch/optimizers.py:110-160", "src/evotorch/optimizers.py:309-357", "src/evotorch/distributions.py:370-390"]}
{"id": "C201", "title": "CMA-ES follows shifts, a change of unit and reflections of coordinates", "statement": "Give the search space new coordinates by moving the origin, measuring in another unit and reflecting some coordinates (for the separable variant also by permuting them), convert the initial center, stdev_init and the limits on standard deviations, reflect (permute) the draws, and let the new fitness function give the converted point an order-preserving image of the fitness of the point. Then the run of CMA-ES is the converted run: in every generation the solutions, the center, the step size, the covariance matrix, its factor and both evolution paths are the converted ones, and if the Cholesky decomposition fails then it fails in the same generation.", "quantifier": "for all dimensions, population sizes, options (active or not, separable or not, explicit rates, limits, lazy decomposition), fitness functions, draws and numbers of generations", "why_tests_cant": "A statement about pairs of runs of any length; a step which mixes up units or signs of coordinates can pass every test on the sphere function", "anchors": ["src/evotorch/algorithms/cmaes.py:226-388", "src/evotorch/algorithms/cmaes.py:408-606"]}
{"id": "C202", "title": "Genetic algorithms see fitnesses only through comparisons", "statement": "Apply a strictly increasing function to all fitnesses. Then a run of GeneticAlgorithm, SteadyStateGA, CoSyNE or MAPElites with the same random draws visits the same solutions in every generation, with the transformed fitnesses. Cross-overs with tournaments and Pareto ranks see only comparisons too, for any number of objectives.", "quantifier": "for all population sizes, elitism and re-evaluation settings, sequences of operators which look at fitnesses only by comparing, fitness functions, increasing functions and numbers of generations; the last sentence for all numbers of objectives", "why_tests_cant": "A statement about pairs of runs; differences come from ties, missing fitnesses or distances between fitnesses which a test problem may not have", "anchors": ["src/evotorch/algorithms/ga.py:145-244", "src/evotorch/algorithms/ga.py:652-688", "src/evotorch/algorithms/ga.py:1006-1033", "src/evotorch/algorithms/mapelites.py:380-401", "src/evotorch/operators/base.py:264-412", "src/evotorch/core.py:4391-4415", "src/evotorch/core.py:3466-3537"]}
{"id": "C203", "title": "CMA-ES evolution path and step size control", "statement": "The path p_sigma of CMAES after n generations is a fixed combination of the draws of the selected parents, with positive coefficients that favour later generations and better ranks and whose squares add up to 1 - (1 - c_sigma)^(2n) for every dimension and population size (so that the path has unit variance in the limit when selection is neutral). The step size grows exactly when the path is longer than E and shrinks exactly when it is shorter, where E^2 lies between d - 1/2 + 1/(8d) and d - 1/2 + 1/(6d) (with csa_squared: E^2 = d). The default rates satisfy 0 < c_sigma < 1, damp_sigma >= 1 + c_sigma and 0 < c_c < 1.", "quantifier": "for every dimension, population size, option set, history of draws and rankings, and every result torch.topk may give on ties", "why_tests_cant": "real arithmetic over unbounded histories; tests look at whether a benchmark is optimized", "anchors": ["src/evotorch/algorithms/cmaes.py:CMAES.update_p_sigma", "src/evotorch/algorithms/cmaes.py:CMAES.update_sigma", "src/evotorch/algorithms/cmaes.py:CMAES.__init__"]}
{"id": "C204", "title": "CMA-ES stalls the rank-one path exactly when the normalized step size path is long", "statement": "In generation n the path p_c of CMAES is only discounted when the squared length of p_sigma, divided by its variance 1 - (1 - c_sigma)^(2n), is at least (2 + 4/(d + 1)) d, and otherwise it is continued with the weighted mean of the shaped draws of the parents.", "quantifier": "for every dimension, population size, option set, state, draw and ranking", "why_tests_cant": "the normalization is wrong by a factor which is largest in the first generation and vanishes later", "anchors": ["src/evotorch/algorithms/cmaes.py:_h_sig", "src/evotorch/algorithms/cmaes.py:CMAES.update_p_c"]}
{"id": "C205", "title": "Gaussian searches never walk down a slope", "statement": "On a problem where going in one direction along one coordinate always makes a solution better (whatever the other coordinates do), each generation of a search with PGPE moves that coordinate of the center in this direction or leaves it where it is; the same holds for SNES with a ranking whose weights add up to 0. It holds whatever is drawn, whatever the limits on the standard deviations, with a plain learning rate and with ClipUp, Adam and SGD; if two solutions of the generation differ in the coordinate and the ranking distinguishes better solutions, the center moves. With other rankings SNES, and CEM with any, may walk down the slope.", "quantifier": "all dimensions, starting points, standard deviations, limits, learning rates, options of PGPE, optimizers with legal settings, sequences of draws and generations; all fitness functions whose comparisons are decided by the coordinate, and all ways of turning fitnesses into weights which respect the order", "why_tests_cant": "a test sees some random runs, in which single steps down the slope are indistinguishable from noise", "anchors": ["src/evotorch/distributions.py:706-771", "src/evotorch/distributions.py:536-577", "src/evotorch/distributions.py:781-808", "src/evotorch/algorithms/distributed/gaussian.py:350-419", "src/evotorch/optimizers.py:319-357", "src/evotorch/optimizers.py:58-90"]}
{"id": "C206", "title": "Minimizing a fitness is maximizing its negation", "statement": "Negate the fitnesses of some objectives and swap their senses. Then a run of GeneticAlgorithm, SteadyStateGA, CoSyNE or MAPElites with the same random draws visits the same solutions in every generation, with negated fitnesses. A batch has the same best and worst solutions, utilities, Pareto ranks and order. Problems keep the same best and worst solutions ever seen and compare solutions alike, and every ranking method gives the same utilities. This holds although some fitnesses are NaN.", "quantifier": "for all batches, histories of evaluated batches, numbers of objectives and choices of the objectives which are turned; for the runs all settings, operators which treat both problems alike, fitness functions and numbers of generations", "why_tests_cant": "A statement about pairs of runs. Each place in the code treats the senses by itself (sorting direction, initial best, penalty, sign); a test on one problem with one sense does not compare them", "anchors": ["src/evotorch/core.py:3877-3927", "src/evotorch/core.py:4194-4287", "src/evotorch/core.py:4391-4415", "src/evotorch/core.py:2330-2457", "src/evotorch/algorithms/ga.py:145-244", "src/evotorch/algorithms/ga.py:652-688", "src/evotorch/algorithms/mapelites.py:24-75", "src/evotorch/tools/ranking.py:24-183"]}
{"id": "C207", "title": "What an elitist multi-objective search has found it keeps covered", "statement": "In a run of GeneticAlgorithm on a problem with several objectives and with elitism (NSGA-II), take any solution which is a candidate of some generation (a parent or a child). As long as the non-dominated candidates of each later generation fit into the population, the population after every later generation has a solution which is at least as good as it in all objectives. This includes solutions which were themselves dropped by the selection or by crowding.", "quantifier": "for all numbers of objectives, senses, population sizes, operators, numbers of generations and candidates, where fitnesses of solutions do not change (no re-evaluation, or a deterministic fitness function)", "why_tests_cant": "an invariant over whole runs and all Pareto fronts; a test follows a few solutions through a few generations", "anchors": ["src/evotorch/core.py:4391-4415", "src/evotorch/core.py:3466-3537", "src/evotorch/algorithms/ga.py:145-244", "src/evotorch/algorithms/ga.py:652-688"]}
{"id": "C208", "title": "Evaluating parents again changes nothing when the fitness function is deterministic", "statement": "The documentation of GeneticAlgorithm says that re_evaluate=False only prevents unnecessary computations when the fitness function is deterministic. So the runs with re_evaluate=True and re_evaluate=False, with the same random draws, have the same populations in every generation. The same holds for re_evaluate_parents_first=False, where parents and children are evaluated together. MAPElites takes the same settings, with the same effect.", "quantifier": "for all problems with deterministic fitnesses, settings, operators, population sizes, initial populations and numbers of generations", "why_tests_cant": "equality of pairs of whole runs for every operator and selection; a test compares the end of a few runs", "anchors": ["src/evotorch/algorithms/ga.py:79-143", "src/evotorch/algorithms/ga.py:145-244", "src/evotorch/algorithms/ga.py:602-688", "src/evotorch/algorithms/ga.py:345-350"]}
{"id": "C209", "title": "Gaussian searches do not depend on the order of the solutions in the population", "statement": "Give the draws of each generation of PGPE, SNES, CEM or CMAES in another order (with mirrored samples: the pairs). If no two solutions of a generation have the same fitness, the whole run has the same centers, standard deviations, covariance matrices and optimizer states, and each generation has the same solutions with the same fitnesses. The same holds for both gradients of XNES. Rankings by value (normalized, raw) need no condition on the fitnesses. The condition is needed: whenever two different solutions share a fitness, exchanging them changes the gradient obtained from a ranking.", "quantifier": "for all dimensions, population sizes, orders, fitness functions, rankings, options, optimizers, limits and numbers of generations; for all sorting functions", "why_tests_cant": "a statement about all orders of all populations; a wrong index (rank instead of position, pairs taken apart) often does not show in a single run", "anchors": ["src/evotorch/tools/ranking.py:24-183", "src/evotorch/distributions.py:536-577", "src/evotorch/distributions.py:706-771", "src/evotorch/distributions.py:781-808", "src/evotorch/distributions.py:967-982", "src/evotorch/algorithms/distributed/gaussian.py:350-419", "src/evotorch/algorithms/cmaes.py:444-606"]}
{"id": "C210", "title": "A genetic search never evaluates a solution outside the bounds of the problem", "statement": "With the standard operators for real-valued problems (simulated binary, one-point and multi-point cross-over, Gaussian mutation, polynomial mutation, Cosyne permutation), a search by GeneticAlgorithm, SteadyStateGA, Cosyne or MAPElites which starts from solutions of numbers within the bounds of the problem only ever evaluates and keeps such solutions, so that the run is the same for any two fitness functions which differ only outside the bounds.  Refuted for polynomial mutation with a fixed variable (equal lower and upper bounds, which the operator accepts): after one generation of a search which mutates every gene and replaces its population, no solution is legal any more (the gene is NaN).", "quantifier": "every list of operators, fitness function (random or not), single or multiple objectives, population, number of generations and random draw", "why_tests_cant": "A test can check the populations of finitely many generations of one seed; it cannot show that no draw of any operator, at any generation, leads outside of the bounds, nor observe that an evaluation outside never happens.", "anchors": ["src/evotorch/operators/base.py:75-98", "src/evotorch/operators/real.py:60-66", "src/evotorch/operators/real.py:144-207", "src/evotorch/operators/real.py:456-481", "src/evotorch/operators/real.py:523-603", "src/evotorch/operators/real.py:665-706", "src/evotorch/algorithms/ga.py:145-244", "src/evotorch/algorithms/ga.py:652-688", "src/evotorch/algorithms/ga.py:1006-1033", "src/evotorch/algorithms/mapelites.py:380-401"]}
{"id": "C211", "title": "In one dimension XNES and SNES are the same search", "statement": "For a problem with one decision variable, SNES and XNES with the ranking method \"nes\" and equal learning rates, begun with the same center and standard deviation and with the same draws, give the same center, the same standard deviation and the same evaluated solutions in every generation; with another ranking whose weights sum up to zero, so do searches whose learning rates differ by the factor by which SNES divides the weights.  Refuted for the default learning rates: there, the standard deviation of XNES changes by the third power of the factor by which that of SNES changes.", "quantifier": "every fitness function, start, learning rates, population size, draws and number of generations", "why_tests_cant": "The two algorithms take different routes (stored matrix and inverse with a matrix exponential, against element-wise formulas), and agreement of some generations for some seed does not show that the rules agree.", "anchors": ["src/evotorch/distributions.py:774-808", "src/evotorch/distributions.py:926-1014", "src/evotorch/algorithms/distributed/gaussian.py:950-962", "src/evotorch/algorithms/distributed/gaussian.py:1372-1384", "src/evotorch/algorithms/distributed/gaussian.py:350-419"]}
{"id": "C212", "title": "Separable CMA-ES adapts the diagonal which CMA-ES would adapt", "statement": "One generation of CMAES(separable=True) and of CMAES(separable=False) from the same state, with the same learning rates, draws and ranking: the populations, the center, the step size and the evolution paths agree, the covariances outside of the diagonal are kept at 0, and the variances are the ones of the full matrix.", "quantifier": "for every state, parameters, draws and ranking", "why_tests_cant": "a relation between two variants of the algorithm over all states and learning rates", "anchors": ["src/evotorch/algorithms/cmaes.py:CMAES.update_C", "src/evotorch/algorithms/cmaes.py:CMAES._step"]}
{"id": "C213", "title": "A bag of integers of a narrow dtype conserves its elements as long as its shuffle fits into the dtype, and not otherwise", "statement": "A CBag whose elements are stored in a signed integer dtype of b bits hands out exactly the elements which were put into it, whatever the random numbers, when capacity * (high - low + 1) <= 2^(b-1), where [low, high) is the declared range of values. When the product is larger (and high - low + 1 does not divide 2^b), a full bag of equal elements hands out a value which was never put into it: nothing is raised. With int16 and the default range this happens from a capacity of 181 on.", "quantifier": "Every number of bits, capacity, range of values, batch size, and history of pushes, pops and clears with arbitrary permutations as noise; for the failure, every such combination beyond the threshold.", "why_tests_cant": "The threshold depends on the product of capacity and range; tests use small bags, and the failure is a silently wrong value.", "anchors": ["src/evotorch/tools/structures.py:2330-2435"]}
{"id": "C214", "title": "Recurrent policies compute the documented recurrence from their flat parameter vector, and their outputs are bounded", "statement": "A Policy around the layer RNN or LSTM whose parameters are set to one flat vector (the weight matrices row by row, then the biases, in the order of declaration) returns, for a sequence of observations, exactly the outputs of the recurrence of the layer with these matrices, begun with zeros and with the hidden state carried over from call to call. Whatever the weights and the observations, every output of RNN with tanh lies strictly between -1 and 1; so does every output of LSTM, and the output of its t-th call is at most tanh(t) in magnitude.", "quantifier": "every input and hidden size, weights, activation function of RNN, and sequence of observations of any length", "why_tests_cant": "Tests can compare finitely many sequences for some sizes; the slicing of the parameter vector and the carried hidden state matter for all sizes and lengths.", "anchors": ["src/evotorch/neuroevolution/net/layers.py:161-272", "src/evotorch/neuroevolution/net/vecrl.py:Policy"]}
{"id": "C215", "title": "Random fills can give every value between the bounds, integers about equally often", "statement": "Of the integers which the generator can draw, about the same number becomes each of the integers between the bounds given to make_uniform (the numbers differ by at most 1, or by at most 2 if the lower bound is negative), and each of the integers 0..n-1 of make_randint (by at most 1); booleans whose bounds are False and True are the drawn ones, and every number between the bounds of a float can be drawn. Every integer between the bounds can be drawn if the lower bound is not negative or if the number of values is at most imax + 1 + lb, where imax is the largest integer of the dtype. Refuted otherwise: with a negative lower bound (at most -2) and imax values between the bounds, the value -1 lies between the bounds but is never drawn.", "quantifier": "every integer dtype, every pair of bounds whose number of values fits into the dtype, every value between them", "why_tests_cant": "tests sample some values for small bounds; which values are impossible and how the others are spread depends on the wrap-around of the dtype", "anchors": ["src/evotorch/tools/misc.py:1613-1655", "src/evotorch/tools/misc.py:1808-1809"]}
{"id": "C216", "title": "On average PGPE follows the gradient of the expected fitness", "statement": "With the raw fitnesses as weights (ranking method \"raw\"), the average over independent draws of the gradients which PGPE computes is known exactly: without mirroring, 1 - 1/n times the covariance of the fitness with the position (for the center) and with the squared distance to the center (for the standard deviation), n being the number of solutions, because the mean of the same fitnesses is subtracted; with mirrored samples (the default), the gradient for the center is not shrunk, and the one for the standard deviation is shrunk by 1 - 1/n, n being the number of directions. For every quadratic fitness function and draws with the first four moments of independent standard normal numbers, these averages are the squared standard deviation times the derivatives of the expected fitness by the center and by the standard deviation (times the shrinking factor).", "quantifier": "every fitness function (every quadratic one, of any dimension, for the derivatives), sense, center, standard deviations, number of solutions, and probability distribution of the draws with finitely many outcomes", "why_tests_cant": "An average over all draws cannot be observed by a test; the estimates of a test are too noisy to tell a factor such as 1 - 1/n.", "anchors": ["src/evotorch/distributions.py:515-577", "src/evotorch/distributions.py:706-771", "src/evotorch/algorithms/distributed/gaussian.py:PGPE", "src/evotorch/tools/ranking.py:163-183"]}
{"id": "C217", "title": "A search without information does not drift", "statement": "Where all solutions are equally good, the center of SNES, XNES, PGPE, CEM and CMA-ES is on average, after any number of generations, where the search began; the standard deviations of PGPE are on average the initial ones, the logarithms of those of SNES are (so the standard deviations themselves do not shrink on average), and so is the logarithm of the volume spanned by the matrix of XNES, and the squares of the standard deviations of CEM are; but the standard deviations of CEM shrink on average from the first update on, so that CEM concentrates around an arbitrary point.", "quantifier": "every ranking method, weights, choice of elites, population size, number of generations, initial center and standard deviations; every finite distribution of the draws with mean zero (and variance one, for the standard deviations); learning rates without optimizer; for the standard deviations without limits", "why_tests_cant": "A bias of the update rule is a statement about averages over all possible draws of all generations; a test sees single runs whose fluctuations hide a drift.", "anchors": ["src/evotorch/algorithms/distributed/gaussian.py:350-419", "src/evotorch/distributions.py:536-594", "src/evotorch/distributions.py:706-808", "src/evotorch/distributions.py:962-1014", "src/evotorch/algorithms/cmaes.py:444-606"]}
{"id": "C218", "title": "Seeded runs are reproducible", "statement": "What a search algorithm finds depends only on the state of the generator of its problem when the search begins: after giving the problem a seed, the initial state and all generations are the same in every process and after whatever was drawn before, also if other code draws from the global generators of PyTorch or Python meanwhile; and the search leaves those generators as they are. The same holds for the simulations of GymNE and VecGymNE as far as the library draws random numbers for them.", "quantifier": "every Gaussian search (fixed or adaptive population size), CMA-ES, genetic algorithm and MAP-Elites with any sequence of the provided operators, and Cosyne; every seed, number of generations, fitness function which does not draw, and every behaviour of the generators", "why_tests_cant": "A test compares two runs in one environment; that no draw comes from another generator is a statement about all runs and all states of these generators.", "anchors": ["src/evotorch/core.py:1611-1631", "src/evotorch/core.py:1835-1904", "src/evotorch/tools/tensormaker.py:96-103", "src/evotorch/tools/misc.py:1523-1537", "src/evotorch/algorithms/distributed/gaussian.py:274-365", "src/evotorch/algorithms/cmaes.py:236-430", "src/evotorch/algorithms/ga.py:155-246", "src/evotorch/operators/base.py:266-345", "src/evotorch/operators/real.py:55-705", "src/evotorch/operators/sequence.py:38-75", "src/evotorch/neuroevolution/gymne.py:334-342", "src/evotorch/neuroevolution/vecgymne.py:558-568", "src/evotorch/neuroevolution/vecgymne.py:840-844"]}
{"id": "C219", "title": "Mutation can reach every solution within the bounds, and simulated binary cross-over exactly the pairs centred like their parents", "statement": "Whatever the solutions of a population are, there are random draws with which GaussianMutation (non-zero stdev; any mutation probability, 0 included) turns them into any other solutions within the bounds of the problem, and draws with which PolynomialMutation (any eta above -1 and any positive mutation probability, or none) turns solutions within the bounds into any others whose variables are below their upper bounds; a variable below its upper bound is never moved to it. Before the bounds are applied, SimulatedBinaryCrossOver can produce a pair of children from a pair of parents if and only if in every variable the children have the same mean as the parents and a difference which is a non-negative multiple of the parents' one. Hence an elitist GeneticAlgorithm with one objective, whatever its state and whatever other operators come before the mutation, can in its next generation reach a fitness at least as good as that of any admissible solution: it cannot get stuck.", "quantifier": "for all numbers of solutions and variables, bounds, stdevs, probabilities, eta, parents and targets; all states of a search, fitness functions, evaluation policies and lists of preceding operators", "why_tests_cant": "A test draws a few random numbers; that some draw leads to every target, and that no draw leads anywhere else, is a statement about all draws and all targets.", "anchors": ["src/evotorch/operators/real.py:30-66", "src/evotorch/operators/real.py:391-481", "src/evotorch/operators/real.py:484-603", "src/evotorch/algorithms/ga.py:652-688"]}
{"id": "C220", "title": "A genetic search makes an exactly predictable number of fitness evaluations", "statement": "For GeneticAlgorithm, SteadyStateGA, Cosyne and MAPElites the number of solutions handed to the fitness function during n generations is a fixed function of the settings, whatever the fitness function returns. With re-evaluation off, a search whose operators make c children from p parents evaluates p + n*c solutions (nothing for n = 0); with re-evaluation on, n*(p + c). Cosyne evaluates p + n*(elites + children + p): it evaluates its elites and its permuted population anew each time. For MAPElites p is the number of cells.", "quantifier": "for all fitness functions, operators, populations, settings, numbers of generations, and orders in which sorting leaves equal elements", "why_tests_cant": "Tests count calls for one configuration over a few generations; the claim is for any number of generations, any operators and any outcomes of the evaluations, including noisy ones and ties.", "anchors": ["src/evotorch/algorithms/ga.py:145-244", "src/evotorch/algorithms/ga.py:652-668", "src/evotorch/algorithms/ga.py:873-890", "src/evotorch/algorithms/ga.py:1006-1057", "src/evotorch/algorithms/mapelites.py:380-401", "src/evotorch/core.py:2527-2560"]}
{"id": "C221", "title": "Elitist selection keeps the best of everything seen", "statement": "In an elitist single-objective GeneticAlgorithm which does not re-evaluate, the population after any number of generations consists of the best popsize solutions among all solutions ever evaluated in the run, each with the evaluation it got, even if evaluations are noisy. Likewise, a hall of fame kept by concatenating the present best with a new batch and calling take_best(n) holds the n best of all batches, for a chosen objective.", "quantifier": "for all fitness functions (noisy or not) without NaN, operators, population sizes, numbers of generations, sequences of batches, numbers of solutions kept, and orders in which sorting leaves equal elements", "why_tests_cant": "A statement about whole histories: dropping a solution early could only matter many generations later, and ties can hide the mistake in tests.", "anchors": ["src/evotorch/algorithms/ga.py:145-244", "src/evotorch/algorithms/ga.py:652-688", "src/evotorch/core.py:4391-4415"]}
{"id": "C222", "title": "Distributed steps of PGPE have enough solutions for their tasks", "statement": "When gradients are computed by several actors, a step of PGPE follows a finite gradient and reports the mean of the evaluations of all the solutions sampled, for every population size and every number of actors or sub-batches that the constructor accepts. This holds if every task gets at least two solutions (one is enough with symmetric sampling, whose tasks are rounded up to even sizes). With fewer solutions than tasks it fails: the empty task makes NaN of the gradients of center and standard deviation and of the reported mean evaluation, and with an adaptive population size without popsize_max the empty task never ends. With asymmetric sampling and centered ranks, a task with a single solution makes NaN of the gradients.", "quantifier": "for every population size, number of tasks, sample, fitness function, sense and way of averaging", "why_tests_cant": "the failure depends on the relation between the population size and the number of processors of the machine", "anchors": ["src/evotorch/core.py:Problem.sample_and_compute_gradients", "src/evotorch/core.py:Problem._sample_and_compute_gradients", "src/evotorch/algorithms/distributed/gaussian.py:GaussianSearchAlgorithm._step_distributed"]}
{"id": "C223", "title": "Pareto ranks are lengths of chains of domination", "statement": "The Pareto rank of a solution is the length of the longest chain of solutions of the batch, each dominating the next, which ends at it. So it does not depend on where solutions stand in the batch, on repetitions or on whether crowding distances are asked for; and another solution added to the batch worsens the ranks of those solutions only which it dominates, and by one at most.", "quantifier": "for every batch without NaN evaluations, any number of objectives and senses, any two batches holding the same solutions, any added solution", "why_tests_cant": "relates the results on different batches; every order and every combination of dominations", "anchors": ["src/evotorch/core.py:SolutionBatch.compute_pareto_ranks", "src/evotorch/core.py:SolutionBatch.arg_pareto_sort"]}
{"id": "C224", "title": "Searches start at the center they are given", "statement": "A Gaussian search (PGPE, SNES, XNES, CEM) starts at the vector given as center_init, at the vector all of whose elements are the number given, or at the values which the problem generates, and rejects every other shape; CMA-ES starts at the vector (also with additional dimensions of length 1), the Solution, or the generated values. For CMA-ES this is false of problems whose solutions have length 1: there every center, even the one generated by the problem itself, is rejected.", "quantifier": "for every solution length, every shape and contents of center_init, given or not", "why_tests_cant": "infinitely many shapes; tests fix one solution length", "anchors": ["src/evotorch/algorithms/cmaes.py:CMAES.__init__", "src/evotorch/algorithms/distributed/gaussian.py:GaussianSearchAlgorithm.__init__", "src/evotorch/tools/misc.py:ensure_tensor_length_and_dtype"]}
{"id": "C225", "title": "How far a search can get in a given number of steps, with ClipUp or Adam", "statement": "When a center follows gradients by ClipUp with a given maximum speed, then after k gradients (none of them all-zero) it lies within k times the maximum speed of where it started, in the Euclidean distance, whatever the gradients were and whatever the momentum. The bound is not slack: if all gradients point in one direction, the center moves exactly along that direction, where the speed of the k-th step is the maximum speed or the momentum times the previous speed plus the step size, whichever is smaller; so how large the gradients are does not matter at all. With Adam (with beta1 squared below beta2, as with the defaults, and a positive epsilon), no coordinate gets farther from its start in k gradients than k times the step size times a constant given by the two betas.", "quantifier": "all numbers and dimensions of gradients, all starting points, momenta, step sizes and maximum speeds; all lists of gradient sizes for the climb in one direction; all betas and epsilons as described for Adam", "why_tests_cant": "A test can run the optimizer on some gradients and compare distances; that no list of gradients of any length gets the center farther needs the triangle inequality on every run, and the climbing speeds need an induction over the run.", "anchors": ["src/evotorch/algorithms/functional/funcclipup.py:70-151", "src/evotorch/algorithms/functional/funcadam.py:75-172"]}
{"id": "C226", "title": "A distributed step of PGPE with raw fitnesses learns nothing from the differences between its tasks", "statement": "A step of a distributed PGPE (weighted averages, raw fitnesses) should use the gradients which the same solutions would give if they were sampled in one place. What holds: the gradients in one place minus those of the distributed step are exactly, per coordinate, the sum over the tasks of (mean utility of the task minus mean utility of all) times (the sum of the pulls of its solutions), divided by the number of directions: each task centers its fitnesses around its own mean, so what the differences between the tasks have to say is lost. With symmetric sampling this affects only the standard deviations: the gradient of the center is the very same as in one place. Without symmetric sampling, or for the standard deviations, both agree if all tasks find the same mean fitness, and if each task finds solutions of one fitness only, the distributed gradients are all zero, however much the tasks differ.", "quantifier": "all samples of all tasks, fitness functions, centers and standard deviations of any dimension, population sizes and ways of dividing them into tasks with at least two solutions each, both objective senses, symmetric or not", "why_tests_cant": "A test compares a distributed step with a local one on some samples and sees two different numbers; that the difference is always this expression, and always zero for the center under symmetric sampling, is an identity over all samples and divisions.", "anchors": ["src/evotorch/core.py:2757-3005", "src/evotorch/core.py:3151-3296", "src/evotorch/distributions.py:546-577", "src/evotorch/distributions.py:706-771", "src/evotorch/algorithms/distributed/gaussian.py:196-272"]}
{"id": "C227", "title": "CEM stays between its elites, and what it has given up it never takes up again", "statement": "In every generation of a run of CEM, each coordinate of the new center lies between the smallest and the largest value which the elites of the generation before have there; and if neither a smallest standard deviation nor a largest change is given, the new standard deviation is at most half of the distance between these two, times the root of k/(k-1) for k elites (which is reached). Without those limits, a standard deviation becomes 0 exactly when all elites agree on the coordinate. Once a standard deviation is 0 and no smallest one is given, it stays 0 for the rest of the run, whatever is drawn, the coordinate of the center never changes again, and every solution of every later generation has this value there.", "quantifier": "all runs of any length, all dimensions, fitness functions, choices of elites, draws, initial centers and standard deviations, and limits as described", "why_tests_cant": "A test follows single runs; that no draws can bring a coordinate back, and that no population whatsoever gives a larger standard deviation, are statements about all runs and populations (the latter is Popoviciu's inequality).", "anchors": ["src/evotorch/distributions.py:536-594", "src/evotorch/algorithms/distributed/gaussian.py:350-419", "src/evotorch/algorithms/distributed/gaussian.py:1159-1180", "src/evotorch/tools/misc.py:711-816"]}
{"id": "C228", "title": "Sizes computed with floating point numbers", "statement": "Numbers of elites, children, pieces and quotas are computed with floating point numbers and then rounded to integers. With IEEE double precision: the number of pieces of a batch, half and a quarter of a population are exactly what integer arithmetic gives, for all counts below 2^53. The number of elites of CEM and Cosyne and the population size of IPOP after a restart are the whole part of count times ratio, or the next integer if the product lies below it by at most the relative precision of floats, and never more than the population for ratios up to 1. The quotas of distributed tasks are never too small, so that together they always reach the quota, and exact unless the exact quota is an integer. Numbers of children for a cross-over rate are always even and at most one away from the product. What is false: a ratio given as k/n does not always select k of n solutions; it selects k or k-1 (1/49 of 49 solutions selects none), and a quota which is an integer may be one too large (7/25 of 100 gives 29).", "quantifier": "all counts below 2^51 (or 2^53), all ratios and rates, all divisions into tasks", "why_tests_cant": "A test tries some ratios, for which the rounding happens to be harmless or harmful; that the error is never more than one in any case, and that quotas never fall short, is a statement about all pairs of counts and ratios.", "anchors": ["src/evotorch/distributions.py:536-544", "src/evotorch/core.py:2926-2946", "src/evotorch/core.py:4625-4650", "src/evotorch/algorithms/ga.py:980-1020", "src/evotorch/algorithms/cmaes.py:225-240", "src/evotorch/algorithms/restarter/modify_restart.py:55-75", "src/evotorch/operators/base.py:226-256", "src/evotorch/operators/base.py:345-360"]}
{"id": "C229", "title": "What the solutions of one task have in common does not influence a distributed search", "statement": "In distributed mode every task compares only its own solutions. Take two fitness functions, or two series of fitness functions which change from generation to generation, such that on the solutions of each task the second is a strictly increasing function of the first (with ranking_method=\"centered\"; a different function for each task and generation will do), or the first plus a constant (with \"raw\"). Then every step of distributed PGPE arrives at the same averaged gradients for both, or at the same error, and so whole searches go through the same centers and deviations, whatever the optimizer: an actor whose simulator is easier, a fitness which drifts over time, or a different scale on each machine goes unnoticed. Only the reported mean evaluation shows it.", "quantifier": "Any pair of fitness functions or of series of them, any way of sampling, symmetric or not, maximizing or minimizing, any population size, sub-batch settings and number of actors, weighted or plain averaging, any number of generations and any way of updating; argsort may break ties as it likes as long as it looks at comparisons only.", "why_tests_cant": "A test with actors would use the same environment on every actor; that a bias of one actor cancels exactly, for every distortion and every number of generations, is a statement about pairs of runs with all fitness functions.", "anchors": ["src/evotorch/core.py:2882-2970", "src/evotorch/core.py:3218-3296", "src/evotorch/algorithms/distributed/gaussian.py:198-272", "src/evotorch/distributions.py:546-577", "src/evotorch/distributions.py:706-771", "src/evotorch/tools/ranking.py:24-53"]}
{"id": "C230", "title": "Rank-based utilities in the floating point dtype of the fitnesses", "statement": "The rankings \"linear\" and \"centered\" compute their utilities in the dtype of the fitnesses. With p significant bits (24 for float32, 53 for float64) and a population of 2 to 2^p solutions, a better solution has a strictly greater utility than a worse one, and every utility is within 2^-(p+1) (linear) or 3*2^-(p+2) (centered) of the real number it stands for. Utilities of \"centered\" should sum up to 0, but do so only up to n*3*2^-(p+2): of four solutions they never sum up to 0, whatever the dtype. And from 2^p + 3 solutions on (259 in bfloat16, 2051 in float16) at least two solutions of different rank always have the same utility.", "quantifier": "Every precision of at least 1 (for the sum of four: 2) bits, every list of fitnesses without NaN (of any values for the statements on closeness, sums and sharing), either objective sense, and every correct argsort.", "why_tests_cant": "Tests use populations of a few solutions in float32 and compare with a tolerance, which hides both the sum and the limit; that no rank is lost at any size up to 2^p is a statement about every size and precision.", "anchors": ["src/evotorch/tools/ranking.py:24-53", "src/evotorch/tools/ranking.py:56-81"]}
{"id": "C231", "title": "episode_length bounds every episode of GymNE, and changes nothing before it is reached", "statement": "With episode_length=n, every episode takes at most max(1, n) simulator steps: it ends at the first step which the environment reports as terminated or truncated or which is the n-th one, so that evaluations end whatever the environment does. The cumulative reward is the sum of the rewards of exactly these steps (with alive bonus and decrease_rewards_by), the policy having been driven in a closed loop from a reset of both; an episode which ends in time is the same episode as without a limit. An evaluation of k episodes takes between k and k*max(1, n) steps. Without episode_length, an environment which never reports an end is never left.", "quantifier": "Every environment (any step and reset functions and states), policy with hidden state, parameters, normalization, alive bonus schedule, limit (or none) and number of episodes.", "why_tests_cant": "A test runs a few environments with one limit; that every environment is left after n steps, and that rewards are neither lost nor added at the cut, is about all environments and limits.", "anchors": ["src/evotorch/neuroevolution/gymne.py:361-414", "src/evotorch/neuroevolution/gymne.py:420-475", "src/evotorch/neuroevolution/gymne.py:636-644", "src/evotorch/neuroevolution/net/rl.py:246-266"]}
{"id": "C232", "title": "Mirrored search at a center of symmetry", "statement": "PGPE (or any search with mirrored samples) that starts where opposite solutions are equally good, with a ranking method which gives equally good solutions equal weights (raw, normalized), has a gradient of zero for the center and never leaves it, whatever the draws: with a learning rate, with SGD with or without momentum, and with Adam. This fails in two ways. With ClipUp, the zero gradient is divided by its own norm, so that the center is not a number after the first update. With centered ranks, two equally good mirrored solutions get different weights: with a single pair, the center moves by exactly half of the scaled perturbation in every coordinate.", "quantifier": "every solution length, population, fitness function symmetric about the center, sequence of draws, limits of the standard deviation, divisors of the gradients, hyperparameters of the optimizers, choice among ties", "why_tests_cant": "A test compares a run on one symmetric function with a tolerance, and would not meet an exactly vanishing gradient in random runs of other functions; that no draw makes the center move is a statement about all draws of all generations.", "anchors": ["src/evotorch/distributions.py:706-771", "src/evotorch/algorithms/distributed/gaussian.py:350-419", "src/evotorch/optimizers.py:319-357", "src/evotorch/tools/ranking.py:30-70"]}
{"id": "C233", "title": "Counters and statistics over clones and restarts of actors", "statement": "The interaction and episode counters of a parallelized reinforcement learning problem are the totals of what was done in its life, and its observation statistics are those of all observations, also after cloning or pickling it and going on with the copy, whose actors are made anew. This is true as long as the main object does not run episodes itself and no actors are killed. Otherwise it is false: episodes run by the main object before the first evaluation are counted (and their observations used) once more for each actor; after kill_actors, new actors begin with the counters of the main object, so that all earlier steps are counted once per actor; and if a copy was made at some time before kill_actors, the counters fall back to what they were when the copy was made.", "quantifier": "every number of actors, sequence of evaluations, distribution of work, and times of cloning, starting and killing of actors", "why_tests_cant": "Single test runs make actors once and never clone, kill or run in between; totals over all interleavings of these operations cannot be enumerated.", "anchors": ["src/evotorch/core.py:1972-2047", "src/evotorch/core.py:2112-2128", "src/evotorch/core.py:2706-2731", "src/evotorch/neuroevolution/gymne.py:556-592"]}
{"id": "C234", "title": "Assigning one ObjectArray to a slice of another", "statement": "Assigning an ObjectArray to a slice of an ObjectArray of the same length (a[i:j:k] = b) puts the elements which b had before the assignment into the places of the slice, in order, and changes no other place of any array, also if a and b share memory, as slices of one array do (a[1:] = a[:-1] moves every element up by one place). Another length raises TypeError and a read-only array refuses with ValueError; in both cases nothing is changed.", "quantifier": "for every sequence of operations before, all slices and lengths, arbitrary sharing between the two arrays", "why_tests_cant": "which cells the two arrays share is arbitrary; a test assigns between separate arrays", "anchors": ["src/evotorch/tools/objectarray.py:ObjectArray.set_item", "src/evotorch/tools/objectarray.py:ObjectArray.__iter__"]}
{"id": "C235", "title": "Comparing, searching and pickling immutable containers", "statement": "The immutable versions of lists, tuples, sets and dictionaries compare like the originals, whatever their nesting: if Python calls two such values equal then the immutable version of the first is equal to the second, in both orders, and to its immutable version; an immutable set contains exactly its elements; and pickling and unpickling changes nothing. When the comparison gives an answer, the converse holds for nested lists of numbers, and for all data in which no list or tuple is compared with another kind of container or a string. It is false in general: comparing an immutable list with something that is not iterable raises TypeError instead of saying that they differ (so two nested lists which agree up to a place where one has a list and the other a number cannot be compared); the immutable version of a tuple equals the list, that of a list of characters equals the string, and that of a list of keys equals every dictionary with these keys although these dictionaries differ (so equality is not transitive); asking an immutable set for a tuple raises TypeError; and whatever contains an immutable set, at any depth, cannot be unpickled (NotImplementedError). Every comparison ends.", "quantifier": "all values nested to any depth out of None, numbers, strings, lists, tuples, sets and dictionaries", "why_tests_cant": "Nesting has no bound and the failures depend on where in the structure two values first differ; tests compare a few flat containers.", "anchors": ["src/evotorch/tools/immutable.py:ImmutableSequence.__eq__", "src/evotorch/tools/immutable.py:as_immutable", "src/evotorch/tools/immutable.py:ImmutableSet.__contains__", "src/evotorch/tools/immutable.py:ImmutableContainer.__setstate__"]}
