# Formal model of evotorch semantics (Rocq/Coq 8.16.1)

## Approach

The Python sources in `/repo` are read as text and re-expressed as shallow, executable
Gallina functions that mirror the code branch by branch.  Python exceptions are values
(`result`), loops are structural recursion or folds, random generators, user callbacks,
remote schedulers and environments are universally quantified arguments.
Each model definition cites the file and lines it mirrors.  Specifications are separate
small definitions that do not mention the model's helpers.

Every area has up to four files: `<Area>Model.v` (definitions only), `<Area>Spec.v`
(specification, where it is big enough), `<Area>Proofs.v` (lemmas) and `<Area>Props.v`
(the property theorems, each closed by `exact`, with `Print Assumptions` and a non-vacuity
`Example`).

Where the faithful model violates the wanted property a theorem named `..._refuted` gives
the witness, and the strongest guarded statement we could find is proved beside it.

## Trusted base

* the Coq 8.16.1 kernel (and `coqchk`);
* axioms: listed per theorem by `Print Assumptions`; only Coq standard library axioms are
  used (the classical reals for the theorems over `R`); no axiom of our own;
* the reading of the Python code into Gallina (nothing here executes the Python code);
* torch/numpy/ray primitives are modelled by their documented meaning (indexing, argsort
  as *some* sorting permutation, `where`, `map_unordered` as *some* completion order);
* floats: order-only properties use an extended type (NaN, -inf, finite, +inf) or `Z`;
  arithmetic ones use `Q` or `R`, i.e. exact arithmetic: rounding is not modelled.

## Plan per property

* **C01 CList behaves like a bounded double-ended queue** -- Model: one CList lane = (buffer list, begin, end) with the code's index arithmetic over Z; ops as functions to `result`. Spec: bounded deque over lists. Proof: abstraction relation, one-step refinement, induction over the operation list.
* **C02 CList batch items are independent** -- Model: batched CList = list of lanes + mask; the `verify` reductions look at all selected lanes. Proof: every batched step = map of lane steps when no lane errs, unchanged otherwise.
* **C03 CList of capacity one and out-of-capacity indices** -- Expected to be false of the code (begin==end arithmetic modulo 1). Refutation by witness plus exact guards.
* **C04 CMemory is an array of independent cells** -- Model: flat cell arrays, address = key - key_offset, masks by do_where. Spec: total function map. Proof: refinement by induction over operations.
* **C05 CMemory.multiply_ and divide_ scale the addressed cell** -- Expected to be false without `where` (code adds). Refutation + true statement with `where`.
* **C06 CMemory addressing with several batch dimensions** -- Model: torch advanced indexing with 1-D index tensors per batch dimension, broadcasting rule included. Expected refutation.
* **C07 CDict is a finite map with defaults** -- Model: CDict as two CMemories (data, exist). Spec: partial map. Refinement by induction.
* **C08 CBag returns exactly what was put in** -- Model: integer encoding of the shuffle exactly as coded (multiply by bignum, sort, mod). Proof: encoding/decoding lemma + Permutation; shuffle outcome universally quantified.
* **C09 split_workload covers the work evenly** -- Model: the loop of split_workload over Z/nat. Proof: induction.
* **C10 Splitting a batch partitions it** -- Model: SolutionBatchPieces index arithmetic. Proof: concatenation of segments = seq.
* **C11 Parallel evaluation is schedule independent** -- Model: pieces, any completion order (Permutation of piece indices), write-back at indices_of. Proof: writes to disjoint ranges commute; final = map.
* **C12 Distributed gradient averaging** -- Model: weighted average over list of actor results in Q. Proof: permutation invariance, convexity.
* **C13 Pareto ranks describe domination exactly** -- Model: domination matrix + peeling loop with fuel; spec: domination relation as Prop. Proof: invariants of peeling.
* **C14 take_best never prefers a worse front** -- Model: take_best utility order for multi-objective batches as coded. Proof: rank difference dominates 0.1 term.
* **C15 take_best breaks ties by crowding distance** -- Expected to be false (argsort used as ranks). Refutation.
* **C16 Single-objective selection is correct** -- Model: argsort as any sorting permutation; argmin/argmax first index. Proof: Sorted + Permutation.
* **C17 Best and worst solutions ever seen** -- Model: running best/worst update. Spec: max over the concatenated history. Proof: fold induction.
* **C18 compare_solutions is a strict weak order with the right sense** -- Model of comparison functions over objective senses; order axioms proved.
* **C19 Evaluations never go stale through the batch API** -- Model: heap of batch rows with evals option; operations incl. views. Invariant by induction over op list.
* **C20 Objective and row indices follow Python rules** -- Model of the three normalisers over Z; exact acceptance sets; off-by-one refutations.
* **C21 Rank-based fitness shaping only depends on order** -- Model: argsort by an arbitrary correct sort, weights in Q (nes: R with ln). Proof: rank = number of smaller elements.
* **C22 modify_tensor respects bounds and maximum change** -- Model over Q/R elementwise; spec: membership + nearest point.
* **C23 Gaussian search keeps sigma in its limits** -- Model: sigma update loop with modify_tensor; invariant over histories of arbitrary gradients.
* **C24 Functional CEM/PGPE keep sigma in its limits** -- Same with modify_vector.
* **C25 Random integer fills stay in range** -- Model over Z: generator output arbitrary integer; mod arithmetic.
* **C26 Symmetric Gaussian samples are mirrored** -- Model: interleaving of +/- noise; sum lemma.
* **C27 Constraint penalties** -- Model over R/Q of _violation/_penalty.
* **C28 Hook results are merged in call order** -- Model: Hook call over a list of result values; spec: fold.
* **C29 Lazy status values are computed once and are fresh** -- Model: LazyReporter state machine with call counters. Invariant over traces.
* **C30 run performs exactly n steps with hooks in order** -- Model: event trace of step/run. Spec: explicit trace.
* **C31 Loggers fire at the configured interval** -- Model: counter of Logger; pickling logger's last-saved generation. Induction.
* **C32 Multi-point crossover conserves genes** -- Model: xor mask over cut points. Spec: parity of cut points at or below the locus.
* **C33 Cut-and-splice conserves material** -- Model: firstn/skipn; Permutation proof.
* **C34 Cosyne permutation only moves values inside columns** -- Model: per-column permutation of masked rows as coded.
* **C35 Simulated binary crossover preserves the parents' mean** -- Model over Q: beta arbitrary.
* **C36 Tournament selection picks the best of each tournament** -- Model: argmax over drawn candidates; workload arithmetic.
* **C37 Genetic algorithm keeps population size; elitism is monotone** -- Model: GA step with arbitrary operator; invariant over generations.
* **C38 MAP-Elites archive** -- Model: penalised argmin over candidates per cell; invariant over generations.
* **C39 Feature grids cover the feature space** -- Model: linspace bins with infinities over Q.
* **C40 ClipUp velocity never exceeds max_speed** -- Model over R vectors; triangle-free argument: clip bounds norm.
* **C41 Running normalisation statistics do not depend on batching or merge order** -- Model over Q (sum, sum of squares, count); Spec: statistics of multiset.
* **C42 RunningNorm survives empty masks and leaves the caller's data alone** -- Model with explicit heap reference for the aliased tensor; refutations + guarded theorem.
* **C43 Parameter vectors round-trip** -- Model: list of parameter blocks; address loop.
* **C44 Network strings compose left to right** -- Model: expression trees; flatten; forward with hidden-state dictionary.
* **C45 SyncVectorEnv runs each sub-environment for exactly num_episodes episodes** -- Model: SyncVectorEnv step over oracle environments with counters; projection theorem.
* **C46 Vectorised and scalar rollouts agree** -- Model: scores/active masks of VecGymNE vs scalar rollout over oracle environments.
* **C47 Observation statistics are neither lost nor double counted across actors** -- Model: sync protocol over multisets of observations.
* **C48 A cloned or unpickled problem still evaluates** -- Model: life cycle of NEProblem fields; expected refutation for NEProblem/GymNE.
* **C49 Immutable conversion round-trips** -- Model: inductive value type, two mutual conversions.
* **C50 deep_clone preserves structure and sharing** -- Model: heap graph with memo; fuelled traversal; isomorphism.
* **C51 Read-only ObjectArrays cannot be changed through their API** -- Model: store of object lists and views.
* **C52 expects_ndim batches like an elementwise map** -- Model: n-dimensional tensors as nested lists/functions; nested vmap.
* **C53 Actors get distinct seeds** -- Model: modular arithmetic over Z.
* **C54 Adaptive population size terminates within budget rules** -- Model: loop with oracle interaction counts and fuel; termination measure.
* **C55 Elite selection of the cross-entropy method** -- Model: floor(n*ratio) top by sort.
* **C56 CMA-ES covariance stays symmetric and weights are a convex combination** -- Model: weights in R (ln), matrix update as function; symmetry by induction.
* **C57 Minibatch sampling visits every batch once per epoch** -- Model: iterator over epochs.
* **C58 Restarting bookkeeping** -- Model: restart state machine.
* **C59 SteadyStateGA operator registration** -- Model: use/step state machine.
* **C60 Tensor-making arguments are resolved consistently** -- Model: argument resolution as a decision function.
* **C61 Vector-space conversions round-trip** -- Model: space datatype.

* C62 and later were added while the model grew; their models and proofs follow the same pattern (see the header of each file).

## What is modelled

Each definition of a `*Model.v` file carries its own citation. The ranges below are collected from these comments.

* `ActModel.v` -- Model of how policies act in GymNE and VecGymNE: normalization of the observations, the policy network and its hidden state, noise and clipping of actions, and of the policies made by to_policy, with the wrapper modules of net/rl.py and the TorchWrapper of net/vecrl.py. Environments, networks, the noise and argmax are parameters. Numbers as in NormModel (real arithmetic, None is NaN). Rendering, info dictionaries and devices are left out. Lines: gymne.py 324-332, 334-348, 361-382, 383-414, 462-475, 646-672; rl.py 143-160, 175-196; statefulmodule.py 52-78; vecgymne.py 37-54, 505-509, 838-848, 927-973; vecrl.py 439-458, 538-549, 1267-1272.
* `BatModel.v` -- Model of batched functional searches: the ask/evaluate/tell loops of algorithms/functional/funccem.py:190-290 and funcpgpe.py:300-395 with the optimizers funcadam.py:104-172, funcclipup.py:94-152 and funcsgd.py:78-136, as the sequences of calls of decorated functions which they are. Everything such a loop computes it computes by calling functions decorated with expects_ndim (NdimModel) on fields of the state and on earlier results; ask and tell only fetch and store. Simplifications: a function which returns several tensors is called once for each of them; what a sampling function draws (randomness="different": independently for each item) is an argument; the fitness function is decorated with expects_ndim(2). The functions themselves are parameters here: what they compute is modelled elsewhere (FuncModel, DistModel, CemModel). Lines: distributions.py 1032-1050, 1230-1262; funcadam.py 104-172; funccem.py 190-290; funcclipup.py 94-152; funcpgpe.py 300-395; funcsgd.py 78-136; misc.py 891-896, 898-901.
* `BatchModel.v` -- Model of SolutionBatch / Solution and of the problem's bookkeeping around them (core.py). Lines: core.py 2330-2395, 2340-2353, 2355-2369, 2374-2385, 2387-2395, 2397-2425, 2427-2457, 2527-2566, 2667-2704, 3638-3641, 3643-3683, 3774-3784, 3786-3796, 3798-3810, 3813-3829, 3898-3911, 3914-3927, 3952-4072, 4113-4149, 4183-4191, 4194-4287, 4413-4415, 4746-4764, 4929-4945.
* `BndModel.v` -- The standard operators of operators/real.py as operators on whole populations (GaModel.operator). A solution is a row of genes; None is NaN. The random draws of the k-th call are arguments. Lines: base.py 58-59, 405-412; real.py 60-66, 144-207, 456-481, 523-603, 665-706.
* `BudModel.v` -- The genetic algorithms of GaModel.v and MapModel.v once more, with a record of every solution given to the fitness function: each call of Problem.evaluate adds the solutions of its batch, with their evaluations, to the record. Lines: core.py 2527-2566; ga.py 145-244, 652-688, 1006-1033; mapelites.py 56-75, 380-401.
* `CBagModel.v` -- Model of evotorch.tools.structures.CBag on top of the CList model. Lines: structures.py 2350-2388, 2370-2386, 2404-2418.
* `CemModel.v` -- Model of the cross entropy method's update (distributions.py:536-544 and its users). Lines: distributions.py 536-544, 538-540; funccem.py 209-223; ranking.py 163-183.
* `CfgModel.v` -- Model of the configuration of a problem (core.py, Problem.__init__), of the generation of initial values, and of the start of the remote actors with their seeds. The resources of the ray cluster and the draws of the generator are arguments. Bounds are rationals representable in the dtype of the problem; a device is a number, 0 being the cpu. Lines: core.py 133-142, 792-1609, 997-1002, 1007-1019, 1044-1153, 1103-1139, 1117-1136, 1160-1165, 1167-1190, 1200-1251, 1319-1437, 1439-1457, 1465-1527, 1532-1581, 1758-1768, 1860-1867, 1885-1904, 1977-2047, 2001-2013, 2015-2022; misc.py 95-96.
* `CinModel.v` -- Model of whole runs of CMAES (algorithms/cmaes.py) on a fitness function: sampling, evaluation, ranking, updates, and the failure of the Cholesky decomposition. The draws are inputs; the fitness function is deterministic; the ranking (core.py SolutionBatch.argsort) and topk are functions. Lines: cmaes.py 567-606.
* `ClipUpModel.v` -- Model of the ClipUp optimizer: class ClipUp and ClipUpParameterGroup of /repo/src/evotorch/optimizers.py, and /repo/src/evotorch/algorithms/functional/funcclipup.py. Real arithmetic instead of floating point. A vector is `Some xs`, or None when all its components are NaN. Lines: funcclipup.py 23-28, 70-91, 95-151, 111-121; misc.py 663-670; optimizers.py 243-245, 247-307, 309-317, 319-357, 394-396, 398-409.
* `CloneModel.v` -- Model of tools/cloning.py (deep_clone), tools/immutable.py (as_immutable, mutable_copy, the immutable containers) over a heap of objects. An object is a node with a kind, numeric data (for arrays and bytes), keys (for dictionaries) and contents; ids are addresses. None, numbers and strings are values without identity. The three functions share their traversal, [walk]: a memo from ids to copies, which is looked at first; what they do with each kind of object are the functions [deep_clone_visit], [as_immutable_visit] and [mutable_copy_visit]. Simplifications: containers do not have further attributes; instances of Clonable classes are cloned field by field; objects of unrecognized types have no contents; hashing and equality of keys: keys are values which are equal to their clones; the private list or dictionary inside an immutable container is not an object of its own; ObjectArrays which contain themselves are not modelled; as_immutable on numpy arrays of dtype object and mutable_copy on ObjectArrays are not modelled here (NotImplementedError stands for "not modelled"). Lines: cloning.py 25-199, 95-121, 202-254, 288-339; immutable.py 50-96, 99-126, 221-239; objectarray.py 404-438.
* `CmaModel.v` -- Model of CMAES (algorithms/cmaes.py) in real arithmetic. Vectors and matrices are functions of the indices below the solution length d (MatLib). Lines: cmaes.py 31-46, 49-80, 83-87, 112-137, 226-388, 231, 235, 253-273, 278-279, 280-282, 286, 298-301, 304-306, 309-314, 318-323, 327-334, 337-340, 346, 348-364, 361, 366-367, 372-373, 382-385, 408-430, 444-452, 454-481, 483-507, 509-517, 519-553, 529-533, 534-535, 555-565, 567-606.
* `ConModel.v` -- Model of the functions about the tensors in a container (tools/misc.py: cast_tensors_in_container, dtype_of_container, device_of_container) and of how a search distribution is made, modified and moved (distributions.py). Containers are objects on the heap of CloneModel; the data of a tensor are its dtype, its device, and its contents. Arrays are one-dimensional arrays of numbers. Casting of read-only tensors is not modelled (NotImplementedError stands for "not modelled"), and namedtuples are not distinguished from tuples. Temporary objects (such as the rows made while iterating over an array with two dimensions) do not occur; so ids are not used again. Lines: distributions.py 74-94, 96-112, 114-133, 326-349, 345-349; misc.py 347-419, 422-502, 452-502, 468-478, 505-583.
* `ConstrModel.v` -- Model of /repo/src/evotorch/tools/constraints.py on scalars (the public functions batch these over tensors with expects_ndim). Real numbers instead of floating point; infinities are explicit; inputs are not NaN. Lines: constraints.py 6-19, 52-85, 148-192.
* `CtrModel.v` -- Model of how the distribution-based searches take their starting point: /repo/src/evotorch/algorithms/cmaes.py:245-260, algorithms/distributed/gaussian.py:94-102 and tools/misc.py:655-671 (ensure_tensor_length_and_dtype with allow_scalar=False). A tensor is its shape and its elements in row-major order; dtypes and devices are left out. Lines: cmaes.py 245-260; gaussian.py 94-102; misc.py 655-671.
* `DevModel.v` -- Model of how fitness functions declare the device they want (decorators.py), of how a Problem chooses the device for evaluations, and of reading and writing fields of the problem stored by a remote actor (core.py). Lines: core.py 189-212, 214-245, 1652-1689, 2497-2525, 2498-2507, 2509-2525; decorators.py 31-164, 321-327, 330-441.
* `DistModel.v` -- Model of the gradient computations of /repo/src/evotorch/distributions.py. Real arithmetic; a number is `option R`, None standing for a non-finite value (division by zero). Samples are rows. Lines: distributions.py 515-534, 546-577, 556, 560-561, 563-572, 596-611, 706-771, 720-721, 729-766, 781-808, 975-976.
* `DsModel.v` -- Model of one distributed step of PGPE with the numbers of solutions which its tasks sample: /repo/src/evotorch/core.py Problem.sample_and_compute_gradients (2882-2970, for num_interactions=None) and _sample_and_compute_gradients (3218-3296), and algorithms/distributed/gaussian.py _step_distributed (196-272). Real arithmetic; a number is `option R`, None standing for NaN. Sampling, the fitness function and argsort are Section variables; devices, hooks and synchronisation are left out. Lines: core.py 3218-3296, 3222-3225, 3228-3269, 3292-3296; distributions.py 546-577, 706-771; gaussian.py 196-272, 239-245, 248-269, 256-266, 714-742; ranking.py 24-53.
* `EnvModel.v` -- Model of neuroevolution/net/vecrl.py, class SyncVectorEnv, over arbitrary sub-environments. Simplifications: actions, observations and infos are arbitrary values; arrays over the sub-environments are lists; merging the info dictionaries, moving to a device and the conversion of observations to the dtype of the first sub-environment are not modelled; rewards of sub-environments are rational numbers, and the NaN reported for finished ones is None. Lines: vecrl.py 1601-1655, 1611-1637, 1728-1731, 1767-1790, 1779-1783, 1815-1905, 1843-1856, 1858-1874, 1876-1888.
* `EstModel.v` -- Model of the functional samplers and gradient estimators (distributions.py, FunctionalSampler and FunctionalGradEstimator), and of the checks of the parameters of the separable Gaussian distributions. Python objects other than strings and dictionaries are values of an arbitrary type V; batches are vmapped over by expects_ndim (NdimModel.v) and not repeated here. `mu` and `sigma` are lists of rationals in the second part. Lines: distributions.py 96-111, 153-214, 418-425, 427-459, 461-497, 512-514, 1029-1048, 1036-1038, 1050-1056, 1058-1078, 1058-1079, 1208-1258, 1231-1233, 1260-1299, 1301-1360, 1330-1349.
* `EvalModel.v` -- Model of how a Problem evaluates a batch — one solution after another, all at once, on another device or in pieces on actors — and of the callable evaluators made out of problems (core.py). Lines: core.py 140-171, 2497-2525, 2527-2566, 2568-2577, 2568-2595, 2590-2595, 2597-2606, 2605-2606, 2608-2616, 4438-4468, 4843-4885, 5106-5130, 5132-5141, 5143-5170.
* `FpModel.v` -- Sizes which the code computes with floating point numbers: counts are multiplied by ratios, or divided by each other, and the result is rounded to an integer. Numbers of type float are binary64; they are rational numbers here, and every operation gives the exact result, rounded to the nearest number with 53 significant bits, ties to even (without limits on the exponents: no overflow or underflow happens with counts and with ratios that are not tiny). Everything is non-negative. Lines: base.py 238-253, 352; cmaes.py 235; core.py 2932-2934, 2943-2945, 4639; distributions.py 538; ga.py 988, 1014; modify_restart.py 71.
* `FrModel.v` -- The rank-based utilities as they are computed in the dtype of the fitnesses: /repo/src/evotorch/tools/ranking.py:24-81 with numbers of p significant bits (float32: 24, float64: 53, float16: 11, bfloat16: 8). Numbers are rational, and every operation gives the exact result, rounded once to the nearest number with p significant bits, ties to even. Exponents are not limited (utilities neither overflow nor underflow in float32 and float64), and operations in half precision are taken to round once. Lines: ranking.py 24-81, 24-53, 49, 56-81, 77.
* `FuncModel.v` -- Model of the gradient-following optimizers Adam and SGD: the classes of optimizers.py (wrappers of torch.optim) and their functional counterparts (algorithms/functional/funcadam.py, funcsgd.py), of the choice of an optimizer by its name, and of the initial standard deviation of the search algorithms (tools/misc.py, algorithms/functional/misc.py). Real arithmetic instead of floating point; a component is None when it is not a finite number. Batch dimensions of the functional API are vmapped over by expects_ndim (NdimModel.v) and not repeated here. Lines: funcadam.py 23-31, 34-101, 104-123, 126-136, 139-172; funcsgd.py 23-27, 30-75, 78-88, 91-101, 104-130; gaussian.py 105-111; misc.py 78-163, 653-671, 663-670, 1879-1922, 1925-1974; optimizers.py 58-90, 110-160, 180-230.
* `GaModel.v` -- Model of the genetic algorithms (algorithms/ga.py): operators applied to populations, the extended population, GeneticAlgorithm, the operator registry of SteadyStateGA, and Cosyne. Random behaviour: operators and evaluations get the number of calls made so far. Lines: core.py 2527-2566, 3699-3742, 4391-4415; ga.py 26-53, 56-59, 79-143, 132-141, 145-244, 631-645, 652-688, 779-798, 782-785, 787-788, 800-871, 873-890, 955-968, 985-994, 1006-1033.
* `ImmModel.v` -- Model of ==, != , `in` and unpickling of the immutable containers (tools/immutable.py), on values. Values: None, numbers, strings (lists of characters), and the Python lists, tuples, sets and dictionaries and the immutable lists, sets and dictionaries made of them. Keys and elements of sets are numbers and strings. Objects have no identity here: Python's lists and dictionaries skip the comparison of an object with itself; this matters only where such a comparison is not true. Sharing and cycles are the subject of CloneModel. Tensors and arrays inside of containers (whose == is elementwise) are left out. Lines: immutable.py 50-96, 133-147, 171-184, 203-204.
* `LayModel.v` -- Model of neuroevolution/net/layers.py: the small modules Clip, Bin and Round, and the networks FeedForwardNet, StructuredControlNet and LocomotorNet, with their parameters read from one flat vector (net/misc.py, fill_parameters), and of how a rollout resets a network (net/statefulmodule.py, gymne.py). Real arithmetic. An input is one vector (a batch of inputs is not modelled). torch.round is rounding to the nearest integer, ties to the even one. The constants of torch's SELU are the decimal numbers of its documentation. An activation function that is itself a module with parameters is not modelled. The layers are a list instead of attributes with numbered names. Lines: gymne.py 371-372, 636-644; layers.py 38-39, 62-74, 104-113, 311-330, 311-363, 345-363, 366-374, 392-437, 494-568, 494-523, 525-527, 554-568, 558-564; misc.py 26-46, 73-88; neproblem.py 342-363; statefulmodule.py 41-86.
* `LgModel.v` -- Model of the configuration of the Python logger: misc.py:2072-2139 set_default_logger_config, and of the part of the logging module which it uses (handlers, filters, propagation, levels). Simplifications: all ancestors of the logger are one list of handlers and one level, and each of them propagates; the text of a line is the list of its fields; the warning about an existing configuration is a message of level WARNING. Lines: misc.py 2072-2139, 2111-2112, 2117-2125, 2130, 2135.
* `LifeModel.v` -- Model of the life of a parallelized reinforcement learning problem (GymNE): when its actors are made and from what, killing them, and clones (pickling works the same way) with the states of the actors kept in the main object. Uses the model of one synchronized evaluation (SyncModel); observation normalization is switched on, data sent between processes are copies, random seeds and hooks are left out. Lines: core.py 117-145, 1280-1295, 1972-2047, 2049-2075, 2112-2128, 2545-2557, 2706-2731; gymne.py 420-475, 575-579, 581-592.
* `LoopModel.v` -- Model of hooks (tools/hook.py), lazy status reporting and the main loop (algorithms/searchalgorithm.py), loggers (logging.py) and restarting (algorithms/restarter). Lines: hook.py 58-60, 62-81, 83-120, 122-135, 137-150; logging.py 92-101, 255-269, 366-382; modify_restart.py 28-31, 60-64, 66-72; restart.py 41, 48-49, 59-62, 68-74; searchalgorithm.py 98-107, 109-118, 120-135, 137-139, 153-165, 167-177, 203-214, 380-397, 396-397, 409-428, 427-428.
* `MakeModel.v` -- Model of tools/tensormaker.py: TensorMakerMixin (the make_* methods of Problem and Distribution), and of the functions of tools/misc.py which they call, as far as the arguments size, num_solutions, out, dtype, device, use_eval_dtype and generator are concerned. A tensor is described by its shape, dtype and device; which values it gets is the subject of RandModel. Device 0 is the cpu. A dtype is given as a torch.dtype, in another way (a name, a numpy dtype), or as object. Lines: objectarray.py 168-176; tensormaker.py 28-65, 106-121.
* `MapModel.v` -- Model of MAPElites (algorithms/mapelites.py). Lines: mapelites.py 18-21, 24-53, 42-45, 56-75, 327-347, 483-505, 499-502.
* `NarModel.v` -- Model of evotorch.tools.structures.CBag with the integers of its dtype: the sums of _shuffle wrap around. The other operations move values of the declared range without computing with them. Lines: structures.py 2404-2418, 2420-2435.
* `NdimModel.v` -- Model of decorators.py: expects_ndim and rowwise. A tensor is its shape, a function from lists of indices to values, its dtype and its device. torch.func.vmap is modelled as running the function on every slice along dimension 0 and stacking the results; the result for an empty batch has the shape which the function gives on items of that form. Simplifications: the decorated function is deterministic and returns one tensor (or raises); the alternative call form expects_ndim(f, (2, 1)) is the decorator applied; numpy arrays are given as the tensors which torch.as_tensor makes of them. Lines: decorators.py 706-718.
* `NeModel.v` -- Model of the life of a neuroevolution problem: neuroevolution/neproblem.py (NEProblem), with the parts of core.py which create actors, prepare, evaluate, clone and pickle. Simplifications: a network object is a structure and its flat parameters (ParamModel.v treats the tensors); the score of a solution is a function of structure and parameters; a vector of a wrong length is refused without touching the network (ParamModel.v models what really happens); every process has its own heap of network objects, since pickling copies. Lines: core.py 147-171, 1972-2047, 2112-2128, 2467-2477, 2527-2595, 2545-2557, 2590-2595, 2605-2606, 2706-2729; neproblem.py 217-229, 289-290, 292-315, 317-321, 323-340, 342-363, 407-429.
* `NetModel.v` -- Model of neuroevolution/net/multilayered.py, net/statefulmodule.py and net/parser.py. Layers are arbitrary functions; values passed between layers are untyped, as in Python. Lines: multilayered.py 26-62, 33-57, 33-37; parser.py 88-92, 95-97, 100-106, 109-188, 136-142, 191-202, 205-219; statefulmodule.py 41-86, 56-80, 57-63, 82-86.
* `NewModel.v` -- Model of the ways in which SolutionBatch objects are made: from a problem, like another batch, by merging, by Problem.generate_batch, and on another device (core.py, tools/misc.py). Lines: core.py 1906-1970, 3627-3770, 3697-3698, 3699-3742, 4357-4375, 4438-4468, 4567-4585; misc.py 911-1000.
* `NiModel.v` -- Model of how a neuroevolution problem makes its network out of a string or a callable: misc.py:2040-2069 pass_info_if_needed, neproblem.py:281-312, gymne.py:256-263, 295-310, vecgymne.py:71-92, 326-348. Simplifications: a callable is its signature; the call of it is Python's binding of keyword arguments, and what is modelled is what it receives (or TypeError); the parser of strings is given its constants; spaces are boxes and discrete spaces. Lines: gymne.py 256-263, 258-263, 295-310, 305-310; misc.py 2040-2069; neproblem.py 281-312, 281-286, 307-309; vecgymne.py 71-92, 71-80, 83-92, 326-348, 343-344; vecrl.py 449-454.
* `NormModel.v` -- Model of RunningNorm and ObsNormLayer (neuroevolution/net/runningnorm.py), RunningStat (neuroevolution/net/runningstat.py) and of the exchange of observation statistics between a neuroevolution problem and its actors (gymne.py, vecgymne.py). Real arithmetic; None is NaN (inputs are real numbers or NaN, not infinite). An observation is a flat row of n_dim numbers (observations of several dimensions are treated as flattened); devices are not modelled, and dtypes only through the question whether torch.as_tensor returns the given tensor itself (last section). Lines: runningnorm.py 27-44, 58, 83-112, 97-112, 187-188, 190-212, 214-218, 220-226, 228-408, 253-294, 281-292, 295-408, 304-384, 325-326, 359, 361-368, 391-408, 410-433, 470-532, 522-524, 534-562, 583-621; runningstat.py 53-60, 99-104, 105-109, 111-119.
* `ObjModel.v` -- Model of tools/objectarray.py: ObjectArray, its slices, views, copies and assignments. An ObjectArray is a list of indices into a list of objects (its store), which it may share with other ObjectArrays. Arrays are numbered by handles. Values given by the user are converted by as_immutable, which is an argument here ([freeze]; see CloneModel for a model of it); ids of objects decide what its memo finds. Simplifications: values are ObjectArrays or contain no ObjectArrays; sequences (other than ObjectArrays) do not contain themselves; devices, pickling and the conversion to numpy (numpy(), clone() without preserve_read_only) are left out; indices are integers, slices and lists of integers (boolean masks amount to lists of integers). Lines: immutable.py 50-96, 62-64; objectarray.py 168-178, 362.
* `OperModel.v` -- Model of the evolutionary operators (operators/base.py, operators/real.py, operators/sequence.py). Random draws are arguments. Real arithmetic (R or Q) stands for floating point; None is NaN. Lines: base.py 75-98, 200-224, 211-224, 226-256, 264-365, 268-292, 301, 327-328, 400-403, 405-412; core.py 4252-4275; real.py 60-66, 137-142, 144-207, 180, 191-196, 456-481, 523-543, 546-603, 576-594, 672-679, 681-704, 681-706; sequence.py 39-63, 65-74.
* `ParamModel.v` -- Model of neuroevolution/net/misc.py (fill_parameters, parameter_vector, count_parameters) and of neuroevolution/net/functional.py (ModuleExpectingFlatParameters). Simplifications: devices, dtypes and autograd are not modelled; buffers are constants hidden in the forward function; dotted parameter names are lists of strings (torch forbids dots inside the parts). Lines: functional.py 29-43, 108-137, 116-131, 158-200, 182-187; misc.py 26-46, 38-43, 50-70, 73-88.
* `ParetoModel.v` -- Model of Pareto ranking, crowding distances and multi-objective take_best (core.py). Lines: core.py 3418-3463, 3466-3537, 3492-3496, 3515-3535, 3528-3530, 3540-3570, 3832-3853, 3856-3895, 4194-4332, 4408-4415.
* `PgpeModel.v` -- Model of the search algorithms PGPE and CEM in both interfaces: the classes of algorithms/distributed/gaussian.py (in the non-distributed mode, with a fixed population size) and the functions of algorithms/functional/funcpgpe.py and funccem.py; with the choice of the optimizer by its name (optimizers.py, algorithms/functional/misc.py). Drawing samples from the distribution, evaluating them and estimating gradients is the same code for both interfaces (distributions.py); it appears as a parameter here and is the subject of other files. Gradients of the center are finite numbers. Batches of searches are vmapped over by expects_ndim (NdimModel.v) and not repeated here. Lines: distributions.py 370-390, 579-594, 651-655; funccem.py 24-31, 122-184, 141-152, 187-195, 197-232, 235-246, 249-289; funcpgpe.py 29-51, 54-64, 217-298, 239-250, 278-283, 301-318; gaussian.py 44-178, 126-142, 180-194, 274-367, 276-294, 369-419, 714-742, 1159-1180; misc.py 26-75, 610-671, 711-816, 819-908; optimizers.py 421-458.
* `PolModel.v` -- Model of neuroevolution/net/vecrl.py: class Policy and reset_tensors. Tensors live in a heap, because set_parameters and reset can write into tensors which the caller holds. A cell is either a tensor without a batch dimension (Single) or a tensor seen as the list of its rows along the leftmost dimension (Batch); the contents of a row are abstract (type row), zero r is r with all its elements set to 0. Tensors which overlap in memory without being the same tensor are not modelled. Lines: layers.py 161-204, 210-272; vecrl.py 997-1016.
* `PrnModel.v` -- Model of tools/recursiveprintable.py: the texts of ImmutableList, ImmutableSet, ImmutableDict and ObjectArray. Objects are numbers; `heap` tells what an object is. Simplifications: repr of objects which are no such containers is a given string (they do not print the containers in turn); max_depth is a natural number (negative limits behave as 0). Lines: recursiveprintable.py 33-78, 57-63, 67-72, 80-84.
* `PyModel.v` -- Model of PyCMAES (algorithms/pycmaes.py), the search algorithm which drives the external package pycma: the options passed to it and what it is told about the solutions it has asked for. Lines: misc.py 1808-1809; pycmaes.py 164-254, 171-174, 178-200, 203-207, 211-219, 222-230, 232-247, 250-251, 270-278.
* `RandModel.v` -- Model of the random tensor makers of /repo/src/evotorch/tools/misc.py. The output of the torch generator is an argument of the model; theorems quantify over it. Lines: distributions.py 648-666; misc.py 1613-1632, 1627-1630, 1633, 1633-1644, 1639-1642, 1645-1655, 1725-1750, 1808-1809.
* `RankModel.v` -- Model of the fitness ranking methods (tools/ranking.py). Fitnesses are floats of which only the order matters, except for `normalized`, which is modelled over the reals. Lines: ranking.py 24-53, 56-81, 84-124, 112-114, 127-160, 163-183.
* `RepModel.v` -- Model of what search algorithms report about their population (SinglePopulationAlgorithmMixin of algorithms/searchalgorithm.py, with the mean_eval of GaussianSearchAlgorithm), and of the loggers which pick from the status or write files (logging.py). torch.mean is a parameter. Devices, the wall clock and the contents of policies are left out; a reported solution is a value. Lines: core.py 4929-4945; gaussian.py 74-87, 178, 427-431; logging.py 92-101, 203-236, 238-242, 244-253, 271-391, 293-364, 297-301, 316-341, 366-369, 409-416, 420-425, 461-475, 627-632, 689-692, 743-749; misc.py 133-151; searchalgorithm.py 109-118, 137-139, 153-165, 380-397, 496, 525-527, 529-541, 543-549, 554-584, 561, 575-584.
* `RoModel.v` -- Model of read-only tensors (tools/readonlytensor.py) within programs that call methods and torch functions. The memory is a list of storages; a tensor or numpy array is a handle on cells of a storage. What a torch function computes (whether it works in place, the new values, which results are fresh and which are views) is part of each call; shapes, dtypes and devices are not modelled, and ObjectArrays are left out. Variables are positions in a list; an exception leaves the state as it was. Lines: readonlytensor.py 45-56, 45-75, 58-75, 92-96, 98-105, 115-123, 131-142, 154-186.
* `RollModel.v` -- Model of rollouts: VecGymNE._evaluate_subbatch (neuroevolution/vecgymne.py) over a SyncVectorEnv, and GymNE._rollout / run (neuroevolution/gymne.py) over a single environment with net/rl.py's AliveBonusScheduleWrapper. Simplifications: the tensors "per env" are one list of records; conversions and clipping of actions belong to the environment's step (the action space wrappers are not modelled); no action noise; rewards and scores are exact; devices are not modelled. Lines: gymne.py 361-414, 391-414, 420-475; rl.py 30-46, 253-266; vecgymne.py 604-647, 744-799, 822-831, 837-905, 850-890, 893-897.
* `SafModel.v` -- Model of whole runs of SNES, PGPE and CEM in the main process (algorithms/distributed/gaussian.py:274-419 with SeparableGaussian, SymmetricSeparableGaussian and ExpSeparableGaussian of distributions.py:481-808). Exact arithmetic; a run ends where a number would not be finite. The draws from the standard normal distribution are inputs; the fitness function is deterministic; turning fitnesses into weights (tools/ranking.py) and the choice of the elites (CemModel) are functions; no thresholds on numbers of interactions. Vectors are functions of the coordinates below n. Lines: distributions.py 370-390, 382-385, 433-478, 481-808, 536-577, 579-594, 651-665, 706-771, 781-797, 799-808; gaussian.py 274-419, 276-294, 350-367, 369-419; misc.py 711-816; optimizers.py 58-90, 319-357.
* `SeedModel.v` -- Model of where random numbers come from: core.py:1611-1631 and 1700-1715 (the generator of a problem), tools/tensormaker.py:96-103 and tools/misc.py:1523-1537 (which generator a maker uses), and all places of the search algorithms and operators which ask for random numbers. What is computed from the numbers is left open: the deterministic parts are functions given as arguments (other models describe them), the fitness function does not draw. A generator of PyTorch is a state; a request for numbers gives a tensor and the next state. Not modelled: devices (each has its own global generator), starting of actors, PyCMAES (its numbers come from the library pycma). Lines: base.py 266-360, 405-420; cmaes.py 236, 249, 421; core.py 1611-1631, 1835-1904; distributions.py 153-214, 512-513, 703-704, 956-960; ga.py 56-59, 155-246, 635, 652-688, 1006-1034; gaussian.py 94-97, 276-350, 292, 327, 334-345, 352-370; gymne.py 334-342; mapelites.py 336, 381-405; misc.py 1523-1537; real.py 60-67, 166-213, 456-480, 545-605, 665-705; sequence.py 38-75; tensormaker.py 96-103; vecgymne.py 558-568, 840-844.
* `SigmaModel.v` -- Model of the controlled updates of standard deviations (tools/misc.py:711-908 and their users). Lines: distributions.py 579-594, 785-808; funccem.py 141-164, 223-230; funcpgpe.py 239-276, 368-371; gaussian.py 369-419; misc.py 711-908, 711-816, 762-774, 819-841, 828-839, 844-865, 854-862, 868-908.
* `SpaceModel.v` -- Model of neuroevolution/net/vecrl.py: _unbatch_space, _batch_space, _batch_info_dicts. Lines: vecrl.py 254-292.
* `StaleModel.v` -- Model of the storage sharing of SolutionBatch objects: views, copies, mutable value handles and evaluations (core.py). A cell is one row of the storage: decision values and evaluations. Basic slicing shares the storage of both tensors; indexing by a list copies both. Lines: core.py 2527-2595, 3643-3683, 3699-3742, 3744-3770, 3936-3949, 4152-4180, 4183-4191, 4357-4375, 4377-4389, 4417-4419, 4929-4945.
* `StructModel.v` -- Model of evotorch.tools.structures: CMemory, CDict, CList, CBag. Simplifications (also listed in DESIGN.md): - zero or one batch dimension: a structure is a list of lanes (one lane when unbatched); several batch dimensions are treated separately in StructMultiBatch*.v; - one element (a tensor of value_shape) is one abstract value of type V; - num_keys is an integer (tuple keys are not modelled); integers do not overflow. Lines: structures.py 277-433, 439-444, 446-454, 446-463, 465-474, 476-483, 532-540, 542-553, 555-694, 571-576, 594-604, 606-637, 655-666, 680, 694, 1127-1205, 1595-1616.
* `StructMultiBatchModel.v` -- Model of CMemory addressing with two batch dimensions (B1, B2). Simplification: the memory is unmasked, verify has passed, key_offset is 0 and all keys are in range; a memory is a function from (b1, b2, key). Lines: structures.py 419-424, 542-553, 555-572.
* `SupModel.v` -- Model of supervised neuroevolution: neuroevolution/supervisedne.py (SupervisedNE). Simplifications: the batches of a data loader are values other than None; the k-th iterator made in a process delivers the list [epoch k] (torch's DataLoader, user-defined loaders and their random numbers are oracles); moving a batch to a device is the identity; the loss of a network on a minibatch is a function to Q; the parameterisation of the network is in NeModel.v. Lines: core.py 2467-2477, 2545-2557, 2580-2595; supervisedne.py 210-217, 214, 250-251, 253-267, 288-306, 308-309, 311-332, 334-342, 344-348, 347.
* `SvModel.v` -- Model of GymNE.save_solution (neuroevolution/gymne.py:674-724) and VecGymNE.save_solution (neuroevolution/vecgymne.py:975-1026) with the parts of to_policy (gymne.py:646-672, vecgymne.py:927-973) which decide how the saved policy treats observations and actions. Simplifications: statistics with data are an abstract type with their mean, standard deviation, sum and sum of squares; devices, the conversion of the solution to a tensor and the time stamp are left out; what is written is read back unchanged by pickle. Lines: gymne.py 646-672, 674-724, 698-720; runningnorm.py 571-581; runningstat.py 66-95; vecgymne.py 927-973, 960-973, 975-1026, 998-1022.
* `SyncModel.v` -- Model of the exchange of observation statistics and counters between a reinforcement learning problem and its actors (neuroevolution/gymne.py, neuroevolution/vecgymne.py, core.py). Observation normalization is switched on. Data sent between processes are copies. What an actor observes during an evaluation is an argument: any sequence is possible. Lines: core.py 2308-2327, 2554; gymne.py 272-279, 324-332, 383-406, 420-475, 519-534, 530-539, 541-554, 556-573; vecgymne.py 590-594, 604-643, 667-675, 677-693, 695-701, 703-715, 822-831.
* `TestModel.v` -- Model of the assertions in testing.py. Simplifications: arrays are shapes with functions of the index; there are floating point dtypes, with exact numbers, infinities and NaN, and integer dtypes without overflow; what numpy makes of NaN and infinities when casting to integers is an oracle. Tolerances are finite. Booleans, objects, complex numbers and ragged lists are left out. Lines: testing.py 48-70, 97-151, 154-195, 198-224, 227-248, 251-270.
* `TmModel.v` -- Model of the functions which make tensors (tools/misc.py) and of the methods with the same names that problems, distributions and other owners of a dtype and a device have (tools/tensormaker.py): shape, dtype, device, contents and source of randomness of what they return. Lines: misc.py 75-96, 118-129, 1175-1227, 1258-1273, 1276-1292, 1295-1296, 1299-1309, 1312-1453, 1456-1519, 1523-1539, 1599-1612, 1719-1725, 1817-1876; objectarray.py 166-179; tensormaker.py 27-65, 67-94, 96-103, 105-118, 186-243, 245-425, 427-508, 510-735, 748-781.
* `TyModel.v` -- Model of the questions about types and dtypes in tools/misc.py: to_torch_dtype, to_numpy_dtype, is_dtype_*, is_integer, is_real, is_bool and their vector versions, is_sequence, numpy_copy, dtype_of. Simplifications: the dtypes listed here (complex numbers, quantized and wide unsigned types of PyTorch are left out; numpy's other types are NOther); strings which are neither the name of a PyTorch dtype nor one of "object", "Any", "O" are given to numpy, what numpy makes of them is an oracle; iterators which are consumed by the question are left out. Lines: misc.py 75-96, 99-115, 118-131, 134-152, 155-166, 169-180, 183-194, 195-206, 210-231, 234-255, 258-275, 278-298, 301-321, 324-344, 1051-1079.
* `VecModel.v` -- Model of how vectorized environments are made by name (neuroevolution/net/vecrl.py: make_vector_env, make_gym_env, make_brax_env), of the class VectorEnvFromBrax, and of moving merged info dictionaries to a device. Simplifications: gym.make and brax.envs.create are not modelled: the result says what they are called with. Values of keyword arguments are integers, booleans, None or opaque objects, on which int() fails with TypeError. The spaces of all copies of an environment agree and are supported. brax is installed. The wrapped environment is described together with the arguments of TorchWrapper. Lines: vecrl.py 616-665, 668-761, 764-859, 1367-1413, 1380-1396, 1439-1440, 1442-1462, 1464-1466, 1468-1471, 1473-1477, 1479-1490, 1601-1655, 1666-1684.
* `VgModel.v` -- Model of the configuration of VecGymNE (neuroevolution/vecgymne.py) and GymNE (neuroevolution/gymne.py): arguments of the constructors, the number of environments which exist at a time, action noise; and of calling methods of remote problems (core.py). Lines: core.py 174-187, 341-348, 1283-1290, 1972-2047, 2068-2075, 2545, 2568-2595, 2579-2584, 2706-2729; gymne.py 44-54, 218-238, 253-271, 281-291, 312-317, 342-346; rl.py 222-240; vecgymne.py 365-393, 402-420, 425-436, 440-451, 447-450, 453-456, 496-503, 573-576, 736-742, 841-844, 941.
* `WorkModel.v` -- Model of work splitting, parallel evaluation, gradient averaging, seeding of actors and adaptive population sizes (tools/misc.py, core.py, algorithms/distributed/gaussian.py). Lines: core.py 119-141, 1611-1631, 1972-2047, 2001-2022, 2568-2595, 2579-2584, 2590-2595, 2597-2650, 2890-2920, 2932-2934, 3255-3269, 3292-3296, 4598-4659, 4628-4635, 4628-4650, 4636-4646, 4652-4656; distributions.py 980-987; gaussian.py 239-244, 247-269, 258-266, 314-346; misc.py 1113-1135.
* `WrapModel.v` -- Model of how environments of the classic gym API and of the new one are used: TorchWrapper (neuroevolution/net/vecrl.py) with the conversion of its flags and actions, and reset_env and take_step_in_env (neuroevolution/net/rl.py). The environment is an arbitrary state machine. Conversions between array libraries keep the values, so that observations, rewards and infos are abstract. Numbers are rational; the tolerance 1e-4 is the decimal number. The rows of an action belong to the sub-environments (one row if the environment is not vectorized). Combining the flags of differently many sub-environments raises (broadcasting is not modelled). An exception raised by the environment itself is not modelled. Lines: rl.py 63-80, 106-127; vecrl.py 223-251, 405-465, 488-524, 526-596, 538-550, 584-588.
* `XafModel.v` -- Model of whole runs of XNES in the main process (algorithms/distributed/gaussian.py:300-418 with ExpGaussian of distributions.py:811-1014). Exact arithmetic; the draws from the standard normal distribution are inputs; the fitness function is deterministic; turning fitnesses into weights (tools/ranking.py) is a function `weigh`; no optimizer, no thresholds on numbers of interactions. Lines: distributions.py 811-1014, 950-960, 962-987; gaussian.py 300-418, 318-347, 349-365.
* `XnesModel.v` -- Model of ExpGaussian (distributions.py:811-1014), the search distribution of XNES. Lines: distributions.py 370-390, 811-1014, 822-865, 832-838, 884-887, 918-924, 926-948, 971-982, 989-1014, 999-1002; gaussian.py 386-402.

Simplifications that hold everywhere:

* tensors are lists (rows, vectors) or functions of indices; devices, dtypes and autograd are not modelled, except where a property is about them;
* exact arithmetic (`Z`, `Q`, `R`) replaces floating point and fixed-width integers (the former except in `FpModel.v`, where sizes are computed in binary64, and in `FrModel.v`, where rank-based utilities are computed with any given number of bits; the latter except in `NarModel.v`); NaN and infinities are explicit where the code can produce them;
* torch's sorting functions are arguments with a contract (a sorting permutation, ties in any order), so theorems hold for every tie-breaking;
* random generators are arguments (the drawn numbers are universally quantified);
* ray actors are state machines with an arbitrary schedule; network failures and actor crashes are not modelled;
* exceptions are error values; the state an exception leaves behind is modelled where a property is about it.

Not modelled (at present): plotting and printing (`recursiveprintable.py`, the `__repr__` methods), the logger back-ends
(`logging.py` for mlflow, neptune, sacred and wandb beyond the call protocol), `pycmaes.py` (a wrapper around an external library),
`testing.py`, gym/brax environment internals, the external `torch` optimizers, `functorch`/`vmap` itself.


## Where the code disagrees with the wanted property

Each is proved of the model as a `..._refuted` theorem; the guarded theorem beside it says what remains true.

* **C03 CList of capacity one and out-of-capacity indices** (`C03_capacity_one_refuted`, `C03_index_max_length_refuted`, `C03_append_not_exception_safe_refuted`). False of the code: refuted for every element type/value/batch (capacity one) and every capacity >= 2 (index = max_length). The true guarded statement is C01.
* **C04 CMemory is an array of independent cells** (`C04_masked_key_refuted`). Refinement to total maps of cells. The refutation shows why keys of masked-out items must be within one key range.
* **C05 CMemory.multiply_ and divide_ scale the addressed cell** (`C05_multiply_adds_refuted`). False without a mask: multiply_ equals add_ for every non-boolean memory. Proved with a mask.
* **C06 CMemory addressing with several batch dimensions** (`C06_unequal_batch_dims_refuted`, `C06_square_batch_reads_diagonal_refuted`, `C06_read_after_write_refuted`). False for every two-dimensional batch shape with both sizes >= 2. True with a single row.
* **C07 CDict is a finite map with defaults** (`C07_fresh_cdict_refuted`). Refinement to partial maps after a clear(). The refutation shows the clear() is needed.
* **C08 CBag returns exactly what was put in** (`C08_unbatched_pop_refuted`, `C08_low_range_refuted`). Monitor + multiset conservation for every history and every noise. Refutations: unbatched bags and ranges starting above 1.
* **C15 take_best breaks ties by crowding distance** (`C15_take_best_refuted`). False of the code: the permutation returned by argsort is used as if it held ranks; proved when that permutation is its own inverse.
* **C19 Evaluations never go stale through the batch API** (`C19_kept_handle_refuted`). Heap model with views, copies and handles; the refutation shows the proviso on kept handles is needed.
* **C20 Objective and row indices follow Python rules** (`C20_batch_objective_index_refuted`, `C20_solution_index_refuted`). Problem.normalize_obj_index and row indices are right. False for batch objective indices and batch[i] at i = n (off by one); proved for every other index.
* **C24 Functional CEM/PGPE keep sigma in its limits** (`C24_zero_stdev_refuted`). False of the code: with an unlimited maximum change (default of cem) a component which reaches 0 becomes NaN for ever (0 * inf). Proved for a finite maximum change or a positive stdev_min.
* **C25 Random integer fills stay in range** (`C25_refuted`). True when the number of values between the bounds fits the dtype. False otherwise: fixed-width arithmetic wraps and the values leave the bounds (C25_refuted), or a division by zero is raised (C25_full_range_fails).
* **C39 Feature grids cover the feature space** (`C39_reversed_bounds_refuted`). Covering proved for all finite bounds; sharing only boundaries proved for lower <= upper; false for reversed bounds, which are not refused. linspace is any function giving the requested number of finite points in order.
* **C42 RunningNorm survives empty masks and leaves the caller's data alone** (`C42_empty_mask_refuted`, `C42_masked_nan_refuted`, `C42_alias_refuted`). False of the code: an all-False first mask leaves an invalid state on which every later update fails; a NaN in a masked-out row contaminates the mean for ever (NaN * 0); the array of a first single observation is kept and modified in place by the next update. Proved once there are data, for real numbers, and when no first single observation is kept.
* **C47 Observation statistics are neither lost nor double counted across actors** (`C47_idle_actor_refuted`, `C233_run_first_refuted`). Proved for GymNE once its actors exist; observations made by the main problem before that are counted again for each actor (C233_run_first_refuted). For VecGymNE proved if no actor is idle; otherwise the delta of an idle actor is None, which RunningNorm.update refuses, for every earlier history.
* **C48 A cloned or unpickled problem still evaluates** (`C48_clone_refuted`). False of the code without actors: after any evaluation every clone raises TypeError. Proved with actors, or when nothing has been evaluated yet.
* **C49 Immutable conversion round-trips** (`C49_tuple_refuted`, `C49_tuple_key_refuted`, `C49_set_refuted`). as_immutable gives, for every (also shared or cyclic) graph of lists, tuples, dictionaries with plain keys, sets of scalars and tensors, tensors and numeric arrays, an isomorphic graph of immutable objects only; applying it again changes nothing. The round trip is isomorphic to the original except that tuples come back as lists. The rest of the claim is false: tuples become lists, mutable_copy fails on dictionaries with tuple keys, sets containing tuples cannot be made immutable. Numpy arrays of objects and ObjectArrays are outside the guarded theorem.
* **C50 deep_clone preserves structure and sharing** (`C50_tuple_cycle_refuted`, `C50_object_ndarray_refuted`, `C50_read_only_refuted`). Proved for all graphs without cycles through tuples, numpy arrays of objects, read-only ObjectArrays and directly nested ObjectArrays: termination, isomorphism with sharing and cycles, no shared mutable objects. False otherwise: a cycle through a tuple gives a clone with a list in place of the tuple; the clone of an object-dtype numpy array shares its elements; the clone of a read-only ObjectArray is writable.
* **C51 Read-only ObjectArrays cannot be changed through their API** (`C51_refuted`). Proved for all programs in which no array contains a writable array: whatever a program does which has got only read-only arrays, the contents stay as they are. False in general: an array may be put into itself, is then stored as it is (not as a read-only view), and can be obtained from a read-only view of it.
* **C54 Adaptive population size terminates within budget rules** (`C54_maximum_exceeded_refuted`). The refutation shows that popsize_max itself can be exceeded (by less than popsize, proved).
* **C57 Minibatch sampling visits every batch once per epoch** (`C57_actors_refuted`). The epoch part is proved in full within one process. Common minibatches are common only within one process: actors draw their own.
* **C60 Tensor-making arguments are resolved consistently** (`C60_out_ignores_refuted`, `C60_empty_out_refuted`, `C60_randint_eval_refuted`, `C60_dtype_name_refuted`, `C60_exception_returned_refuted`). True for requests that give no `out` tensor and name the dtype by a torch dtype: shape, dtype, device and contents are as asked, and conflicting arguments are rejected. False otherwise: with `out`, sizes, num_solutions and dtype are silently ignored; make_empty(out=...) always raises TypeError; make_randint(use_eval_dtype=True) always raises ValueError; the random makers fail for dtype names; make_empty of objects on a device other than the cpu returns the exception instead of raising it.
* **C61 Vector-space conversions round-trip** (`C61_start_refuted`, `C61_scalar_box_refuted`, `C61_large_refuted`). Proved for Box spaces with at least one dimension and for Discrete spaces that begin at 0 (with at most 2^53 elements: the number goes through float64). False: a Discrete space with start other than 0 comes back with start 0, and a Box without dimensions is rejected when it is unbatched.
* **C62 Masked clear of CList and CDict** (`C62_clist_masked_clear_refuted`, `C62_cdict_masked_clear_refuted`). False of the code: a masked clear always raises AttributeError. The unmasked clear is covered by C01/C07.
* **C63 XNES can be run in distributed mode** (`C63_xnes_distributed_refuted`). False of the code: the matrix-shaped gradient is added to a vector-shaped accumulator of the wrong size, for every dimension. True for vector-shaped gradients.
* **C64 Actors of a problem with its own generator can be started** (`C64_own_generator_refuted`). False of the code: AttributeError for every seed assignment. True without an own generator.
* **C65 Unevaluated solutions are not preferred** (`C65_nan_status_refuted`, `C65_nan_taken_first_refuted`). False of the code: NaN wins when maximizing and breaks the status; proved for take_best when minimizing.
* **C69 Rankings give numbers for every population** (`C69_single_fitness_refuted`, `C69_constant_fitness_refuted`). False of the code for a single solution (centered, linear: 0/0) and for equal fitnesses (normalized). Proved otherwise.
* **C71 CEM updates of numbers give numbers** (`C71_one_elite_refuted`). False of the code with fewer than two elites (torch.std of one row is NaN). Proved for two or more.
* **C74 ClipUp survives a zero gradient** (`C74_zero_gradient_refuted`, `C74_functional_refuted`). False of the code: 0/0 makes velocity NaN for ever. Proved for non-zero gradients.
* **C75 ClipUp rejects illegal hyperparameters** (`C75_refuted`, `C75_moves_backwards_refuted`). The constructor validates; param_groups accepts every value because the bound tables are looked up by attribute name.
* **C80 Standard deviations stay positive** (`C80_additive_refuted`). True of the exponential update (SNES). False of the additive update (PGPE and the plain distributions): the gradient may exceed the standard deviation and nothing clips it unless stdev bounds are given.
* **C82 XNES with an optimizer** (`C82_optimizer_refuted`, `C82_never_used_refuted`). False of the code: the XNES update needs a learning rate for 'mu' and ignores an optimizer for it, so the combination raises KeyError. Proved without an optimizer.
* **C83 Updating an XNES distribution leaves the caller's learning rates alone** (`C83_stale_rate_refuted`). False of the code: 'd' and 'M' are written into the caller's dictionary. Proved for a fresh dictionary.
* **C84 The reported covariance is the covariance of the samples** (`C84_refuted`). False of the code: cov is the transpose product in the wrong order. True exactly for normal transforms (diagonal, symmetric).
* **C85 Assigning the transform of XNES** (`C85_assigned_sigma_refuted`). False of the code: the sigma setter keeps the old inverse. True for constructed distributions.
* **C87 The status of IPOP is readable after a restart** (`C87_status_after_restart_refuted`). False of the code for wrapped algorithms whose population is None before their first step (PGPE, SNES, XNES, CEM): right after a restart the status item algorithm_terminated raises AttributeError. Proved for algorithms which have a population from the start.
* **C88 Polynomial mutation keeps genes legal** (`C88_fixed_variable_refuted`). Proved if the lower bound is below the upper bound; false for fixed variables (lower bound = upper bound, accepted by the constructor): a mutated fixed gene becomes NaN.
* **C90 Cross-over yields the requested children** (`C90_small_rate_refuted`, `C90_single_gene_refuted`). Proved for multi-point cross-over on one objective with at least two children and, for one cut point, at least two genes; false when 0 < len*rate < 1 (IndexError) and for one-point cross-over on solutions of length 1 (ZeroDivisionError).
* **C91 Solutions of a GA population carry their own evaluations** (`C91_stale_parents_refuted`, `C91_multi_objective_refuted`). Proved for elitist=True, re_evaluate=False or re_evaluate_parents_first=True; otherwise false when there are fewer children than parents: the kept parents carry stale (initially missing) evaluations, and with several objectives the first generation fails with ValueError.
* **C92 Non-elitist GA replaces the worst solutions** (`C92_worst_are_kept_refuted`). Proved when the parents are evaluated before the children are made; otherwise false: for every sorter there is a fitness function for which every replaced solution is better than every kept one.
* **C93 Cosyne keeps its population size and its elites** (`C93_small_population_refuted`). Size, evaluation and elites are proved for every successful run, progress for popsize >= 4; false for popsize < 4: the cross-over gets no parents and fails.
* **C95 MAP-Elites with infinite or NaN fitness** (`C95_infinite_fitness_refuted`, `C95_nan_fitness_refuted`). Proved without NaN and without the worst infinity; otherwise false: a fitting candidate with the worst infinite fitness can be reported as not filled and lost, and a NaN fitness takes over the cell.
* **C96 Every cell of a feature grid has a range for every feature** (`C96_short_bins_refuted`). Proved for one number of bins or one per feature; false for a shorter sequence, which silently drops the last features.
* **C98 CMA-ES standard deviation limits** (`C98_upper_limit_refuted`). The limits hold. An upper limit cuts only the diagonal of a full covariance matrix, which can lose positive definiteness (refuted for every limit); true without an upper limit, and for diagonal covariances.
* **C99 Separable CMA-ES with default rates** (`C99_separable_large_population_refuted`). For every dimension there is a population size above which the default c_mu exceeds 1 and the variances can become negative; true for popsize <= 2 (d + 4 sqrt d + 1).
* **C100 CMA-ES accepts explicit learning rates** (`C100_explicit_rate_refuted`). With the default limit_C_decomposition=True a numeric c_1 or c_mu makes the constructor raise AttributeError; true with limit_C_decomposition=False or without explicit rates.
* **C103 Observation statistics can be restored** (`C103_own_stats_refuted`). False of the code: get_observation_stats returns the live object, and setting it again resets it first, so all statistics are lost. Proved for any other object.
* **C104 Interaction and episode counters never lose steps** (`C104_run_forgotten_refuted`, `C233_run_first_refuted`, `C233_kill_refuted`). Totals over the parallel evaluations are right once the actors exist (see C233 for steps made before that and for killed actors); steps run by the main problem itself (run with update_stats=True) are forgotten at the next parallel evaluation, and the counter can decrease.
* **C105 A rejected parameter vector leaves the network unchanged** (`C105_rejected_vector_refuted`). False of the code: parameters are overwritten one after the other before the length is found to be wrong. Proved: shapes and all other tensors stay, and nothing changes when the vector is too short for the first parameter.
* **C107 Malformed network strings are reported as NetParsingError** (`C107_attribute_refuted`). False of the code for a class named through an attribute (nn.Linear(...)): AttributeError. Proved when every call names its class directly.
* **C109 A >> B computes B after A** (`C109_sequential_refuted`). False of the code when A is a torch Sequential whose layers pass tuples: it is taken apart into its layers. Proved for all other modules, and for Sequentials of plain layers.
* **C112 The user's network object is not modified** (`C112_given_network_refuted`). False of the code without actors for a network object: the last solution of the batch is written into it. Proved for strings and callables, and with actors as long as make_net is not called.
* **C113 SyncVectorEnv refuses sub-environments whose spaces differ** (`C113_action_shapes_refuted`). False of the code for Box action spaces, whose shapes are never compared. Proved for everything else that is compared.
* **C114 Assigning several objects to a slice of an ObjectArray stores an immutable copy of each of them** (`C114_id_reuse_refuted`). Proved when the ids of the given values tell them apart (as for the items of a list). False otherwise: the memo is keyed by id() of objects which may be gone, so that values made while iterating (such as rows of an array) can be confused.
* **C115 ObjectArray.repeat concatenates n copies of the contents** (`C115_integer_refuted`). Proved for a tuple of sizes, for arrays without writable arrays inside. repeat(n) with an integer, as in the documentation, always raises TypeError.
* **C116 Numbers passed to an expects_ndim function take dtype and device of the considered tensors** (`C116_undeclared_refuted`). Proved if all tensors among the arguments agree. False of the code: tensors passed for arguments declared with None are counted too (the check at decorators.py:713 looks at a wrong variable).
* **C117 Every positional argument of a decorated call reaches the function** (`C117_dropped_refuted`). Proved for calls with as many arguments as declared. False otherwise: arguments beyond the declared ones are dropped without an error.
* **C118 A batched policy acts like independent networks** (`C118_fresh_refuted`). Proved, for all histories, with a reset of chosen networks setting their hidden states to 0; that this makes them as new holds for networks whose initial hidden state is 0 (proved of RNN and LSTM), and is false for every other network. The caller passes new tensors at each call (see C119 for what happens otherwise).
* **C119 A policy does not modify tensors of its caller** (`C119_parameters_refuted`). Proved for calls, for reset with copy=True, and for set_parameters without indices. False: set_parameters with indices writes into the tensor which the caller passed to an earlier set_parameters.
* **C120 reset_tensors clears the chosen rows and nothing else** (`C120_tuple_refuted`). Proved for lists and tensors of integers or booleans. False for tuples of integers, which torch takes as one multi-dimensional index.
* **C125 Every gradient has an effect on SGD** (`C125_dampening_refuted`). Proved for every dampening other than 1. False for dampening=True, documented as activating dampening: it reaches torch as 1.0, and with momentum all gradients but the first are then ignored.
* **C126 The initial standard deviation has the requested radius, dtype and device** (`C126_dtype_refuted`). Proved for the class-based algorithms, and for the functional ones when the center is on the cpu and its dtype absorbs the default dtype. False for the functional ones with radius_init: a float16 or bfloat16 center gets float32 standard deviations, and a center on another device raises RuntimeError. Batches of radii are not modelled.
* **C127 Class-based and functional PGPE perform the same search** (`C127_negative_refuted`). sampling, evaluation and gradient estimation are parameters shared by both interfaces; real arithmetic; the agreement is proved under each of three conditions on the limits and refuted without limits
* **C128 Class-based and functional CEM perform the same search** (`C128_zero_refuted`). as C127
* **C132 Initial solutions respect the declared bounds** (`C132_outside_refuted`). Between the initial bounds: proved. Between the strict bounds: proved when the initial bounds are missing or lie inside them; false otherwise, since nothing relates the two (C132_outside_refuted). Real arithmetic, floating-point dtypes, bounds representable in the dtype.
* **C133 Objective senses are validated** (`C133_invalid_refuted`). Proved for sequences of senses and for valid single senses. False of a single sense: any string is accepted.
* **C134 The number of actors and their GPU shares follow the available resources** (`C134_num_devices_refuted`). Proved except for num_actors='num_devices' on a device other than the cpu, where the constructor always fails (None >= 2).
* **C135 Actors of a parallelized problem get different seeds** (`C135_own_generator_refuted`). Proved for problems without a generator of their own. With one (the argument seed), no actor starts: it calls the method seed, which Problem does not have.
* **C136 A read-only tensor cannot be modified through itself or its views** (`C136_function_refuted`, `C136_tuple_refuted`, `C136_numpy_refuted`). proved for programs that avoid the listed ways round; false of the code for torch functions that work in place (torch.relu_(x)), for a tuple of outputs, and for torch.from_numpy(x.numpy())
* **C137 Copies of read-only tensors** (`C137_deepcopy_refuted`). clone, slices and reshapes proved; deepcopy gives a read-only tensor although the documentation of the class says a regular one
* **C138 read_only_tensor makes its own copy, like torch.tensor** (`C138_shares_refuted`). true for Python sequences and when dtype or device are converted; otherwise read_only_tensor shares the memory of its source, like as_read_only_tensor
* **C139 Updating a regular tensor in place with a read-only operand** (`C139_becomes_read_only_refuted`). false of the code: the default conversion of results by torch turns the variable into a read-only tensor
* **C140 The policy made from a solution acts as the solution did in the problem** (`C140_training_refuted`). proved for policies put into evaluation mode by the user; as returned by GymNE.to_policy after an evaluation, the module is in training mode while rollouts use evaluation mode
* **C141 GymNE.run treats a module made by to_policy like the parameters** (`C141_twice_refuted`). true without observation normalization; with collected statistics the observations are normalized twice
* **C142 Population reports describe the present population** (`C142_unevaluated_refuted`). proved for evaluated populations, provided pop_best is not excluded and neither the problem nor hooks store items under these names; if some solution is unevaluated, pop_best is such a solution and pop_best_eval is None
* **C143 Excluded reports are not reported** (`C143_string_refuted`, `C143_gaussian_refuted`). proved for exclusions given as several names; a single string excludes nothing (its characters are excluded), so GaussianSearchAlgorithm's exclude='mean_eval' has no effect and reading mean_eval before the first step raises AttributeError
* **C144 Pickle files keep every saved generation** (`C144_directory_refuted`). an absolute file name given to save is used as it is, outside the configured directory
* **C145 Scalar loggers pass on every scalar once** (`C145_mlflow_refuted`). leading keys without duplicates; for a logger attached after some generations, the step is the number of its calls and not the number of the generation
* **C146 Bin sends every value to the nearer of its two bounds** (`C146_middle_refuted`). Values closer to one of the bounds go to that bound, for bounds in either order. A value in the middle stays where it is and equals neither bound (refuted for all distinct bounds). lb = ub divides by zero and is not modelled.
* **C151 Every episode of a LocomotorNet policy starts at timestep 0** (`C151_restart_refuted`). A rollout resets the StatefulModule wrapper only, and the wrapper does not reset the network it wraps; moreover one network serves all evaluations. Proved: an episode starts with the timestep that counts all steps of all earlier episodes and evaluations. Refuted for every architecture and every episode length: there are parameters with which the first action of the second evaluation of the same solution differs.
* **C155 Casting the tensors in a container** (`C155_immutable_set_refuted`, `C155_tuple_cycle_refuted`). False of the code: an immutable set becomes a list, and a cycle through a tuple is not reproduced. True for containers without these (and of the recognized mutable kinds). Read-only tensors, arrays and ObjectArrays are not covered by the positive theorem.
* **C157 Dtype and device of a search distribution** (`C157_mixed_refuted`, `C157_modify_refuted`). False of the code: if the given parameters have different dtypes, ValueError is raised even if a dtype is requested to which they can be cast, because the default of the lookup is evaluated in any case. True for parameters of one dtype and device. modified_copy is treated with one replaced parameter.
* **C158 Parameter dictionaries given to ExpGaussian** (`C158_reused_refuted`). False of the code: the constructor writes sigma_inv into the dictionary of the caller, and a new sigma put into the same dictionary is then used with the old inverse. True for dictionaries without sigma_inv.
* **C161 Ways to make a batch** (`C161_like_refuted`). False of the code: a batch made like another one without empty=True always raises AttributeError, because the method which would fill it does not exist. The other parts hold.
* **C162 Arguments of generate_batch** (`C162_center_omitted_refuted`). False of the code: stdev without center always raises ValueError, although a sampled center is documented. The other parts hold.
* **C163 Concatenating batches** (`C163_stretched_refuted`, `C163_senses_refuted`). False of the code: solutions of length 1 are stretched to the length of the first batch, and senses are not compared. True for batches of the same solution length and number of evaluation columns; other mismatches of solution lengths are refused.
* **C164 New tensors made for an object** (`C164_integers_refuted`, `C164_booleans_refuted`, `C164_named_refuted`, `C164_randint_eval_refuted`). False of the code for the random makers: dtypes given by name raise TypeError, and make_randint with use_eval_dtype always raises ValueError. Integer dtypes cannot be filled with NaN or Gaussian numbers (RuntimeError). True for empty, zeros, ones, nan, and for the random makers with torch dtypes.
* **C165 Existing tensors filled by makers** (`C165_ignored_refuted`, `C165_empty_out_refuted`, `C165_no_dimensions_refuted`). False of the code: the methods of objects silently ignore size, num_solutions, dtype, device and use_eval_dtype if out is given; make_empty with out always raises TypeError; tensors without dimensions cannot be filled with ones or NaN (IndexError). The functions of the tools refuse as claimed, and filling is right otherwise.
* **C167 Conversion to tensors** (`C167_not_moved_refuted`, `C167_inferred_refuted`). False of the code if no dtype is given: a tensor is not moved to the requested device (a device other than the cpu is refused), and other data become float64 whatever their dtype. True with a dtype, and for the method of an object.
* **C168 Device of a fitness function** (`C168_evaluate_all_refuted`). False of the code for a decorated method _evaluate_all: it is accepted, because bound methods are compared by identity and are new objects at each access. It is refused if stored in the instance. The rest holds.
* **C169 Attributes of remote problems** (`C169_cycle_refuted`, `C169_no_names_refuted`). The read-back fails if the path passes through the attribute which is written (cycles), and an empty list of names is accepted without effect. True for all other paths.
* **C170 CMA-ES via pycma** (`C170_bounds_refuted`). False of the code for the option bounds: if the problem has bounds, bounds given in cma_options are dropped silently. All else holds.
* **C172 Number of actors and the device of the simulator** (`C172_named_refuted`). False of the code for names: every name given as num_actors ends in TypeError. The device is right for numbers of actors.
* **C173 Alive bonus schedules** (`C173_lengths_refuted`). False of the code for wrong lengths: VecGymNE fails with AttributeError, because its error message reads an attribute which does not exist yet. True for lengths two and three.
* **C174 At most max_num_envs environments** (`C174_actors_refuted`). False of the code with actors: no evaluation works if both max_num_envs and actors are given, because the remote call lacks the argument kwargs. True without actors, and nothing fails without a limit.
* **C175 Sub-batches of GymNE and VecGymNE** (`C175_ignored_refuted`). False of the code in GymNE: num_subbatches is ignored and both arguments together are accepted. True of VecGymNE, and of GymNE without num_subbatches.
* **C176 Supported spaces of GymNE** (`C176_error_refuted`). Acceptance and lengths as stated; but the refusal is an AttributeError, and the check for the action space looks at the observation space.
* **C177 Action noise** (`C177_vec_refuted`). False of VecGymNE: its noise is uniform on [0, s), so no action is ever decreased. GymNE adds the outcomes of a standard normal distribution times s.
* **C179 Keyword arguments of brax environments** (`C179_dropped_refuted`). False of the code: no keyword argument other than the number of environments reaches brax, because filtered_kwargs stays empty. The rest holds.
* **C180 Ends of episodes and seeds of brax environments** (`C180_truncated_refuted`). False of the code: truncation is never reported; a truncated episode is reported as terminated. Ends of episodes and seeds are right.
* **C181 Merged info dictionaries on a device** (`C181_strings_refuted`). False of the code if an array is not convertible to a tensor (for instance numpy strings reported by all sub-environments): reset and step raise TypeError. True otherwise.
* **C182 assert_allclose passes exactly when the values are close** (`C182_integers_refuted`). False of the code for integer desired values: actual is cast to integers first, so everything from d up to (not including) d + 1 passes with tolerance 0. True for floating point dtypes and nested lists.
* **C183 assert_almost_between passes exactly within the bounds** (`C183_integers_refuted`). False of the code for arrays of integers: the bounds lose their fractions, so values below a lower bound pass. True for floating point dtypes and nested lists.
* **C184 assert_eachclose, assert_shape_matches and assert_dtype_matches** (`C184_integers_refuted`, `C184_scalar_refuted`). False of the code for arrays of integers (the fraction of the value is dropped) and for single numbers (IndexError). True for floating point arrays with at least one dimension; shapes and dtypes are compared as stated.
* **C185 The default configuration of the Python logger** (`C185_override_refuted`, `C185_repeated_refuted`). False of the code with override=True if the logger has two or more handlers: the loop removes handlers from the list it iterates over, so every second one stays; called twice, messages are printed twice. True for at most one handler.
* **C187 The constants of network strings** (`C187_gym_override_refuted`). True of VecGymNE. False of GymNE if network_args contain obs_space or act_space: these are replaced by the shapes. True of GymNE otherwise.
* **C188 Names of dtypes mean the same in PyTorch and numpy** (`C188_names_refuted`). False of the code for the names 'float' and 'int', which are 32 bits wide for PyTorch and 64 bits for numpy; true of all other specifications. bfloat16 has no numpy counterpart and is refused.
* **C189 is_bool, is_integer and is_real** (`C189_bfloat16_refuted`). False of the code for bfloat16 tensors without dimensions: TypeError. True otherwise.
* **C190 The vector questions agree with the questions about elements** (`C190_empty_refuted`, `C190_objects_refuted`). False of the code for numpy arrays with dtype object (always no) and for vectors without elements (a list or string is everything, a tensor is what its dtype says). True otherwise.
* **C191 numpy_copy and dtypes** (`C191_torch_refuted`). False of the code for PyTorch dtypes: TypeError for every source. True of the others except Any.
* **C193 The text of a container is not much longer than its contents** (`C193_size_refuted`). False of the code for containers that contain themselves: w references give at least w^10 characters. True for containers without shared contents.
* **C194 The reports of MAP-Elites describe its archive** (`C194_misfit_refuted`, `C194_mean_refuted`). False of the code: empty cells hold copies of one candidate and count in all reports. If there are empty cells, mean_eval equals the mean of the filled ones only if the fitness of that candidate does; if nothing fits anywhere, a misfit is reported as pop_best. True of pop_best if every candidate fits some cell.
* **C195 A saved solution holds what is needed to act as it did** (`C195_fresh_refuted`). False of the code for GymNE with observation normalization before the first observation: AttributeError. True otherwise, and always for VecGymNE.
* **C202 Genetic algorithms see fitnesses only through comparisons** (`C202_multi_objective_refuted`, `C202_mapelites_infinity_refuted`). true of one objective and of tournaments and Pareto ranks; false of runs with several objectives, where survivors are chosen by crowding distances. MAP-Elites: for changes which keep the infinities; any change which moves the worst infinity is noticed, because solutions of this fitness are not told from those outside of a cell
* **C204 CMA-ES stalls the rank-one path exactly when the normalized step size path is long** (`C204_stall_refuted`). the code divides by 1 - (1 - c_sigma)^(2n - 1) instead: a continued path is always short enough, but paths are also stalled when the normalized length is below the limit (by a factor below 2); shown for the first generation with any rates, dimension and population size
* **C205 Gaussian searches never walk down a slope** (`C205_cem_refuted`, `C205_snes_refuted`). Proved for PGPE (with and without mirrored samples) and for SNES with balanced weights, by Chebyshev's sum inequality and an invariant of each optimizer over whole runs. Refuted for CEM and for SNES with non-negative weights such as those of linear ranking: whatever the fitness function, there are draws after which the center is worse. Exact arithmetic.
* **C206 Minimizing a fitness is maximizing its negation** (`C206_order_refuted`). Order and runs of genetic algorithms: without NaN, and a genetic algorithm whose population has fitnesses or gets them before they are sorted. With NaN the order differs for every batch which has both a NaN and a number, because torch takes NaN as the greatest: last when minimizing, first when maximizing. The sorting function must order numbers and their negations alike also where they are equal (a stable one does); so must argmax and argmin.
* **C208 Evaluating parents again changes nothing when the fitness function is deterministic** (`C208_together_refuted`). parents first: the runs are equal, clock included. Together: the populations are equal when the first population is already evaluated (or after the first generation); in a fresh search the operators see parents without fitnesses, and with a non-elitist selection or an operator which depends on fitnesses the populations differ
* **C210 A genetic search never evaluates a solution outside the bounds of the problem** (`C210_fixed_refuted`). Proved for every operator list whose operators keep solutions legal, and that the standard operators do; polynomial mutation needs lower < upper for every variable, and C210_fixed_refuted shows what happens with a fixed variable. Cut-and-splice works on sequences without bounds and is not covered; the evaluation is over exact real numbers.
* **C211 In one dimension XNES and SNES are the same search** (`C211_defaults_refuted`). Equal learning rates: proved for whole runs, without optimizer and without limits on the standard deviation (XNES has none). The default learning rates for the standard deviation are 0.6 for SNES and 1.8 for XNES in one dimension: C211_defaults_refuted. Exact arithmetic; torch.matrix_exp of a 1 x 1 matrix is the exponential of its entry.
* **C212 Separable CMA-ES adapts the diagonal which CMA-ES would adapt** (`C212_stalled_refuted`, `C212_active_refuted`). The variances agree (up to the constant 1e-23 of the code) without active=True in generations which are not stalled. In stalled generations the separable update gives the evolution path a smaller weight than the full one; with active=True (the default) the two subtract different multiples of the old variances, by the amount stated in C212_active_refuted. Without stdev_min and stdev_max.
* **C213 A bag of integers of a narrow dtype conserves its elements as long as its shuffle fits into the dtype, and not otherwise** (`C213_overflow_refuted`). Guarded version proved (the products of the shuffle fit into the dtype); beyond the threshold the code returns elements which were never put in, for every such capacity and range (unless high - low + 1 divides 2^b).
* **C215 Random fills can give every value between the bounds, integers about equally often** (`C215_every_value_refuted`). The draws of Tensor.random_() are the integers 0..imax. Every value can be drawn under the stated condition; refuted beyond it (-1 is never drawn). Floats in exact arithmetic.
* **C218 Seeded runs are reproducible** (`C218_vecgymne_refuted`). false for VecGymNE: the noise on actions is drawn from the global generator of PyTorch (torch.rand_like) and the seeds of environments from that of Python; exact for everything else; single device, no actors, the deterministic parts of the algorithms are arbitrary functions
* **C222 Distributed steps of PGPE have enough solutions for their tasks** (`C222_fewer_solutions_than_tasks_refuted`, `C222_single_solutions_refuted`, `C222_never_ends_refuted`). Finite gradients and the true mean if every task gets enough solutions. Popsizes below the number of tasks are accepted and make NaN (or, with num_interactions and no popsize_max, a task which never ends); so do tasks of one solution with centered ranks.
* **C224 Searches start at the center they are given** (`C224_cmaes_length_one_refuted`). CMA-ES squeezes its center before it checks that it is a vector, so it cannot be started on problems with solutions of length 1.
* **C226 A distributed step of PGPE with raw fitnesses learns nothing from the differences between its tasks** (`C226_blind_refuted`). Over the reals. Agreement fails in general; C226_difference gives the exact difference, which is zero for the center under symmetric sampling.
* **C228 Sizes computed with floating point numbers** (`C228_fraction_refuted`, `C228_quotas_refuted`). Binary64 arithmetic as exact rational arithmetic rounded to 53 bits (nearest, ties to even), exponents unbounded. Ratios k/n may lose one solution; integer quotas may gain one.
* **C230 Rank-based utilities in the floating point dtype of the fitnesses** (`C230_sum_refuted`, `C230_crowded_refuted`). Order and closeness are proved up to 2^p solutions; that centered utilities sum up to 0 is false (C230_sum_refuted, for every precision from 2 bits), and so is distinctness beyond 2^p + 2 solutions. Rounding is once per operation, to nearest, ties to even, with unlimited exponents; C230_rounding shows that the model of rounding gives a nearest representable number. Half precision may be computed in float32 first by PyTorch; this second rounding is not modelled.
* **C232 Mirrored search at a center of symmetry** (`C232_clipup_refuted`, `C232_ranked_refuted`). Staying at the center is proved for learning rates, SGD and Adam with fair weights; it is false with ClipUp (the run has no second generation with finite numbers) and with centered ranks (the exact move of a single pair). Runs of SafModel: exact arithmetic, a run ends where a number would not be finite.
* **C233 Counters and statistics over clones and restarts of actors** (`C233_run_first_refuted`, `C233_kill_refuted`, `C233_stale_refuted`). True while the main problem runs nothing itself and no actor is killed, for any sequence of evaluations, clones and switches to clones; the three refutations give the exact wrong totals, for every history of the kind. GymNE with observation normalization; pickling follows the same code as cloning; seeds and hooks are left out.
* **C234 Assigning one ObjectArray to a slice of another** (`C234_shift_refuted`). True if no cell of the slice is the cell of a later element of the given array, in particular for arrays which share no memory and for a[:] = a. False for a slice which overlaps later elements: the given array is read while the slice is written, so that a[1:] = a[:-1] fills the whole array with its first element (for all contents).
* **C235 Comparing, searching and pickling immutable containers** (`C235_raises_refuted`, `C235_tuple_refuted`, `C235_keys_refuted`, `C235_contains_refuted`, `C235_pickle_refuted`). Proved: comparisons end, equal data stay equal in both orders, the converse for nested lists of numbers and for all data in which no list or tuple faces another kind of container, membership of numbers and strings, pickling without sets. Refuted for all values of the stated shapes: comparisons with what is not iterable raise, kinds of containers are forgotten and equality is not transitive, asking for tuples raises, and sets cannot be unpickled. Tensors and arrays inside of containers are left out of this model.

## Assumptions per theorem

As printed by `Print Assumptions` (the real-number axioms come from the standard library `Reals`).

**Closed under the global context** (no axiom):

`C01_clist_is_bounded_deque`, `C02_clist_items_independent`, `C02_clist_masked_items_untouched`, `C03_capacity_one_refuted`, `C03_index_max_length_refuted`, `C03_append_not_exception_safe_refuted`, `C04_cmemory_is_array_of_cells`, `C04_masked_key_refuted`, `C05_multiply_adds_refuted`, `C05_masked_scaling_partial`, `C06_unequal_batch_dims_refuted`, `C06_square_batch_reads_diagonal_refuted`, `C06_read_after_write_refuted`, `C06_single_row_partial`, `C07_cdict_is_finite_map`, `C07_fresh_cdict_refuted`, `C08_cbag_conserves_elements`, `C08_unbatched_pop_refuted`, `C08_low_range_refuted`, `C09_split_workload_even`, `C10_split_by_count`, `C10_split_by_max_size`, `C10_slice_is_rows`, `C105_rejected_vector_partial`, `C105_rejected_vector_refuted`, `C106_flat_module`, `C106_same_parameters`, `C107_errors_partial`, `C107_attribute_refuted`, `C108_namespaces`, `C108_more_constants`, `C109_composition_partial`, `C109_plain_sequential_partial`, `C109_sequential_refuted`, `C11_parallel_equals_sequential`, `C110_reset`, `C110_failed_call`, `C111_snapshot`, `C111_available`, `C112_built_partial`, `C112_actors_partial`, `C112_given_network_refuted`, `C113_checked_partial`, `C113_action_shapes_refuted`, `C114_slice_assignment_partial`, `C114_id_reuse_refuted`, `C115_repeat_partial`, `C115_integer_refuted`, `C116_scalars_partial`, `C116_no_tensor`, `C116_undeclared_refuted`, `C117_arguments_partial`, `C117_dropped_refuted`, `C118_independent`, `C118_fresh_partial`, `C118_recurrent`, `C118_single`, `C118_determined`, `C118_fresh_refuted`, `C119_untouched_partial`, `C119_only_parameters`, `C119_parameters_refuted`, `C12_weighted_average`, `C12_uniform_average`, `C12_order_independent`, `C12_convex`, `C12_mean_eval_is_global_mean`, `C12_tasks_sum`, `C12_tasks_even`, `C12_quotas_reach_total`, `C120_reset`, `C120_invalid`, `C120_tuple_refuted`, `C121_combined`, `C129_sampler`, `C129_sampler_rejected`, `C129_sampler_order`, `C130_construction`, `C13_ranks_are_front_numbers`, `C13_fronts_partition`, `C13_fronts_sorted_by_distance`, `C130_unbound`, `C130_bound`, `C130_compose`, `C130_order`, `C130_rejected`, `C131_class`, `C131_static`, `C132_initial_partial`, `C132_accepted`, `C132_outside_refuted`, `C133_senses_partial`, `C133_sequences_rejected`, `C133_invalid_refuted`, `C134_actors_partial`, `C134_num_devices_refuted`, `C135_seeds_partial`, `C135_own_generator_refuted`, `C136_protected_partial`, `C136_raises`, `C136_function_refuted`, `C136_tuple_refuted`, `C136_numpy_refuted`, `C137_clone_partial`, `C137_slices`, `C137_deepcopy_refuted`, `C138_copy_partial`, `C138_shares_refuted`, `C139_regular_partial`, `C139_becomes_read_only_refuted`, `C14_take_best_respects_fronts`, `C142_reports_partial`, `C142_unevaluated_refuted`, `C143_keys_partial`, `C143_string_refuted`, `C143_gaussian_refuted`, `C144_contents`, `C144_errors`, `C144_files`, `C144_directory_partial`, `C144_directory_refuted`, `C145_stdout`, `C145_groups`, `C145_mlflow_partial`, `C145_mlflow_refuted`, `C15_take_best_refuted`, `C15_take_best_partial`, `C152_malformed`, `C152_classic`, `C152_same`, `C152_passthrough`, `C152_scalar`, `C153_sent`, `C153_clipped`, `C153_scores`, `C154_attributes`, `C154_answers`, `C155_cast_partial`, `C155_immutable_set_refuted`, `C155_tuple_cycle_refuted`, `C156_cast_then_ask`, `C157_new_partial`, `C157_mixed_refuted`, `C157_modify_partial`, `C157_modify_refuted`, `C157_to`, `C157_names`, `C159_evaluations`, `C159_refused`, `C159_refused_vectorized`, `C16_argsort_best_to_worst`, `C16_argbest`, `C16_argworst`, `C16_take_best`, `C16_index_optional`, `C160_made`, `C160_values`, `C160_status`, `C160_refused`, `C161_problem`, `C161_like_partial`, `C161_like_refuted`, `C161_exclusive`, `C161_to_device`, `C162_uniform`, `C162_gaussian`, `C162_refused`, `C162_center_omitted_refuted`, `C163_cat_partial`, `C163_refused`, `C163_stretched_refuted`, `C163_senses_refuted`, `C164_empty`, `C164_filled`, `C164_random_partial`, `C164_integers_refuted`, `C164_booleans_refuted`, `C164_named_refuted`, `C164_randint_eval_refuted`, `C164_conflicts`, `C165_fill_partial`, `C165_draw`, `C165_refused`, `C165_ignored_refuted`, `C165_empty_out_refuted`, `C165_no_dimensions_refuted`, `C166_identity`, `C166_out`, `C166_refused`, `C167_dtype_partial`, `C167_owner`, `C167_not_moved_refuted`, `C167_inferred_refuted`, `C167_objects`, `C168_decorators`, `C168_chosen_partial`, `C168_evaluate_all_refuted`, `C168_stored_refused`, `C168_aux`, `C169_set_get_partial`, `C169_cycle_refuted`, `C169_no_names_refuted`, `C169_refused`, `C169_dotted`, `C17_best_and_worst_ever`, `C170_options_partial`, `C170_redundant`, `C170_bounds`, `C170_bounds_refuted`, `C170_told`, `C170_nan`, `C171_results`, `C171_main_only`, `C172_target_partial`, `C172_named_refuted`, `C173_schedule_partial`, `C173_lengths_refuted`, `C174_limit_partial`, `C174_all_evaluated`, `C174_unlimited`, `C174_actors_refuted`, `C175_pieces_partial`, `C175_ignored_refuted`, `C176_spaces_partial`, `C176_environment`, `C176_error_refuted`, `C177_gym_partial`, `C177_vec_refuted`, `C178_default_registry`, `C178_unknown_registry`, `C178_other_kwargs`, `C178_gym`, `C179_brax_partial`, `C179_dropped_refuted`, `C18_compare_solutions`, `C18_strict_weak_order`, `C18_objective_needed`, `C180_done_partial`, `C180_truncated_refuted`, `C180_seed`, `C181_on_device_partial`, `C181_no_device`, `C181_strings_refuted`, `C182_float_partial`, `C182_no_tolerance`, `C182_integers_refuted`, `C183_float_partial`, `C183_nan`, `C183_integers_refuted`, `C184_float_partial`, `C184_integers_refuted`, `C184_scalar_refuted`, `C184_shape_dtype`, `C185_configured_partial`, `C185_kept`, `C185_override_refuted`, `C185_repeated_refuted`, `C186_callable`, `C187_vec_strings`, `C187_gym_strings_partial`, `C187_gym_override_refuted`, `C188_same_partial`, `C188_names_refuted`, `C188_round_trip`, `C189_kinds_partial`, `C189_bfloat16_refuted`, `C189_disjoint`, `C19_evaluations_never_stale`, `C19_evaluation_is_current`, `C19_kept_handle_refuted`, `C190_vectors_partial`, `C190_not_vectors`, `C190_empty_refuted`, `C190_objects_refuted`, `C190_sequences`, `C191_copy_partial`, `C191_torch_refuted`, `C192_shallow`, `C192_cut`, `C192_depth`, `C192_marks`, `C193_tree_partial`, `C193_size_refuted`, `C194_best_partial`, `C194_misfit_refuted`, `C194_mean_refuted`, `C195_vec`, `C195_gym_partial`, `C195_fresh_refuted`, `C196_no_leak`, `C196_settings`, `C20_problem_objective_index`, `C20_row_index`, `C20_batch_objective_index_partial`, `C20_batch_objective_index_refuted`, `C20_solution_index_partial`, `C20_solution_index_refuted`, `C202_ga_partial`, `C202_cosyne_partial`, `C202_crossover`, `C202_ranks`, `C202_multi_objective_refuted`, `C202_mapelites_partial`, `C202_mapelites_infinity_refuted`, `C206_ga_partial`, `C206_cosyne_partial`, `C206_map_elites`, `C206_crossover`, `C206_batch`, `C206_order_partial`, `C206_order_refuted`, `C206_best_ever`, `C206_compare`, `C207_selection`, `C207_run`, `C208_once`, `C208_together_partial`, `C208_together_refuted`, `C208_mapelites`, `C209_elites`, `C21_linear`, `C21_centered`, `C210_run`, `C210_cosyne`, `C210_mapelites`, `C213_narrow_partial`, `C213_overflow_refuted`, `C215_nearly_uniform`, `C215_every_value_partial`, `C215_every_value_refuted`, `C215_randint_uniform`, `C215_every_bool_and_float`, `C218_run`, `C218_seed`, `C218_others_undisturbed`, `C218_gymne`, `C218_vecgymne_refuted`, `C22_modify_tensor`, `C22_between_is_nearest`, `C22_modify_vector`, `C220_record`, `C220_ga`, `C220_cosyne`, `C220_mapelites`, `C221_ga`, `C221_hall_of_fame`, `C222_never_ends_refuted`, `C223_longest_chain`, `C223_order_independent`, `C223_another_solution`, `C224_gaussian`, `C224_cmaes_partial`, `C224_cmaes_length_one_refuted`, `C228_divisions`, `C228_products_partial`, `C228_fraction_partial`, `C228_fraction_refuted`, `C228_quotas_partial`, `C228_quotas_refuted`, `C228_quotas_enough`, `C228_tournaments`, `C228_models`, `C23_sigma_history`, `C23_sigma_step`, `C230_rounding`, `C230_order`, `C230_in_dtype`, `C230_close`, `C230_sum_partial`, `C230_sum_refuted`, `C230_crowded_refuted`, `C231_episode`, `C231_always_ends`, `C231_in_time`, `C231_evaluation`, `C231_forever`, `C234_copy_partial`, `C234_rejected`, `C234_shift_refuted`, `C235_terminates`, `C235_equal_partial`, `C235_different_partial`, `C235_converse_partial`, `C235_contains_partial`, `C235_pickle_partial`, `C235_raises_refuted`, `C235_tuple_refuted`, `C235_keys_refuted`, `C235_contains_refuted`, `C235_pickle_refuted`, `C24_zero_stdev_refuted`, `C24_tells_partial`, `C24_change_partial`, `C24_arguments_partial`, `C25_uniform_int_partial`, `C25_default_int`, `C25_randint`, `C25_uniform_bool`, `C25_uniform_float`, `C25_default_float`, `C25_one_bound_rejected`, `C25_refuted`, `C25_full_range_fails`, `C26_make_gaussian`, `C26_functional`, `C26_odd_rejected`, `C28_only_none`, `C28_mappings_merged`, `C28_sequences_joined`, `C28_mixture_raises`, `C28_exception_propagates`, `C28_arguments`, `C28_accumulate`, `C29_at_most_once`, `C29_reads_agree`, `C29_stored_value`, `C29_fresh_after_clear`, `C29_getters`, `C29_keys`, `C30_run`, `C30_interrupted_run`, `C31_interval`, `C31_pickling`, `C32_multi_point`, `C32_one_point`, `C32_constructor`, `C33_cut_and_splice`, `C33_material_conserved`, `C34_columns_permuted`, `C36_single_objective`, `C36_multi_objective`, `C36_number_of_children`, `C36_both_refused`, `C37_size`, `C37_progress`, `C37_elitism_monotone`, `C37_best_never_worse`, `C38_archive`, `C38_never_worse`, `C38_progress`, `C39_cover`, `C39_boundaries_partial`, `C39_reversed_bounds_refuted`, `C43_accepted_iff`, `C43_parameters`, `C43_write_read`, `C43_read_write`, `C43_slices_partition`, `C44_parenthesisation`, `C44_order`, `C44_first_error`, `C44_refused`, `C44_nesting`, `C45_alone`, `C45_number_of_ends`, `C45_wrong_number_of_actions`, `C45_seed_used_once`, `C46_vectorised_score`, `C46_scalar_score`, `C46_agree`, `C46_terminates`, `C48_original`, `C48_clone_partial`, `C48_clone_refuted`, `C49_as_immutable`, `C49_idempotent`, `C49_rejected_keys`, `C49_round_trip_partial`, `C49_tuple_refuted`, `C49_tuple_key_refuted`, `C49_set_refuted`, `C50_deep_clone_partial`, `C50_flags`, `C50_tuple_cycle_refuted`, `C50_object_ndarray_refuted`, `C50_read_only_refuted`, `C51_read_only_partial`, `C51_rejected`, `C51_read`, `C51_slice`, `C51_view`, `C51_write`, `C51_selection`, `C51_copy`, `C51_from_objects`, `C51_immutable`, `C51_refuted`, `C52_batched`, `C52_raises`, `C52_mismatch`, `C52_too_few_dimensions`, `C52_rowwise`, `C53_actor_seeds_distinct`, `C53_actor_seeds_in_range`, `C54_adaptive_popsize`, `C54_terminates_with_maximum`, `C54_remote_loop_agrees`, `C54_maximum_exceeded_refuted`, `C55_elites`, `C57_stream_partial`, `C57_stream_exists_partial`, `C57_epoch_partial`, `C57_actors_refuted`, `C58_ipop`, `C58_integer_multiplier`, `C58_plain`, `C59_registry`, `C60_fill`, `C60_empty`, `C60_objects`, `C60_random_partial`, `C60_randint_partial`, `C60_identity`, `C60_free_functions`, `C60_into_out`, `C60_conflicting_sizes`, `C60_conflicting_dtypes`, `C60_out_ignores_refuted`, `C60_empty_out_refuted`, `C60_randint_eval_refuted`, `C60_dtype_name_refuted`, `C60_exception_returned_refuted`, `C61_copies_partial`, `C61_roundtrip_partial`, `C61_roundtrip_batched`, `C61_rejected`, `C61_start_refuted`, `C61_scalar_box_refuted`, `C61_large_refuted`, `C62_clist_masked_clear_refuted`, `C62_cdict_masked_clear_refuted`, `C63_xnes_distributed_refuted`, `C63_vector_gradients_partial`, `C64_own_generator_refuted`, `C64_global_generator_partial`, `C65_nan_status_refuted`, `C65_nan_taken_first_refuted`, `C65_minimisation_partial`, `C66_set_evals_writes`, `C66_set_evals_accepts`, `C66_forget_evals`, `C66_is_evaluated`, `C67_utility_order`, `C68_crowding_distance`, `C69_single_fitness_refuted`, `C82_optimizer_refuted`, `C87_status_partial`, `C87_status_after_restart_refuted`, `C90_children_partial`, `C90_small_rate_refuted`, `C90_single_gene_refuted`, `C91_evaluated_partial`, `C91_stale_parents_refuted`, `C91_multi_objective_refuted`, `C92_replacement_partial`, `C92_worst_are_kept_refuted`, `C93_cosyne_partial`, `C93_cosyne_progress_partial`, `C93_constructor`, `C93_small_population_refuted`, `C94_parents_are_evaluated`, `C94_constructor`, `C94_steady`, `C95_ordinary_partial`, `C95_infinite_fitness_refuted`, `C95_nan_fitness_refuted`, `C96_shape_partial`, `C96_short_bins_refuted`

**`ClassicalDedekindReals.sig_forall_dec`**:

`C103_other_stats_partial`, `C103_own_stats_refuted`, `C42_callers_arrays_partial`, `C42_alias_refuted`

**`ClassicalDedekindReals.sig_forall_dec`, `ClassicalDedekindReals.sig_not_dec`, `Classical_Prop.classic`, `FunctionalExtensionality.functional_extensionality_dep`**:

`C100_rates_used_partial`, `C100_explicit_rate_refuted`, `C101_center`, `C101_better_ranked_weighs_more`, `C101_step_size_positive`, `C148_forward`, `C148_refused`, `C149_forward`, `C149_bounded`, `C201_coordinates`, `C201_chain`, `C203_path`, `C203_step_size`, `C203_default_rates`, `C204_stall_partial`, `C204_stall_refuted`, `C206_rankings`, `C209_rankings`, `C209_cmaes`, `C21_nes`, `C21_order_only`, `C21_monotone_transformation`, `C21_sense`, `C210_crossovers`, `C210_mutations`, `C210_polynomial_partial`, `C210_fixed_refuted`, `C211_nes`, `C211_defaults_refuted`, `C212_same_paths`, `C212_diagonal_partial`, `C212_stalled_refuted`, `C212_active_refuted`, `C214_bounded`, `C217_snes`, `C217_cmaes`, `C217_xnes`, `C219_polynomial`, `C219_upper_bound`, `C219_sbx`, `C219_generation_polynomial`, `C27_penalty`, `C27_monotone`, `C27_errors`, `C27_zero_exponent`, `C27_negative_exponent`, `C34_permute_all`, `C34_selection`, `C35_mean_preserved`, `C35_bounds`, `C56_weights`, `C56_symmetric`, `C72_monotone`, `C72_violated`, `C72_satisfied`, `C79_relative_entropy`, `C86_plain`, `C86_exponential`, `C88_inside_partial`, `C88_fixed_variable_refuted`, `C97_positive_definite`, `C97_default_rates`, `C97_default_popsize`, `C97_defaults`, `C98_upper_limit_refuted`, `C99_separable_large_population_refuted`

**`ClassicalDedekindReals.sig_forall_dec`, `ClassicalDedekindReals.sig_not_dec`, `FunctionalExtensionality.functional_extensionality_dep`**:

`C102_normalize`, `C102_standardizes`, `C102_layer`, `C102_batch`, `C102_update_and_normalize`, `C233_run_first_refuted`, `C233_kill_refuted`, `C122_class`, `C122_functional`, `C122_agree`, `C122_amsgrad`, `C122_amsgrad_cautious`, `C123_bounded`, `C123_constant`, `C123_scale`, `C124_class`, `C124_agree`, `C125_effect_partial`, `C125_dampening_refuted`, `C126_class`, `C126_functional_partial`, `C126_dtype_refuted`, `C127_change_partial`, `C127_positive_partial`, `C127_range_partial`, `C127_negative_refuted`, `C127_accepts`, `C128_change_partial`, `C128_positive_partial`, `C128_range_partial`, `C128_zero_refuted`, `C128_accepts`, `C140_gym_partial`, `C140_training_refuted`, `C140_vectorized`, `C140_bounds`, `C141_no_normalization_partial`, `C141_twice_refuted`, `C150_forward`, `C150_reset`, `C151_clock_partial`, `C151_restart_refuted`, `C199_units`, `C199_units_sgd`, `C200_unit_clipup`, `C200_unit_adam`, `C205_rate_partial`, `C205_clipup_partial`, `C205_adam_partial`, `C205_sgd_partial`, `C205_cem_refuted`, `C205_snes_refuted`, `C209_values`, `C209_search`, `C209_weights`, `C211_same_search_partial`, `C214_lstm`, `C216_plain`, `C216_mirrored`, `C216_quadratic`, `C217_center`, `C217_pgpe`, `C217_cem`, `C222_partial`, `C222_between_partial`, `C222_fewer_solutions_than_tasks_refuted`, `C222_single_solutions_refuted`, `C225_clipup`, `C225_clipup_straight`, `C225_adam`, `C226_difference`, `C226_equal_means_partial`, `C226_blind_refuted`, `C227_inside`, `C227_collapse`, `C227_frozen`, `C229_common_effects`, `C229_search`, `C23_search`, `C232_gradient`, `C232_rate`, `C232_sgd`, `C232_adam`, `C232_clipup_refuted`, `C232_ranked_refuted`, `C233_clones_partial`, `C233_stale_refuted`, `C40_class`, `C40_functional`, `C40_step`, `C40_agree`, `C41_statistics`, `C42_empty_mask_refuted`, `C47_statistics`, `C47_vectorized_partial`, `C47_idle_actor_refuted`, `C55_center_and_stdev`, `C69_constant_fitness_refuted`, `C69_finite_partial`, `C70_normalized`, `C70_affine_invariance`, `C71_one_elite_refuted`, `C71_two_elites_partial`, `C73_direction_only`, `C74_zero_gradient_refuted`, `C74_functional_refuted`, `C74_nonzero_partial`, `C75_moves_backwards_refuted`, `C76_offset`, `C76_equal_fitnesses`, `C77_half`, `C78_translation`, `C78_dilation`, `C80_exponential_partial`, `C80_additive_refuted`, `C98_limits_hold`, `C98_limits_keep_positive_definite_partial`

**`ClassicalDedekindReals.sig_forall_dec`, `FunctionalExtensionality.functional_extensionality_dep`**:

`C104_counters_partial`, `C104_run_forgotten_refuted`, `C122_rejected`, `C124_functional`, `C146_bin_partial`, `C146_middle_refuted`, `C147_clip`, `C147_round`, `C158_reused_refuted`, `C158_fresh_partial`, `C197_affine`, `C197_moved_exists`, `C198_score`, `C209_xnes`, `C209_ties`, `C214_rnn`, `C219_gaussian`, `C219_generation_gaussian`, `C27_violation`, `C41_order_and_grouping`, `C42_masked_rows_partial`, `C42_empty_mask_partial`, `C42_masked_nan_refuted`, `C47_distribution`, `C75_constructor_partial`, `C75_set_then_get_partial`, `C75_refuted`, `C81_inverse`, `C82_never_used_refuted`, `C82_learning_rate_partial`, `C83_stale_rate_refuted`, `C83_fresh_partial`, `C84_refuted`, `C84_cov_partial`, `C85_assigned_sigma_refuted`, `C85_constructed_partial`, `C89_gaussian_mutation`

**`FunctionalExtensionality.functional_extensionality_dep`**:

`C196_cem`, `C196_pgpe_sgd`, `C196_pgpe_clipup`, `C196_pgpe_adam`

