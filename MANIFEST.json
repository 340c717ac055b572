{
 "claims": [
  {
   "property": "C01",
   "status": "proved",
   "theorems": [
    "C01_clist_is_bounded_deque"
   ],
   "note": "Refinement of CList (any capacity >= 2, any batch, any history) to bounded queues."
  },
  {
   "property": "C02",
   "status": "proved",
   "theorems": [
    "C02_clist_items_independent",
    "C02_clist_masked_items_untouched"
   ],
   "note": "Lane-wise simulation over whole error-free histories; masked items bitwise unchanged."
  },
  {
   "property": "C03",
   "status": "partial",
   "theorems": [
    "C03_capacity_one_refuted",
    "C03_index_max_length_refuted",
    "C03_append_not_exception_safe_refuted",
    "C01_clist_is_bounded_deque"
   ],
   "note": "False of the code: refuted for every element type/value/batch (capacity one) and every capacity >= 2 (index = max_length). The true guarded statement is C01."
  },
  {
   "property": "C04",
   "status": "proved",
   "theorems": [
    "C04_cmemory_is_array_of_cells",
    "C04_masked_key_refuted"
   ],
   "note": "Refinement to total maps of cells. The refutation shows why keys of masked-out items must be within one key range."
  },
  {
   "property": "C05",
   "status": "partial",
   "theorems": [
    "C05_multiply_adds_refuted",
    "C05_masked_scaling_partial"
   ],
   "note": "False without a mask: multiply_ equals add_ for every non-boolean memory. Proved with a mask."
  },
  {
   "property": "C06",
   "status": "partial",
   "theorems": [
    "C06_unequal_batch_dims_refuted",
    "C06_square_batch_reads_diagonal_refuted",
    "C06_read_after_write_refuted",
    "C06_single_row_partial"
   ],
   "note": "False for every two-dimensional batch shape with both sizes >= 2. True with a single row."
  },
  {
   "property": "C07",
   "status": "proved",
   "theorems": [
    "C07_cdict_is_finite_map",
    "C07_fresh_cdict_refuted"
   ],
   "note": "Refinement to partial maps after a clear(). The refutation shows the clear() is needed."
  },
  {
   "property": "C08",
   "status": "proved",
   "theorems": [
    "C08_cbag_conserves_elements",
    "C08_unbatched_pop_refuted",
    "C08_low_range_refuted"
   ],
   "note": "Monitor + multiset conservation for every history and every noise. Refutations: unbatched bags and ranges starting above 1."
  },
  {
   "property": "C09",
   "status": "proved",
   "theorems": [
    "C09_split_workload_even"
   ],
   "note": ""
  },
  {
   "property": "C10",
   "status": "proved",
   "theorems": [
    "C10_split_by_count",
    "C10_split_by_max_size",
    "C10_slice_is_rows"
   ],
   "note": ""
  },
  {
   "property": "C100",
   "status": "partial",
   "theorems": [
    "C100_rates_used_partial",
    "C100_explicit_rate_refuted"
   ],
   "note": "With the default limit_C_decomposition=True a numeric c_1 or c_mu makes the constructor raise AttributeError; true with limit_C_decomposition=False or without explicit rates."
  },
  {
   "property": "C101",
   "status": "proved",
   "theorems": [
    "C101_center",
    "C101_better_ranked_weighs_more",
    "C101_step_size_positive"
   ],
   "note": ""
  },
  {
   "property": "C102",
   "status": "proved",
   "theorems": [
    "C102_normalize",
    "C102_standardizes",
    "C102_layer",
    "C102_batch",
    "C102_update_and_normalize"
   ],
   "note": "Real arithmetic."
  },
  {
   "property": "C103",
   "status": "partial",
   "theorems": [
    "C103_other_stats_partial",
    "C103_own_stats_refuted"
   ],
   "note": "False of the code: get_observation_stats returns the live object, and setting it again resets it first, so all statistics are lost. Proved for any other object."
  },
  {
   "property": "C104",
   "status": "partial",
   "theorems": [
    "C104_counters_partial",
    "C104_run_forgotten_refuted",
    "C233_run_first_refuted",
    "C233_kill_refuted"
   ],
   "note": "Totals over the parallel evaluations are right once the actors exist (see C233 for steps made before that and for killed actors); steps run by the main problem itself (run with update_stats=True) are forgotten at the next parallel evaluation, and the counter can decrease."
  },
  {
   "property": "C105",
   "status": "partial",
   "theorems": [
    "C105_rejected_vector_partial",
    "C105_rejected_vector_refuted"
   ],
   "note": "False of the code: parameters are overwritten one after the other before the length is found to be wrong. Proved: shapes and all other tensors stay, and nothing changes when the vector is too short for the first parameter."
  },
  {
   "property": "C106",
   "status": "proved",
   "theorems": [
    "C106_flat_module",
    "C106_same_parameters"
   ],
   "note": ""
  },
  {
   "property": "C107",
   "status": "partial",
   "theorems": [
    "C107_errors_partial",
    "C107_attribute_refuted"
   ],
   "note": "False of the code for a class named through an attribute (nn.Linear(...)): AttributeError. Proved when every call names its class directly."
  },
  {
   "property": "C108",
   "status": "proved",
   "theorems": [
    "C108_namespaces",
    "C108_more_constants"
   ],
   "note": ""
  },
  {
   "property": "C109",
   "status": "partial",
   "theorems": [
    "C109_composition_partial",
    "C109_plain_sequential_partial",
    "C109_sequential_refuted"
   ],
   "note": "False of the code when A is a torch Sequential whose layers pass tuples: it is taken apart into its layers. Proved for all other modules, and for Sequentials of plain layers."
  },
  {
   "property": "C11",
   "status": "proved",
   "theorems": [
    "C11_parallel_equals_sequential"
   ],
   "note": "Any completion order, any splitting setting; the user function acts row by row."
  },
  {
   "property": "C110",
   "status": "proved",
   "theorems": [
    "C110_reset",
    "C110_failed_call"
   ],
   "note": ""
  },
  {
   "property": "C111",
   "status": "proved",
   "theorems": [
    "C111_snapshot",
    "C111_available"
   ],
   "note": ""
  },
  {
   "property": "C112",
   "status": "partial",
   "theorems": [
    "C112_built_partial",
    "C112_actors_partial",
    "C112_given_network_refuted"
   ],
   "note": "False of the code without actors for a network object: the last solution of the batch is written into it. Proved for strings and callables, and with actors as long as make_net is not called."
  },
  {
   "property": "C113",
   "status": "partial",
   "theorems": [
    "C113_checked_partial",
    "C113_action_shapes_refuted"
   ],
   "note": "False of the code for Box action spaces, whose shapes are never compared. Proved for everything else that is compared."
  },
  {
   "property": "C114",
   "status": "partial",
   "theorems": [
    "C114_slice_assignment_partial",
    "C114_id_reuse_refuted"
   ],
   "note": "Proved when the ids of the given values tell them apart (as for the items of a list). False otherwise: the memo is keyed by id() of objects which may be gone, so that values made while iterating (such as rows of an array) can be confused."
  },
  {
   "property": "C115",
   "status": "partial",
   "theorems": [
    "C115_repeat_partial",
    "C115_integer_refuted"
   ],
   "note": "Proved for a tuple of sizes, for arrays without writable arrays inside. repeat(n) with an integer, as in the documentation, always raises TypeError."
  },
  {
   "property": "C116",
   "status": "partial",
   "theorems": [
    "C116_scalars_partial",
    "C116_no_tensor",
    "C116_undeclared_refuted"
   ],
   "note": "Proved if all tensors among the arguments agree. False of the code: tensors passed for arguments declared with None are counted too (the check at decorators.py:713 looks at a wrong variable)."
  },
  {
   "property": "C117",
   "status": "partial",
   "theorems": [
    "C117_arguments_partial",
    "C117_dropped_refuted"
   ],
   "note": "Proved for calls with as many arguments as declared. False otherwise: arguments beyond the declared ones are dropped without an error."
  },
  {
   "property": "C118",
   "status": "partial",
   "theorems": [
    "C118_independent",
    "C118_fresh_partial",
    "C118_recurrent",
    "C118_single",
    "C118_determined",
    "C118_fresh_refuted"
   ],
   "note": "Proved, for all histories, with a reset of chosen networks setting their hidden states to 0; that this makes them as new holds for networks whose initial hidden state is 0 (proved of RNN and LSTM), and is false for every other network. The caller passes new tensors at each call (see C119 for what happens otherwise)."
  },
  {
   "property": "C119",
   "status": "partial",
   "theorems": [
    "C119_untouched_partial",
    "C119_only_parameters",
    "C119_parameters_refuted"
   ],
   "note": "Proved for calls, for reset with copy=True, and for set_parameters without indices. False: set_parameters with indices writes into the tensor which the caller passed to an earlier set_parameters."
  },
  {
   "property": "C12",
   "status": "proved",
   "theorems": [
    "C12_weighted_average",
    "C12_uniform_average",
    "C12_order_independent",
    "C12_convex",
    "C12_mean_eval_is_global_mean",
    "C12_tasks_sum",
    "C12_tasks_even",
    "C12_quotas_reach_total"
   ],
   "note": "Exact rational arithmetic."
  },
  {
   "property": "C120",
   "status": "partial",
   "theorems": [
    "C120_reset",
    "C120_invalid",
    "C120_tuple_refuted"
   ],
   "note": "Proved for lists and tensors of integers or booleans. False for tuples of integers, which torch takes as one multi-dimensional index."
  },
  {
   "property": "C121",
   "status": "proved",
   "theorems": [
    "C121_combined"
   ],
   "note": ""
  },
  {
   "property": "C122",
   "status": "proved",
   "theorems": [
    "C122_class",
    "C122_functional",
    "C122_agree",
    "C122_rejected",
    "C122_amsgrad",
    "C122_amsgrad_cautious"
   ],
   "note": ""
  },
  {
   "property": "C123",
   "status": "proved",
   "theorems": [
    "C123_bounded",
    "C123_constant",
    "C123_scale"
   ],
   "note": ""
  },
  {
   "property": "C124",
   "status": "proved",
   "theorems": [
    "C124_class",
    "C124_functional",
    "C124_agree"
   ],
   "note": ""
  },
  {
   "property": "C125",
   "status": "partial",
   "theorems": [
    "C125_effect_partial",
    "C125_dampening_refuted"
   ],
   "note": "Proved for every dampening other than 1. False for dampening=True, documented as activating dampening: it reaches torch as 1.0, and with momentum all gradients but the first are then ignored."
  },
  {
   "property": "C126",
   "status": "partial",
   "theorems": [
    "C126_class",
    "C126_functional_partial",
    "C126_dtype_refuted"
   ],
   "note": "Proved for the class-based algorithms, and for the functional ones when the center is on the cpu and its dtype absorbs the default dtype. False for the functional ones with radius_init: a float16 or bfloat16 center gets float32 standard deviations, and a center on another device raises RuntimeError. Batches of radii are not modelled."
  },
  {
   "property": "C127",
   "status": "partial",
   "theorems": [
    "C127_change_partial",
    "C127_positive_partial",
    "C127_range_partial",
    "C127_negative_refuted",
    "C127_accepts"
   ],
   "note": "sampling, evaluation and gradient estimation are parameters shared by both interfaces; real arithmetic; the agreement is proved under each of three conditions on the limits and refuted without limits"
  },
  {
   "property": "C128",
   "status": "partial",
   "theorems": [
    "C128_change_partial",
    "C128_positive_partial",
    "C128_range_partial",
    "C128_zero_refuted",
    "C128_accepts"
   ],
   "note": "as C127"
  },
  {
   "property": "C129",
   "status": "proved",
   "theorems": [
    "C129_sampler",
    "C129_sampler_rejected",
    "C129_sampler_order",
    "C130_construction"
   ],
   "note": "the wrapped class (constructor, sampling, static sampler) is a parameter; unbatched calls"
  },
  {
   "property": "C13",
   "status": "proved",
   "theorems": [
    "C13_ranks_are_front_numbers",
    "C13_fronts_partition",
    "C13_fronts_sorted_by_distance"
   ],
   "note": "Batches without NaN (with NaN the code raises ValueError)."
  },
  {
   "property": "C130",
   "status": "proved",
   "theorems": [
    "C130_unbound",
    "C130_bound",
    "C130_compose",
    "C130_order",
    "C130_rejected",
    "C130_construction"
   ],
   "note": "the wrapped class is a parameter; unbatched calls"
  },
  {
   "property": "C131",
   "status": "proved",
   "theorems": [
    "C131_class",
    "C131_static"
   ],
   "note": "rational arithmetic; solution_length, device and dtype not modelled; torch.normal(mu, sigma) is sigma times standard noise plus mu"
  },
  {
   "property": "C132",
   "status": "partial",
   "theorems": [
    "C132_initial_partial",
    "C132_accepted",
    "C132_outside_refuted"
   ],
   "note": "Between the initial bounds: proved. Between the strict bounds: proved when the initial bounds are missing or lie inside them; false otherwise, since nothing relates the two (C132_outside_refuted). Real arithmetic, floating-point dtypes, bounds representable in the dtype."
  },
  {
   "property": "C133",
   "status": "partial",
   "theorems": [
    "C133_senses_partial",
    "C133_sequences_rejected",
    "C133_invalid_refuted"
   ],
   "note": "Proved for sequences of senses and for valid single senses. False of a single sense: any string is accepted."
  },
  {
   "property": "C134",
   "status": "partial",
   "theorems": [
    "C134_actors_partial",
    "C134_num_devices_refuted"
   ],
   "note": "Proved except for num_actors='num_devices' on a device other than the cpu, where the constructor always fails (None >= 2)."
  },
  {
   "property": "C135",
   "status": "partial",
   "theorems": [
    "C135_seeds_partial",
    "C135_own_generator_refuted"
   ],
   "note": "Proved for problems without a generator of their own. With one (the argument seed), no actor starts: it calls the method seed, which Problem does not have."
  },
  {
   "property": "C136",
   "status": "partial",
   "theorems": [
    "C136_protected_partial",
    "C136_raises",
    "C136_function_refuted",
    "C136_tuple_refuted",
    "C136_numpy_refuted"
   ],
   "note": "proved for programs that avoid the listed ways round; false of the code for torch functions that work in place (torch.relu_(x)), for a tuple of outputs, and for torch.from_numpy(x.numpy())"
  },
  {
   "property": "C137",
   "status": "partial",
   "theorems": [
    "C137_clone_partial",
    "C137_slices",
    "C137_deepcopy_refuted"
   ],
   "note": "clone, slices and reshapes proved; deepcopy gives a read-only tensor although the documentation of the class says a regular one"
  },
  {
   "property": "C138",
   "status": "partial",
   "theorems": [
    "C138_copy_partial",
    "C138_shares_refuted"
   ],
   "note": "true for Python sequences and when dtype or device are converted; otherwise read_only_tensor shares the memory of its source, like as_read_only_tensor"
  },
  {
   "property": "C139",
   "status": "partial",
   "theorems": [
    "C139_regular_partial",
    "C139_becomes_read_only_refuted"
   ],
   "note": "false of the code: the default conversion of results by torch turns the variable into a read-only tensor"
  },
  {
   "property": "C14",
   "status": "proved",
   "theorems": [
    "C14_take_best_respects_fronts"
   ],
   "note": "Combined ranks are computed exactly (rationals) in the model, in float32 in the code."
  },
  {
   "property": "C140",
   "status": "partial",
   "theorems": [
    "C140_gym_partial",
    "C140_training_refuted",
    "C140_vectorized",
    "C140_bounds"
   ],
   "note": "proved for policies put into evaluation mode by the user; as returned by GymNE.to_policy after an evaluation, the module is in training mode while rollouts use evaluation mode"
  },
  {
   "property": "C141",
   "status": "partial",
   "theorems": [
    "C141_no_normalization_partial",
    "C141_twice_refuted"
   ],
   "note": "true without observation normalization; with collected statistics the observations are normalized twice"
  },
  {
   "property": "C142",
   "status": "partial",
   "theorems": [
    "C142_reports_partial",
    "C142_unevaluated_refuted"
   ],
   "note": "proved for evaluated populations, provided pop_best is not excluded and neither the problem nor hooks store items under these names; if some solution is unevaluated, pop_best is such a solution and pop_best_eval is None"
  },
  {
   "property": "C143",
   "status": "partial",
   "theorems": [
    "C143_keys_partial",
    "C143_string_refuted",
    "C143_gaussian_refuted"
   ],
   "note": "proved for exclusions given as several names; a single string excludes nothing (its characters are excluded), so GaussianSearchAlgorithm's exclude='mean_eval' has no effect and reading mean_eval before the first step raises AttributeError"
  },
  {
   "property": "C144",
   "status": "partial",
   "theorems": [
    "C144_contents",
    "C144_errors",
    "C144_files",
    "C144_directory_partial",
    "C144_directory_refuted"
   ],
   "note": "an absolute file name given to save is used as it is, outside the configured directory"
  },
  {
   "property": "C145",
   "status": "partial",
   "theorems": [
    "C145_stdout",
    "C145_groups",
    "C145_mlflow_partial",
    "C145_mlflow_refuted"
   ],
   "note": "leading keys without duplicates; for a logger attached after some generations, the step is the number of its calls and not the number of the generation"
  },
  {
   "property": "C146",
   "status": "partial",
   "theorems": [
    "C146_bin_partial",
    "C146_middle_refuted"
   ],
   "note": "Values closer to one of the bounds go to that bound, for bounds in either order. A value in the middle stays where it is and equals neither bound (refuted for all distinct bounds). lb = ub divides by zero and is not modelled."
  },
  {
   "property": "C147",
   "status": "proved",
   "theorems": [
    "C147_clip",
    "C147_round"
   ],
   "note": "Real arithmetic."
  },
  {
   "property": "C148",
   "status": "proved",
   "theorems": [
    "C148_forward",
    "C148_refused"
   ],
   "note": "Real arithmetic; one input vector at a time; activation functions without parameters."
  },
  {
   "property": "C149",
   "status": "proved",
   "theorems": [
    "C149_forward",
    "C149_bounded"
   ],
   "note": "Real arithmetic; one input vector at a time."
  },
  {
   "property": "C15",
   "status": "partial",
   "theorems": [
    "C15_take_best_refuted",
    "C15_take_best_partial"
   ],
   "note": "False of the code: the permutation returned by argsort is used as if it held ranks; proved when that permutation is its own inverse."
  },
  {
   "property": "C150",
   "status": "proved",
   "theorems": [
    "C150_forward",
    "C150_reset"
   ],
   "note": "Real arithmetic; one input vector at a time."
  },
  {
   "property": "C151",
   "status": "partial",
   "theorems": [
    "C151_clock_partial",
    "C151_restart_refuted"
   ],
   "note": "A rollout resets the StatefulModule wrapper only, and the wrapper does not reset the network it wraps; moreover one network serves all evaluations. Proved: an episode starts with the timestep that counts all steps of all earlier episodes and evaluations. Refuted for every architecture and every episode length: there are parameters with which the first action of the second evaluation of the same solution differs."
  },
  {
   "property": "C152",
   "status": "proved",
   "theorems": [
    "C152_malformed",
    "C152_classic",
    "C152_same",
    "C152_passthrough",
    "C152_scalar"
   ],
   "note": "A floating point flag counts as set if its magnitude exceeds 1e-4 in the wrapper (as documented) and if it is not zero in take_step_in_env. Array conversions are taken to keep values."
  },
  {
   "property": "C153",
   "status": "proved",
   "theorems": [
    "C153_sent",
    "C153_clipped",
    "C153_scores"
   ],
   "note": "torch.argmax is any function returning a position of a largest element. NaN actions are not modelled."
  },
  {
   "property": "C154",
   "status": "proved",
   "theorems": [
    "C154_attributes",
    "C154_answers"
   ],
   "note": "Tensors and bytes do not contain other objects. If there are both a mismatch and an unrecognized object, either exception may be raised."
  },
  {
   "property": "C155",
   "status": "partial",
   "theorems": [
    "C155_cast_partial",
    "C155_immutable_set_refuted",
    "C155_tuple_cycle_refuted"
   ],
   "note": "False of the code: an immutable set becomes a list, and a cycle through a tuple is not reproduced. True for containers without these (and of the recognized mutable kinds). Read-only tensors, arrays and ObjectArrays are not covered by the positive theorem."
  },
  {
   "property": "C156",
   "status": "proved",
   "theorems": [
    "C156_cast_then_ask"
   ],
   "note": ""
  },
  {
   "property": "C157",
   "status": "partial",
   "theorems": [
    "C157_new_partial",
    "C157_mixed_refuted",
    "C157_modify_partial",
    "C157_modify_refuted",
    "C157_to",
    "C157_names"
   ],
   "note": "False of the code: if the given parameters have different dtypes, ValueError is raised even if a dtype is requested to which they can be cast, because the default of the lookup is evaluated in any case. True for parameters of one dtype and device. modified_copy is treated with one replaced parameter."
  },
  {
   "property": "C158",
   "status": "partial",
   "theorems": [
    "C158_reused_refuted",
    "C158_fresh_partial"
   ],
   "note": "False of the code: the constructor writes sigma_inv into the dictionary of the caller, and a new sigma put into the same dictionary is then used with the old inverse. True for dictionaries without sigma_inv."
  },
  {
   "property": "C159",
   "status": "proved",
   "theorems": [
    "C159_evaluations",
    "C159_refused",
    "C159_refused_vectorized"
   ],
   "note": ""
  },
  {
   "property": "C16",
   "status": "proved",
   "theorems": [
    "C16_argsort_best_to_worst",
    "C16_argbest",
    "C16_argworst",
    "C16_take_best",
    "C16_index_optional"
   ],
   "note": "For every function that sorts like torch.argsort (ties in any order); evaluations may be infinite."
  },
  {
   "property": "C160",
   "status": "proved",
   "theorems": [
    "C160_made",
    "C160_values",
    "C160_status",
    "C160_refused"
   ],
   "note": "The batch of the evaluator is uninitialised memory in the model (an arbitrary function)."
  },
  {
   "property": "C161",
   "status": "partial",
   "theorems": [
    "C161_problem",
    "C161_like_partial",
    "C161_like_refuted",
    "C161_exclusive",
    "C161_to_device"
   ],
   "note": "False of the code: a batch made like another one without empty=True always raises AttributeError, because the method which would fill it does not exist. The other parts hold."
  },
  {
   "property": "C162",
   "status": "partial",
   "theorems": [
    "C162_uniform",
    "C162_gaussian",
    "C162_refused",
    "C162_center_omitted_refuted"
   ],
   "note": "False of the code: stdev without center always raises ValueError, although a sampled center is documented. The other parts hold."
  },
  {
   "property": "C163",
   "status": "partial",
   "theorems": [
    "C163_cat_partial",
    "C163_refused",
    "C163_stretched_refuted",
    "C163_senses_refuted"
   ],
   "note": "False of the code: solutions of length 1 are stretched to the length of the first batch, and senses are not compared. True for batches of the same solution length and number of evaluation columns; other mismatches of solution lengths are refused."
  },
  {
   "property": "C164",
   "status": "partial",
   "theorems": [
    "C164_empty",
    "C164_filled",
    "C164_random_partial",
    "C164_integers_refuted",
    "C164_booleans_refuted",
    "C164_named_refuted",
    "C164_randint_eval_refuted",
    "C164_conflicts"
   ],
   "note": "False of the code for the random makers: dtypes given by name raise TypeError, and make_randint with use_eval_dtype always raises ValueError. Integer dtypes cannot be filled with NaN or Gaussian numbers (RuntimeError). True for empty, zeros, ones, nan, and for the random makers with torch dtypes."
  },
  {
   "property": "C165",
   "status": "partial",
   "theorems": [
    "C165_fill_partial",
    "C165_draw",
    "C165_refused",
    "C165_ignored_refuted",
    "C165_empty_out_refuted",
    "C165_no_dimensions_refuted"
   ],
   "note": "False of the code: the methods of objects silently ignore size, num_solutions, dtype, device and use_eval_dtype if out is given; make_empty with out always raises TypeError; tensors without dimensions cannot be filled with ones or NaN (IndexError). The functions of the tools refuse as claimed, and filling is right otherwise."
  },
  {
   "property": "C166",
   "status": "proved",
   "theorems": [
    "C166_identity",
    "C166_out",
    "C166_refused"
   ],
   "note": ""
  },
  {
   "property": "C167",
   "status": "partial",
   "theorems": [
    "C167_dtype_partial",
    "C167_owner",
    "C167_not_moved_refuted",
    "C167_inferred_refuted",
    "C167_objects"
   ],
   "note": "False of the code if no dtype is given: a tensor is not moved to the requested device (a device other than the cpu is refused), and other data become float64 whatever their dtype. True with a dtype, and for the method of an object."
  },
  {
   "property": "C168",
   "status": "partial",
   "theorems": [
    "C168_decorators",
    "C168_chosen_partial",
    "C168_evaluate_all_refuted",
    "C168_stored_refused",
    "C168_aux"
   ],
   "note": "False of the code for a decorated method _evaluate_all: it is accepted, because bound methods are compared by identity and are new objects at each access. It is refused if stored in the instance. The rest holds."
  },
  {
   "property": "C169",
   "status": "partial",
   "theorems": [
    "C169_set_get_partial",
    "C169_cycle_refuted",
    "C169_no_names_refuted",
    "C169_refused",
    "C169_dotted"
   ],
   "note": "The read-back fails if the path passes through the attribute which is written (cycles), and an empty list of names is accepted without effect. True for all other paths."
  },
  {
   "property": "C17",
   "status": "proved",
   "theorems": [
    "C17_best_and_worst_ever"
   ],
   "note": "Any history of non-empty batches with finite evaluations. See C65 for NaN."
  },
  {
   "property": "C170",
   "status": "partial",
   "theorems": [
    "C170_options_partial",
    "C170_redundant",
    "C170_bounds",
    "C170_bounds_refuted",
    "C170_told",
    "C170_nan"
   ],
   "note": "False of the code for the option bounds: if the problem has bounds, bounds given in cma_options are dropped silently. All else holds."
  },
  {
   "property": "C171",
   "status": "proved",
   "theorems": [
    "C171_results",
    "C171_main_only"
   ],
   "note": "The actors' methods are arbitrary functions of state, arguments and keyword arguments. The order of results is that of ray.get."
  },
  {
   "property": "C172",
   "status": "partial",
   "theorems": [
    "C172_target_partial",
    "C172_named_refuted"
   ],
   "note": "False of the code for names: every name given as num_actors ends in TypeError. The device is right for numbers of actors."
  },
  {
   "property": "C173",
   "status": "partial",
   "theorems": [
    "C173_schedule_partial",
    "C173_lengths_refuted"
   ],
   "note": "False of the code for wrong lengths: VecGymNE fails with AttributeError, because its error message reads an attribute which does not exist yet. True for lengths two and three."
  },
  {
   "property": "C174",
   "status": "partial",
   "theorems": [
    "C174_limit_partial",
    "C174_all_evaluated",
    "C174_unlimited",
    "C174_actors_refuted"
   ],
   "note": "False of the code with actors: no evaluation works if both max_num_envs and actors are given, because the remote call lacks the argument kwargs. True without actors, and nothing fails without a limit."
  },
  {
   "property": "C175",
   "status": "partial",
   "theorems": [
    "C175_pieces_partial",
    "C175_ignored_refuted"
   ],
   "note": "False of the code in GymNE: num_subbatches is ignored and both arguments together are accepted. True of VecGymNE, and of GymNE without num_subbatches."
  },
  {
   "property": "C176",
   "status": "partial",
   "theorems": [
    "C176_spaces_partial",
    "C176_environment",
    "C176_error_refuted"
   ],
   "note": "Acceptance and lengths as stated; but the refusal is an AttributeError, and the check for the action space looks at the observation space."
  },
  {
   "property": "C177",
   "status": "partial",
   "theorems": [
    "C177_gym_partial",
    "C177_vec_refuted"
   ],
   "note": "False of VecGymNE: its noise is uniform on [0, s), so no action is ever decreased. GymNE adds the outcomes of a standard normal distribution times s."
  },
  {
   "property": "C178",
   "status": "proved",
   "theorems": [
    "C178_default_registry",
    "C178_unknown_registry",
    "C178_other_kwargs",
    "C178_gym"
   ],
   "note": "gym.make is not modelled; the theorems say what it is called with."
  },
  {
   "property": "C179",
   "status": "partial",
   "theorems": [
    "C179_brax_partial",
    "C179_dropped_refuted"
   ],
   "note": "False of the code: no keyword argument other than the number of environments reaches brax, because filtered_kwargs stays empty. The rest holds."
  },
  {
   "property": "C18",
   "status": "proved",
   "theorems": [
    "C18_compare_solutions",
    "C18_strict_weak_order",
    "C18_objective_needed"
   ],
   "note": "Including infinite evaluations."
  },
  {
   "property": "C180",
   "status": "partial",
   "theorems": [
    "C180_done_partial",
    "C180_truncated_refuted",
    "C180_seed"
   ],
   "note": "False of the code: truncation is never reported; a truncated episode is reported as terminated. Ends of episodes and seeds are right."
  },
  {
   "property": "C181",
   "status": "partial",
   "theorems": [
    "C181_on_device_partial",
    "C181_no_device",
    "C181_strings_refuted"
   ],
   "note": "False of the code if an array is not convertible to a tensor (for instance numpy strings reported by all sub-environments): reset and step raise TypeError. True otherwise."
  },
  {
   "property": "C182",
   "status": "partial",
   "theorems": [
    "C182_float_partial",
    "C182_no_tolerance",
    "C182_integers_refuted"
   ],
   "note": "False of the code for integer desired values: actual is cast to integers first, so everything from d up to (not including) d + 1 passes with tolerance 0. True for floating point dtypes and nested lists."
  },
  {
   "property": "C183",
   "status": "partial",
   "theorems": [
    "C183_float_partial",
    "C183_nan",
    "C183_integers_refuted"
   ],
   "note": "False of the code for arrays of integers: the bounds lose their fractions, so values below a lower bound pass. True for floating point dtypes and nested lists."
  },
  {
   "property": "C184",
   "status": "partial",
   "theorems": [
    "C184_float_partial",
    "C184_integers_refuted",
    "C184_scalar_refuted",
    "C184_shape_dtype"
   ],
   "note": "False of the code for arrays of integers (the fraction of the value is dropped) and for single numbers (IndexError). True for floating point arrays with at least one dimension; shapes and dtypes are compared as stated."
  },
  {
   "property": "C185",
   "status": "partial",
   "theorems": [
    "C185_configured_partial",
    "C185_kept",
    "C185_override_refuted",
    "C185_repeated_refuted"
   ],
   "note": "False of the code with override=True if the logger has two or more handlers: the loop removes handlers from the list it iterates over, so every second one stays; called twice, messages are printed twice. True for at most one handler."
  },
  {
   "property": "C186",
   "status": "proved",
   "theorems": [
    "C186_callable"
   ],
   "note": "For Box observation spaces with at least one dimension."
  },
  {
   "property": "C187",
   "status": "partial",
   "theorems": [
    "C187_vec_strings",
    "C187_gym_strings_partial",
    "C187_gym_override_refuted"
   ],
   "note": "True of VecGymNE. False of GymNE if network_args contain obs_space or act_space: these are replaced by the shapes. True of GymNE otherwise."
  },
  {
   "property": "C188",
   "status": "partial",
   "theorems": [
    "C188_same_partial",
    "C188_names_refuted",
    "C188_round_trip"
   ],
   "note": "False of the code for the names 'float' and 'int', which are 32 bits wide for PyTorch and 64 bits for numpy; true of all other specifications. bfloat16 has no numpy counterpart and is refused."
  },
  {
   "property": "C189",
   "status": "partial",
   "theorems": [
    "C189_kinds_partial",
    "C189_bfloat16_refuted",
    "C189_disjoint"
   ],
   "note": "False of the code for bfloat16 tensors without dimensions: TypeError. True otherwise."
  },
  {
   "property": "C19",
   "status": "proved",
   "theorems": [
    "C19_evaluations_never_stale",
    "C19_evaluation_is_current",
    "C19_kept_handle_refuted"
   ],
   "note": "Heap model with views, copies and handles; the refutation shows the proviso on kept handles is needed."
  },
  {
   "property": "C190",
   "status": "partial",
   "theorems": [
    "C190_vectors_partial",
    "C190_not_vectors",
    "C190_empty_refuted",
    "C190_objects_refuted",
    "C190_sequences"
   ],
   "note": "False of the code for numpy arrays with dtype object (always no) and for vectors without elements (a list or string is everything, a tensor is what its dtype says). True otherwise."
  },
  {
   "property": "C191",
   "status": "partial",
   "theorems": [
    "C191_copy_partial",
    "C191_torch_refuted"
   ],
   "note": "False of the code for PyTorch dtypes: TypeError for every source. True of the others except Any."
  },
  {
   "property": "C192",
   "status": "proved",
   "theorems": [
    "C192_shallow",
    "C192_cut",
    "C192_depth",
    "C192_marks"
   ],
   "note": ""
  },
  {
   "property": "C193",
   "status": "partial",
   "theorems": [
    "C193_tree_partial",
    "C193_size_refuted"
   ],
   "note": "False of the code for containers that contain themselves: w references give at least w^10 characters. True for containers without shared contents."
  },
  {
   "property": "C194",
   "status": "partial",
   "theorems": [
    "C194_best_partial",
    "C194_misfit_refuted",
    "C194_mean_refuted"
   ],
   "note": "False of the code: empty cells hold copies of one candidate and count in all reports. If there are empty cells, mean_eval equals the mean of the filled ones only if the fitness of that candidate does; if nothing fits anywhere, a misfit is reported as pop_best. True of pop_best if every candidate fits some cell."
  },
  {
   "property": "C195",
   "status": "partial",
   "theorems": [
    "C195_vec",
    "C195_gym_partial",
    "C195_fresh_refuted"
   ],
   "note": "False of the code for GymNE with observation normalization before the first observation: AttributeError. True otherwise, and always for VecGymNE."
  },
  {
   "property": "C196",
   "status": "proved",
   "theorems": [
    "C196_cem",
    "C196_pgpe_sgd",
    "C196_pgpe_clipup",
    "C196_pgpe_adam",
    "C196_no_leak",
    "C196_settings"
   ],
   "note": "The functions called are parameters of which shapes, tags and errors must not depend on values; what a sampler draws is an input. Uses functional extensionality (equality of tensors as functions of indices)."
  },
  {
   "property": "C197",
   "status": "proved",
   "theorems": [
    "C197_affine",
    "C197_moved_exists"
   ],
   "note": "Exact arithmetic; no optimizer; the draws and the fitness function are the same for both runs."
  },
  {
   "property": "C198",
   "status": "proved",
   "theorems": [
    "C198_score"
   ],
   "note": "Given a matrix exponential that is the identity at 0 with derivative V along V, and log det(A exp(tV)) = log det A + t trace V; exact arithmetic."
  },
  {
   "property": "C199",
   "status": "proved",
   "theorems": [
    "C199_units",
    "C199_units_sgd"
   ],
   "note": "whole runs in exact arithmetic; rankings and elites as functions which do not notice the transformation of fitnesses (C21 proves this of centered, linear and nes)"
  },
  {
   "property": "C20",
   "status": "partial",
   "theorems": [
    "C20_problem_objective_index",
    "C20_row_index",
    "C20_batch_objective_index_partial",
    "C20_batch_objective_index_refuted",
    "C20_solution_index_partial",
    "C20_solution_index_refuted"
   ],
   "note": "Problem.normalize_obj_index and row indices are right. False for batch objective indices and batch[i] at i = n (off by one); proved for every other index."
  },
  {
   "property": "C200",
   "status": "proved",
   "theorems": [
    "C200_unit_clipup",
    "C200_unit_adam"
   ],
   "note": "whole runs in exact arithmetic"
  },
  {
   "property": "C201",
   "status": "proved",
   "theorems": [
    "C201_coordinates",
    "C201_chain"
   ],
   "note": "exact arithmetic; uniqueness of the Cholesky factor is proved; torch.linalg.cholesky is assumed to find the factor whenever there is one"
  },
  {
   "property": "C202",
   "status": "partial",
   "theorems": [
    "C202_ga_partial",
    "C202_cosyne_partial",
    "C202_crossover",
    "C202_ranks",
    "C202_multi_objective_refuted",
    "C202_mapelites_partial",
    "C202_mapelites_infinity_refuted"
   ],
   "note": "true of one objective and of tournaments and Pareto ranks; false of runs with several objectives, where survivors are chosen by crowding distances. MAP-Elites: for changes which keep the infinities; any change which moves the worst infinity is noticed, because solutions of this fitness are not told from those outside of a cell"
  },
  {
   "property": "C203",
   "status": "proved",
   "theorems": [
    "C203_path",
    "C203_step_size",
    "C203_default_rates"
   ],
   "note": "real arithmetic"
  },
  {
   "property": "C204",
   "status": "partial",
   "theorems": [
    "C204_stall_partial",
    "C204_stall_refuted"
   ],
   "note": "the code divides by 1 - (1 - c_sigma)^(2n - 1) instead: a continued path is always short enough, but paths are also stalled when the normalized length is below the limit (by a factor below 2); shown for the first generation with any rates, dimension and population size"
  },
  {
   "property": "C205",
   "status": "partial",
   "theorems": [
    "C205_rate_partial",
    "C205_clipup_partial",
    "C205_adam_partial",
    "C205_sgd_partial",
    "C205_cem_refuted",
    "C205_snes_refuted"
   ],
   "note": "Proved for PGPE (with and without mirrored samples) and for SNES with balanced weights, by Chebyshev's sum inequality and an invariant of each optimizer over whole runs. Refuted for CEM and for SNES with non-negative weights such as those of linear ranking: whatever the fitness function, there are draws after which the center is worse. Exact arithmetic."
  },
  {
   "property": "C206",
   "status": "partial",
   "theorems": [
    "C206_ga_partial",
    "C206_cosyne_partial",
    "C206_map_elites",
    "C206_crossover",
    "C206_batch",
    "C206_order_partial",
    "C206_order_refuted",
    "C206_best_ever",
    "C206_compare",
    "C206_rankings"
   ],
   "note": "Order and runs of genetic algorithms: without NaN, and a genetic algorithm whose population has fitnesses or gets them before they are sorted. With NaN the order differs for every batch which has both a NaN and a number, because torch takes NaN as the greatest: last when minimizing, first when maximizing. The sorting function must order numbers and their negations alike also where they are equal (a stable one does); so must argmax and argmin."
  },
  {
   "property": "C207",
   "status": "proved",
   "theorems": [
    "C207_selection",
    "C207_run"
   ],
   "note": "the condition that the non-dominated candidates fit is part of the statement; without it crowding drops non-dominated solutions"
  },
  {
   "property": "C208",
   "status": "partial",
   "theorems": [
    "C208_once",
    "C208_together_partial",
    "C208_together_refuted",
    "C208_mapelites"
   ],
   "note": "parents first: the runs are equal, clock included. Together: the populations are equal when the first population is already evaluated (or after the first generation); in a fresh search the operators see parents without fitnesses, and with a non-elitist selection or an operator which depends on fitnesses the populations differ"
  },
  {
   "property": "C209",
   "status": "proved",
   "theorems": [
    "C209_rankings",
    "C209_values",
    "C209_elites",
    "C209_search",
    "C209_weights",
    "C209_xnes",
    "C209_cmaes",
    "C209_ties"
   ],
   "note": "exact arithmetic (float sums depend on their order); CMAES with rates for which its weights are defined (rates_ok)"
  },
  {
   "property": "C21",
   "status": "proved",
   "theorems": [
    "C21_linear",
    "C21_centered",
    "C21_nes",
    "C21_order_only",
    "C21_monotone_transformation",
    "C21_sense"
   ],
   "note": "Linear and centered over the rationals, nes over the reals."
  },
  {
   "property": "C210",
   "status": "partial",
   "theorems": [
    "C210_run",
    "C210_cosyne",
    "C210_mapelites",
    "C210_crossovers",
    "C210_mutations",
    "C210_polynomial_partial",
    "C210_fixed_refuted"
   ],
   "note": "Proved for every operator list whose operators keep solutions legal, and that the standard operators do; polynomial mutation needs lower < upper for every variable, and C210_fixed_refuted shows what happens with a fixed variable. Cut-and-splice works on sequences without bounds and is not covered; the evaluation is over exact real numbers."
  },
  {
   "property": "C211",
   "status": "partial",
   "theorems": [
    "C211_nes",
    "C211_same_search_partial",
    "C211_defaults_refuted"
   ],
   "note": "Equal learning rates: proved for whole runs, without optimizer and without limits on the standard deviation (XNES has none). The default learning rates for the standard deviation are 0.6 for SNES and 1.8 for XNES in one dimension: C211_defaults_refuted. Exact arithmetic; torch.matrix_exp of a 1 x 1 matrix is the exponential of its entry."
  },
  {
   "property": "C212",
   "status": "partial",
   "theorems": [
    "C212_same_paths",
    "C212_diagonal_partial",
    "C212_stalled_refuted",
    "C212_active_refuted"
   ],
   "note": "The variances agree (up to the constant 1e-23 of the code) without active=True in generations which are not stalled. In stalled generations the separable update gives the evolution path a smaller weight than the full one; with active=True (the default) the two subtract different multiples of the old variances, by the amount stated in C212_active_refuted. Without stdev_min and stdev_max."
  },
  {
   "property": "C213",
   "status": "partial",
   "theorems": [
    "C213_narrow_partial",
    "C213_overflow_refuted"
   ],
   "note": "Guarded version proved (the products of the shuffle fit into the dtype); beyond the threshold the code returns elements which were never put in, for every such capacity and range (unless high - low + 1 divides 2^b)."
  },
  {
   "property": "C214",
   "status": "proved",
   "theorems": [
    "C214_rnn",
    "C214_lstm",
    "C214_bounded"
   ],
   "note": "Exact real arithmetic. One parameter vector; batches of parameter vectors reduce to this case by C118."
  },
  {
   "property": "C215",
   "status": "partial",
   "theorems": [
    "C215_nearly_uniform",
    "C215_every_value_partial",
    "C215_every_value_refuted",
    "C215_randint_uniform",
    "C215_every_bool_and_float"
   ],
   "note": "The draws of Tensor.random_() are the integers 0..imax. Every value can be drawn under the stated condition; refuted beyond it (-1 is never drawn). Floats in exact arithmetic."
  },
  {
   "property": "C216",
   "status": "proved",
   "theorems": [
    "C216_plain",
    "C216_mirrored",
    "C216_quadratic"
   ],
   "note": "Exact arithmetic; probability distributions with finitely many outcomes (as the generators of a computer have). divide_mu_grad_by and divide_sigma_grad_by as PGPE sets them."
  },
  {
   "property": "C217",
   "status": "proved",
   "theorems": [
    "C217_center",
    "C217_pgpe",
    "C217_snes",
    "C217_cem",
    "C217_cmaes",
    "C217_xnes"
   ],
   "note": "exact arithmetic; finite distributions of draws; a run ends where a number would not be finite, and the average is taken of the last state; for XNES the matrix exponential is any function with exp(M) exp(-M) = 1 and volume e^trace(M)"
  },
  {
   "property": "C218",
   "status": "partial",
   "theorems": [
    "C218_run",
    "C218_seed",
    "C218_others_undisturbed",
    "C218_gymne",
    "C218_vecgymne_refuted"
   ],
   "note": "false for VecGymNE: the noise on actions is drawn from the global generator of PyTorch (torch.rand_like) and the seeds of environments from that of Python; exact for everything else; single device, no actors, the deterministic parts of the algorithms are arbitrary functions"
  },
  {
   "property": "C219",
   "status": "proved",
   "theorems": [
    "C219_polynomial",
    "C219_upper_bound",
    "C219_gaussian",
    "C219_sbx",
    "C219_generation_gaussian",
    "C219_generation_polynomial"
   ],
   "note": "In exact real arithmetic; draws of uniform generators are in [0, 1)."
  },
  {
   "property": "C22",
   "status": "proved",
   "theorems": [
    "C22_modify_tensor",
    "C22_between_is_nearest",
    "C22_modify_vector"
   ],
   "note": "Exact rationals extended by infinities and NaN; finite nonnegative maximum change, or an infinite one for nonzero originals."
  },
  {
   "property": "C220",
   "status": "proved",
   "theorems": [
    "C220_record",
    "C220_ga",
    "C220_cosyne",
    "C220_mapelites"
   ],
   "note": "The searches are run once more with a record of every solution handed to the fitness function; C220_record states that the record does not change them."
  },
  {
   "property": "C221",
   "status": "proved",
   "theorems": [
    "C221_ga",
    "C221_hall_of_fame"
   ],
   "note": "fitnesses without NaN (a NaN counts as the greatest number when sorting, see C206)"
  },
  {
   "property": "C222",
   "status": "partial",
   "theorems": [
    "C222_partial",
    "C222_between_partial",
    "C222_fewer_solutions_than_tasks_refuted",
    "C222_single_solutions_refuted",
    "C222_never_ends_refuted"
   ],
   "note": "Finite gradients and the true mean if every task gets enough solutions. Popsizes below the number of tasks are accepted and make NaN (or, with num_interactions and no popsize_max, a task which never ends); so do tasks of one solution with centered ranks."
  },
  {
   "property": "C223",
   "status": "proved",
   "theorems": [
    "C223_longest_chain",
    "C223_order_independent",
    "C223_another_solution"
   ],
   "note": "A characterization of ranks independent of the fronts of C13, and what follows about reordered and enlarged batches. Without NaN evaluations."
  },
  {
   "property": "C224",
   "status": "partial",
   "theorems": [
    "C224_gaussian",
    "C224_cmaes_partial",
    "C224_cmaes_length_one_refuted"
   ],
   "note": "CMA-ES squeezes its center before it checks that it is a vector, so it cannot be started on problems with solutions of length 1."
  },
  {
   "property": "C225",
   "status": "proved",
   "theorems": [
    "C225_clipup",
    "C225_clipup_straight",
    "C225_adam"
   ],
   "note": "Over the reals, for the functional ClipUp and Adam (C40 and C122 relate them to the classes). All-zero gradients make NaN with ClipUp and are excluded there (C74)."
  },
  {
   "property": "C226",
   "status": "partial",
   "theorems": [
    "C226_difference",
    "C226_equal_means_partial",
    "C226_blind_refuted"
   ],
   "note": "Over the reals. Agreement fails in general; C226_difference gives the exact difference, which is zero for the center under symmetric sampling."
  },
  {
   "property": "C227",
   "status": "proved",
   "theorems": [
    "C227_inside",
    "C227_collapse",
    "C227_frozen"
   ],
   "note": "Whole runs of the class CEM in exact arithmetic, as long as all numbers are finite. The functional search behaves otherwise once a standard deviation is 0 (C128_zero_refuted)."
  },
  {
   "property": "C228",
   "status": "partial",
   "theorems": [
    "C228_divisions",
    "C228_products_partial",
    "C228_fraction_partial",
    "C228_fraction_refuted",
    "C228_quotas_partial",
    "C228_quotas_refuted",
    "C228_quotas_enough",
    "C228_tournaments",
    "C228_models"
   ],
   "note": "Binary64 arithmetic as exact rational arithmetic rounded to 53 bits (nearest, ties to even), exponents unbounded. Ratios k/n may lose one solution; integer quotas may gain one."
  },
  {
   "property": "C229",
   "status": "proved",
   "theorems": [
    "C229_common_effects",
    "C229_search"
   ],
   "note": "Distributed step of DsModel for PGPE with centered ranks or raw fitnesses (real arithmetic; NaN as None). The hypothesis on argsort (comparisons only) is met by insertion sort, shown beside it. Devices, hooks and distribution clones are left out, as in DsModel; the number of interactions is not used."
  },
  {
   "property": "C23",
   "status": "proved",
   "theorems": [
    "C23_sigma_history",
    "C23_sigma_step",
    "C23_search"
   ],
   "note": "Any target without NaN (any distribution update)."
  },
  {
   "property": "C230",
   "status": "partial",
   "theorems": [
    "C230_rounding",
    "C230_order",
    "C230_in_dtype",
    "C230_close",
    "C230_sum_partial",
    "C230_sum_refuted",
    "C230_crowded_refuted"
   ],
   "note": "Order and closeness are proved up to 2^p solutions; that centered utilities sum up to 0 is false (C230_sum_refuted, for every precision from 2 bits), and so is distinctness beyond 2^p + 2 solutions. Rounding is once per operation, to nearest, ties to even, with unlimited exponents; C230_rounding shows that the model of rounding gives a nearest representable number. Half precision may be computed in float32 first by PyTorch; this second rounding is not modelled."
  },
  {
   "property": "C231",
   "status": "proved",
   "theorems": [
    "C231_episode",
    "C231_always_ends",
    "C231_in_time",
    "C231_evaluation",
    "C231_forever"
   ],
   "note": "Rollouts of RollModel (GymNE._rollout and run): rewards are exact, observations are normalized by a fixed function, no action noise; info_keys are not modelled."
  },
  {
   "property": "C232",
   "status": "partial",
   "theorems": [
    "C232_gradient",
    "C232_rate",
    "C232_sgd",
    "C232_adam",
    "C232_clipup_refuted",
    "C232_ranked_refuted"
   ],
   "note": "Staying at the center is proved for learning rates, SGD and Adam with fair weights; it is false with ClipUp (the run has no second generation with finite numbers) and with centered ranks (the exact move of a single pair). Runs of SafModel: exact arithmetic, a run ends where a number would not be finite."
  },
  {
   "property": "C233",
   "status": "partial",
   "theorems": [
    "C233_clones_partial",
    "C233_run_first_refuted",
    "C233_kill_refuted",
    "C233_stale_refuted"
   ],
   "note": "True while the main problem runs nothing itself and no actor is killed, for any sequence of evaluations, clones and switches to clones; the three refutations give the exact wrong totals, for every history of the kind. GymNE with observation normalization; pickling follows the same code as cloning; seeds and hooks are left out."
  },
  {
   "property": "C234",
   "status": "partial",
   "theorems": [
    "C234_copy_partial",
    "C234_rejected",
    "C234_shift_refuted"
   ],
   "note": "True if no cell of the slice is the cell of a later element of the given array, in particular for arrays which share no memory and for a[:] = a. False for a slice which overlaps later elements: the given array is read while the slice is written, so that a[1:] = a[:-1] fills the whole array with its first element (for all contents)."
  },
  {
   "property": "C235",
   "status": "partial",
   "theorems": [
    "C235_terminates",
    "C235_equal_partial",
    "C235_different_partial",
    "C235_converse_partial",
    "C235_contains_partial",
    "C235_pickle_partial",
    "C235_raises_refuted",
    "C235_tuple_refuted",
    "C235_keys_refuted",
    "C235_contains_refuted",
    "C235_pickle_refuted"
   ],
   "note": "Proved: comparisons end, equal data stay equal in both orders, the converse for nested lists of numbers and for all data in which no list or tuple faces another kind of container, membership of numbers and strings, pickling without sets. Refuted for all values of the stated shapes: comparisons with what is not iterable raise, kinds of containers are forgotten and equality is not transitive, asking for tuples raises, and sets cannot be unpickled. Tensors and arrays inside of containers are left out of this model."
  },
  {
   "property": "C24",
   "status": "partial",
   "theorems": [
    "C24_zero_stdev_refuted",
    "C24_tells_partial",
    "C24_change_partial",
    "C24_arguments_partial"
   ],
   "note": "False of the code: with an unlimited maximum change (default of cem) a component which reaches 0 becomes NaN for ever (0 * inf). Proved for a finite maximum change or a positive stdev_min."
  },
  {
   "property": "C25",
   "status": "partial",
   "theorems": [
    "C25_uniform_int_partial",
    "C25_default_int",
    "C25_randint",
    "C25_uniform_bool",
    "C25_uniform_float",
    "C25_default_float",
    "C25_one_bound_rejected",
    "C25_refuted",
    "C25_full_range_fails"
   ],
   "note": "True when the number of values between the bounds fits the dtype. False otherwise: fixed-width arithmetic wraps and the values leave the bounds (C25_refuted), or a division by zero is raised (C25_full_range_fails)."
  },
  {
   "property": "C26",
   "status": "proved",
   "theorems": [
    "C26_make_gaussian",
    "C26_functional",
    "C26_odd_rejected"
   ],
   "note": "Rational arithmetic instead of floating point."
  },
  {
   "property": "C27",
   "status": "proved",
   "theorems": [
    "C27_violation",
    "C27_penalty",
    "C27_monotone",
    "C27_errors",
    "C27_zero_exponent",
    "C27_negative_exponent"
   ],
   "note": "Real arithmetic. The positive exponent of the claim is needed: with exponent zero every solution, feasible or not, gets the same additional 1, and with a negative exponent satisfied constraints get the largest penalty."
  },
  {
   "property": "C28",
   "status": "proved",
   "theorems": [
    "C28_only_none",
    "C28_mappings_merged",
    "C28_sequences_joined",
    "C28_mixture_raises",
    "C28_exception_propagates",
    "C28_arguments",
    "C28_accumulate"
   ],
   "note": ""
  },
  {
   "property": "C29",
   "status": "proved",
   "theorems": [
    "C29_at_most_once",
    "C29_reads_agree",
    "C29_stored_value",
    "C29_fresh_after_clear",
    "C29_getters",
    "C29_keys"
   ],
   "note": "Getters are modelled as total functions of the algorithm's state; a getter which raises is not cached and is not covered."
  },
  {
   "property": "C30",
   "status": "proved",
   "theorems": [
    "C30_run",
    "C30_interrupted_run"
   ],
   "note": ""
  },
  {
   "property": "C31",
   "status": "proved",
   "theorems": [
    "C31_interval",
    "C31_pickling"
   ],
   "note": ""
  },
  {
   "property": "C32",
   "status": "proved",
   "theorems": [
    "C32_multi_point",
    "C32_one_point",
    "C32_constructor"
   ],
   "note": "Cut positions are an oracle with the range of the torch call; sequences of genes are functional values, so parents are not modified by construction."
  },
  {
   "property": "C33",
   "status": "proved",
   "theorems": [
    "C33_cut_and_splice",
    "C33_material_conserved"
   ],
   "note": ""
  },
  {
   "property": "C34",
   "status": "proved",
   "theorems": [
    "C34_columns_permuted",
    "C34_permute_all",
    "C34_selection"
   ],
   "note": "torch.argsort is an arbitrary correct sorter; the real power used for the selection probability is exact."
  },
  {
   "property": "C35",
   "status": "proved",
   "theorems": [
    "C35_mean_preserved",
    "C35_bounds"
   ],
   "note": "Real arithmetic instead of floats."
  },
  {
   "property": "C36",
   "status": "proved",
   "theorems": [
    "C36_single_objective",
    "C36_multi_objective",
    "C36_number_of_children",
    "C36_both_refused"
   ],
   "note": "NaN-free evaluations."
  },
  {
   "property": "C37",
   "status": "proved",
   "theorems": [
    "C37_size",
    "C37_progress",
    "C37_elitism_monotone",
    "C37_best_never_worse"
   ],
   "note": "Operators, sorting and evaluation are arbitrary functions; monotonicity for NaN-free deterministic single-objective fitness."
  },
  {
   "property": "C38",
   "status": "proved",
   "theorems": [
    "C38_archive",
    "C38_never_worse",
    "C38_progress"
   ],
   "note": "Deterministic problem; fitness never NaN nor the worst infinity (see C95). argmin/argmax may break ties in any way."
  },
  {
   "property": "C39",
   "status": "partial",
   "theorems": [
    "C39_cover",
    "C39_boundaries_partial",
    "C39_reversed_bounds_refuted"
   ],
   "note": "Covering proved for all finite bounds; sharing only boundaries proved for lower <= upper; false for reversed bounds, which are not refused. linspace is any function giving the requested number of finite points in order."
  },
  {
   "property": "C40",
   "status": "proved",
   "theorems": [
    "C40_class",
    "C40_functional",
    "C40_step",
    "C40_agree"
   ],
   "note": "Real arithmetic; histories may also change hyperparameters legally."
  },
  {
   "property": "C41",
   "status": "proved",
   "theorems": [
    "C41_statistics",
    "C41_order_and_grouping"
   ],
   "note": "Merge trees of updates, single observations, masks, merges and resets; variance is specified about the mean. The first update of an empty object must select something (see C42)."
  },
  {
   "property": "C42",
   "status": "partial",
   "theorems": [
    "C42_masked_rows_partial",
    "C42_empty_mask_partial",
    "C42_callers_arrays_partial",
    "C42_empty_mask_refuted",
    "C42_masked_nan_refuted",
    "C42_alias_refuted"
   ],
   "note": "False of the code: an all-False first mask leaves an invalid state on which every later update fails; a NaN in a masked-out row contaminates the mean for ever (NaN * 0); the array of a first single observation is kept and modified in place by the next update. Proved once there are data, for real numbers, and when no first single observation is kept."
  },
  {
   "property": "C43",
   "status": "proved",
   "theorems": [
    "C43_accepted_iff",
    "C43_parameters",
    "C43_write_read",
    "C43_read_write",
    "C43_slices_partition"
   ],
   "note": ""
  },
  {
   "property": "C44",
   "status": "proved",
   "theorems": [
    "C44_parenthesisation",
    "C44_order",
    "C44_first_error",
    "C44_refused",
    "C44_nesting"
   ],
   "note": "Modules other than torch Sequential (see C109)."
  },
  {
   "property": "C45",
   "status": "proved",
   "theorems": [
    "C45_alone",
    "C45_number_of_ends",
    "C45_wrong_number_of_actions",
    "C45_seed_used_once"
   ],
   "note": ""
  },
  {
   "property": "C46",
   "status": "proved",
   "theorems": [
    "C46_vectorised_score",
    "C46_scalar_score",
    "C46_agree",
    "C46_terminates"
   ],
   "note": "The reading of the fitness as an average over exactly num_episodes episodes also holds while the observation statistics change."
  },
  {
   "property": "C47",
   "status": "partial",
   "theorems": [
    "C47_statistics",
    "C47_distribution",
    "C47_vectorized_partial",
    "C47_idle_actor_refuted",
    "C233_run_first_refuted"
   ],
   "note": "Proved for GymNE once its actors exist; observations made by the main problem before that are counted again for each actor (C233_run_first_refuted). For VecGymNE proved if no actor is idle; otherwise the delta of an idle actor is None, which RunningNorm.update refuses, for every earlier history."
  },
  {
   "property": "C48",
   "status": "partial",
   "theorems": [
    "C48_original",
    "C48_clone_partial",
    "C48_clone_refuted"
   ],
   "note": "False of the code without actors: after any evaluation every clone raises TypeError. Proved with actors, or when nothing has been evaluated yet."
  },
  {
   "property": "C49",
   "status": "partial",
   "theorems": [
    "C49_as_immutable",
    "C49_idempotent",
    "C49_rejected_keys",
    "C49_round_trip_partial",
    "C49_tuple_refuted",
    "C49_tuple_key_refuted",
    "C49_set_refuted"
   ],
   "note": "as_immutable gives, for every (also shared or cyclic) graph of lists, tuples, dictionaries with plain keys, sets of scalars and tensors, tensors and numeric arrays, an isomorphic graph of immutable objects only; applying it again changes nothing. The round trip is isomorphic to the original except that tuples come back as lists. The rest of the claim is false: tuples become lists, mutable_copy fails on dictionaries with tuple keys, sets containing tuples cannot be made immutable. Numpy arrays of objects and ObjectArrays are outside the guarded theorem."
  },
  {
   "property": "C50",
   "status": "partial",
   "theorems": [
    "C50_deep_clone_partial",
    "C50_flags",
    "C50_tuple_cycle_refuted",
    "C50_object_ndarray_refuted",
    "C50_read_only_refuted"
   ],
   "note": "Proved for all graphs without cycles through tuples, numpy arrays of objects, read-only ObjectArrays and directly nested ObjectArrays: termination, isomorphism with sharing and cycles, no shared mutable objects. False otherwise: a cycle through a tuple gives a clone with a list in place of the tuple; the clone of an object-dtype numpy array shares its elements; the clone of a read-only ObjectArray is writable."
  },
  {
   "property": "C51",
   "status": "partial",
   "theorems": [
    "C51_read_only_partial",
    "C51_rejected",
    "C51_read",
    "C51_slice",
    "C51_view",
    "C51_write",
    "C51_selection",
    "C51_copy",
    "C51_from_objects",
    "C51_immutable",
    "C51_refuted"
   ],
   "note": "Proved for all programs in which no array contains a writable array: whatever a program does which has got only read-only arrays, the contents stay as they are. False in general: an array may be put into itself, is then stored as it is (not as a read-only view), and can be obtained from a read-only view of it."
  },
  {
   "property": "C52",
   "status": "proved",
   "theorems": [
    "C52_batched",
    "C52_raises",
    "C52_mismatch",
    "C52_too_few_dimensions",
    "C52_rowwise"
   ],
   "note": "torch.func.vmap is modelled as a map over slices."
  },
  {
   "property": "C53",
   "status": "proved",
   "theorems": [
    "C53_actor_seeds_distinct",
    "C53_actor_seeds_in_range"
   ],
   "note": ""
  },
  {
   "property": "C54",
   "status": "proved",
   "theorems": [
    "C54_adaptive_popsize",
    "C54_terminates_with_maximum",
    "C54_remote_loop_agrees",
    "C54_maximum_exceeded_refuted"
   ],
   "note": "The refutation shows that popsize_max itself can be exceeded (by less than popsize, proved)."
  },
  {
   "property": "C55",
   "status": "proved",
   "theorems": [
    "C55_elites",
    "C55_center_and_stdev"
   ],
   "note": "The product n * ratio is exact in the model."
  },
  {
   "property": "C56",
   "status": "proved",
   "theorems": [
    "C56_weights",
    "C56_symmetric"
   ],
   "note": ""
  },
  {
   "property": "C57",
   "status": "partial",
   "theorems": [
    "C57_stream_partial",
    "C57_stream_exists_partial",
    "C57_epoch_partial",
    "C57_actors_refuted"
   ],
   "note": "The epoch part is proved in full within one process. Common minibatches are common only within one process: actors draw their own."
  },
  {
   "property": "C58",
   "status": "proved",
   "theorems": [
    "C58_ipop",
    "C58_integer_multiplier",
    "C58_plain"
   ],
   "note": "The multiplication with the population size is exact (rational) in the model."
  },
  {
   "property": "C59",
   "status": "proved",
   "theorems": [
    "C59_registry"
   ],
   "note": "The answer of every call in every call sequence equals a history-based specification."
  },
  {
   "property": "C60",
   "status": "partial",
   "theorems": [
    "C60_fill",
    "C60_empty",
    "C60_objects",
    "C60_random_partial",
    "C60_randint_partial",
    "C60_identity",
    "C60_free_functions",
    "C60_into_out",
    "C60_conflicting_sizes",
    "C60_conflicting_dtypes",
    "C60_out_ignores_refuted",
    "C60_empty_out_refuted",
    "C60_randint_eval_refuted",
    "C60_dtype_name_refuted",
    "C60_exception_returned_refuted"
   ],
   "note": "True for requests that give no `out` tensor and name the dtype by a torch dtype: shape, dtype, device and contents are as asked, and conflicting arguments are rejected. False otherwise: with `out`, sizes, num_solutions and dtype are silently ignored; make_empty(out=...) always raises TypeError; make_randint(use_eval_dtype=True) always raises ValueError; the random makers fail for dtype names; make_empty of objects on a device other than the cpu returns the exception instead of raising it."
  },
  {
   "property": "C61",
   "status": "partial",
   "theorems": [
    "C61_copies_partial",
    "C61_roundtrip_partial",
    "C61_roundtrip_batched",
    "C61_rejected",
    "C61_start_refuted",
    "C61_scalar_box_refuted",
    "C61_large_refuted"
   ],
   "note": "Proved for Box spaces with at least one dimension and for Discrete spaces that begin at 0 (with at most 2^53 elements: the number goes through float64). False: a Discrete space with start other than 0 comes back with start 0, and a Box without dimensions is rejected when it is unbatched."
  },
  {
   "property": "C62",
   "status": "partial",
   "theorems": [
    "C62_clist_masked_clear_refuted",
    "C62_cdict_masked_clear_refuted"
   ],
   "note": "False of the code: a masked clear always raises AttributeError. The unmasked clear is covered by C01/C07."
  },
  {
   "property": "C63",
   "status": "partial",
   "theorems": [
    "C63_xnes_distributed_refuted",
    "C63_vector_gradients_partial"
   ],
   "note": "False of the code: the matrix-shaped gradient is added to a vector-shaped accumulator of the wrong size, for every dimension. True for vector-shaped gradients."
  },
  {
   "property": "C64",
   "status": "partial",
   "theorems": [
    "C64_own_generator_refuted",
    "C64_global_generator_partial"
   ],
   "note": "False of the code: AttributeError for every seed assignment. True without an own generator."
  },
  {
   "property": "C65",
   "status": "partial",
   "theorems": [
    "C65_nan_status_refuted",
    "C65_nan_taken_first_refuted",
    "C65_minimisation_partial"
   ],
   "note": "False of the code: NaN wins when maximizing and breaks the status; proved for take_best when minimizing."
  },
  {
   "property": "C66",
   "status": "proved",
   "theorems": [
    "C66_set_evals_writes",
    "C66_set_evals_accepts",
    "C66_forget_evals",
    "C66_is_evaluated"
   ],
   "note": ""
  },
  {
   "property": "C67",
   "status": "proved",
   "theorems": [
    "C67_utility_order"
   ],
   "note": ""
  },
  {
   "property": "C68",
   "status": "proved",
   "theorems": [
    "C68_crowding_distance"
   ],
   "note": "Finite utilities, exact arithmetic."
  },
  {
   "property": "C69",
   "status": "partial",
   "theorems": [
    "C69_single_fitness_refuted",
    "C69_constant_fitness_refuted",
    "C69_finite_partial"
   ],
   "note": "False of the code for a single solution (centered, linear: 0/0) and for equal fitnesses (normalized). Proved otherwise."
  },
  {
   "property": "C70",
   "status": "proved",
   "theorems": [
    "C70_normalized",
    "C70_affine_invariance"
   ],
   "note": "Exact real arithmetic."
  },
  {
   "property": "C71",
   "status": "partial",
   "theorems": [
    "C71_one_elite_refuted",
    "C71_two_elites_partial"
   ],
   "note": "False of the code with fewer than two elites (torch.std of one row is NaN). Proved for two or more."
  },
  {
   "property": "C72",
   "status": "proved",
   "theorems": [
    "C72_monotone",
    "C72_violated",
    "C72_satisfied",
    "C27_errors"
   ],
   "note": "Real arithmetic with explicit infinities."
  },
  {
   "property": "C73",
   "status": "proved",
   "theorems": [
    "C73_direction_only"
   ],
   "note": ""
  },
  {
   "property": "C74",
   "status": "partial",
   "theorems": [
    "C74_zero_gradient_refuted",
    "C74_functional_refuted",
    "C74_nonzero_partial"
   ],
   "note": "False of the code: 0/0 makes velocity NaN for ever. Proved for non-zero gradients."
  },
  {
   "property": "C75",
   "status": "partial",
   "theorems": [
    "C75_constructor_partial",
    "C75_set_then_get_partial",
    "C75_refuted",
    "C75_moves_backwards_refuted"
   ],
   "note": "The constructor validates; param_groups accepts every value because the bound tables are looked up by attribute name."
  },
  {
   "property": "C76",
   "status": "proved",
   "theorems": [
    "C76_offset",
    "C76_equal_fitnesses"
   ],
   "note": "Exact real arithmetic."
  },
  {
   "property": "C77",
   "status": "proved",
   "theorems": [
    "C77_half"
   ],
   "note": "Exact real arithmetic."
  },
  {
   "property": "C78",
   "status": "proved",
   "theorems": [
    "C78_translation",
    "C78_dilation"
   ],
   "note": "Exact real arithmetic."
  },
  {
   "property": "C79",
   "status": "proved",
   "theorems": [
    "C79_relative_entropy"
   ],
   "note": "Exact real arithmetic."
  },
  {
   "property": "C80",
   "status": "partial",
   "theorems": [
    "C80_exponential_partial",
    "C80_additive_refuted"
   ],
   "note": "True of the exponential update (SNES). False of the additive update (PGPE and the plain distributions): the gradient may exceed the standard deviation and nothing clips it unless stdev bounds are given."
  },
  {
   "property": "C81",
   "status": "proved",
   "theorems": [
    "C81_inverse"
   ],
   "note": "Given a matrix exponential with exp(-M) = exp(M)^-1; exact arithmetic."
  },
  {
   "property": "C82",
   "status": "partial",
   "theorems": [
    "C82_optimizer_refuted",
    "C82_never_used_refuted",
    "C82_learning_rate_partial"
   ],
   "note": "False of the code: the XNES update needs a learning rate for 'mu' and ignores an optimizer for it, so the combination raises KeyError. Proved without an optimizer."
  },
  {
   "property": "C83",
   "status": "partial",
   "theorems": [
    "C83_stale_rate_refuted",
    "C83_fresh_partial"
   ],
   "note": "False of the code: 'd' and 'M' are written into the caller's dictionary. Proved for a fresh dictionary."
  },
  {
   "property": "C84",
   "status": "partial",
   "theorems": [
    "C84_refuted",
    "C84_cov_partial"
   ],
   "note": "False of the code: cov is the transpose product in the wrong order. True exactly for normal transforms (diagonal, symmetric)."
  },
  {
   "property": "C85",
   "status": "partial",
   "theorems": [
    "C85_assigned_sigma_refuted",
    "C85_constructed_partial"
   ],
   "note": "False of the code: the sigma setter keeps the old inverse. True for constructed distributions."
  },
  {
   "property": "C86",
   "status": "proved",
   "theorems": [
    "C86_plain",
    "C86_exponential"
   ],
   "note": "Exact real arithmetic; together with C77 this determines the symmetric gradients on mirrored samples."
  },
  {
   "property": "C87",
   "status": "partial",
   "theorems": [
    "C87_status_partial",
    "C87_status_after_restart_refuted"
   ],
   "note": "False of the code for wrapped algorithms whose population is None before their first step (PGPE, SNES, XNES, CEM): right after a restart the status item algorithm_terminated raises AttributeError. Proved for algorithms which have a population from the start."
  },
  {
   "property": "C88",
   "status": "partial",
   "theorems": [
    "C88_inside_partial",
    "C88_fixed_variable_refuted"
   ],
   "note": "Proved if the lower bound is below the upper bound; false for fixed variables (lower bound = upper bound, accepted by the constructor): a mutated fixed gene becomes NaN."
  },
  {
   "property": "C89",
   "status": "proved",
   "theorems": [
    "C89_gaussian_mutation"
   ],
   "note": "Real arithmetic instead of floats."
  },
  {
   "property": "C90",
   "status": "partial",
   "theorems": [
    "C90_children_partial",
    "C90_small_rate_refuted",
    "C90_single_gene_refuted"
   ],
   "note": "Proved for multi-point cross-over on one objective with at least two children and, for one cut point, at least two genes; false when 0 < len*rate < 1 (IndexError) and for one-point cross-over on solutions of length 1 (ZeroDivisionError)."
  },
  {
   "property": "C91",
   "status": "partial",
   "theorems": [
    "C91_evaluated_partial",
    "C91_stale_parents_refuted",
    "C91_multi_objective_refuted"
   ],
   "note": "Proved for elitist=True, re_evaluate=False or re_evaluate_parents_first=True; otherwise false when there are fewer children than parents: the kept parents carry stale (initially missing) evaluations, and with several objectives the first generation fails with ValueError."
  },
  {
   "property": "C92",
   "status": "partial",
   "theorems": [
    "C92_replacement_partial",
    "C92_worst_are_kept_refuted"
   ],
   "note": "Proved when the parents are evaluated before the children are made; otherwise false: for every sorter there is a fitness function for which every replaced solution is better than every kept one."
  },
  {
   "property": "C93",
   "status": "partial",
   "theorems": [
    "C93_cosyne_partial",
    "C93_cosyne_progress_partial",
    "C93_constructor",
    "C93_small_population_refuted"
   ],
   "note": "Size, evaluation and elites are proved for every successful run, progress for popsize >= 4; false for popsize < 4: the cross-over gets no parents and fails."
  },
  {
   "property": "C94",
   "status": "proved",
   "theorems": [
    "C94_parents_are_evaluated",
    "C94_constructor",
    "C94_steady"
   ],
   "note": "The parents handed to the first operator of the list."
  },
  {
   "property": "C95",
   "status": "partial",
   "theorems": [
    "C95_ordinary_partial",
    "C95_infinite_fitness_refuted",
    "C95_nan_fitness_refuted"
   ],
   "note": "Proved without NaN and without the worst infinity; otherwise false: a fitting candidate with the worst infinite fitness can be reported as not filled and lost, and a NaN fitness takes over the cell."
  },
  {
   "property": "C96",
   "status": "partial",
   "theorems": [
    "C96_shape_partial",
    "C96_short_bins_refuted"
   ],
   "note": "Proved for one number of bins or one per feature; false for a shorter sequence, which silently drops the last features."
  },
  {
   "property": "C97",
   "status": "proved",
   "theorems": [
    "C97_positive_definite",
    "C97_default_rates",
    "C97_default_popsize",
    "C97_defaults"
   ],
   "note": "Real arithmetic; cholesky is assumed to factor every symmetric positive definite matrix."
  },
  {
   "property": "C98",
   "status": "partial",
   "theorems": [
    "C98_limits_hold",
    "C98_limits_keep_positive_definite_partial",
    "C98_upper_limit_refuted"
   ],
   "note": "The limits hold. An upper limit cuts only the diagonal of a full covariance matrix, which can lose positive definiteness (refuted for every limit); true without an upper limit, and for diagonal covariances."
  },
  {
   "property": "C99",
   "status": "partial",
   "theorems": [
    "C97_default_rates",
    "C99_separable_large_population_refuted"
   ],
   "note": "For every dimension there is a population size above which the default c_mu exceeds 1 and the variances can become negative; true for popsize <= 2 (d + 4 sqrt d + 1)."
  }
 ]
}